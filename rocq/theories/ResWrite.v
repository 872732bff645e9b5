(** Restart files: the text that dump_restart writes. *)
From Coq Require Import String Ascii NArith ZArith Bool Arith Lia List.
From Verif Require Import CStr ParModel UtilModel ResModel ResSpec ResFacts.
Import ListNotations.
Open Scope Z_scope.

Section W.
Context {R : Type} (M : mach R) (c : rcfg).
Hypothesis OK : mach_ok M.

Definition part_text {A} (C : codec A) (get : part R -> A) (g : grid R) : str :=
  flat_map (fun p => c_enc C (get p)) (own_parts g).
Lemma filter_map_swap : forall X Y (f : X -> Y) (P : Y -> bool) l,
  filter P (map f l) = map f (filter (fun x => P (f x)) l).
Proof. intros. induction l as [|x l IH]; [reflexivity|]. cbn. rewrite IH. destruct (P (f x)); reflexivity. Qed.
Lemma flat_map_map : forall X Y Z (f : X -> Y) (g : Y -> list Z) l, flat_map g (map f l) = flat_map (fun x => g (f x)) l.
Proof. intros. induction l as [|x l IH]; [reflexivity|]. cbn. rewrite IH. reflexivity. Qed.

Lemma write_part_ok : forall A (C : codec A) lab get g file, (1 <= bufsize C)%N ->
  write_part C lab get g (file, []) = Ok (file ++ head_text lab ++ part_text C get g, []).
Proof.
  intros A C lab get g file B. unfold write_part. rewrite fori_fold.
  destruct (puts_if_ok C _ (fun p => get (g_part g p)) (fun p => p_pos (g_part g p) =? 1) (zrange 0 (g_np g))
             (heading lab file, []) B) as (w' & E & _ & O); [unfold room; cbn [snd length]; lia|].
  cbn [fst snd]. rewrite E. cbn [bind]. rewrite flush_ok, O. unfold out, heading, head_text, part_text, own_parts.
  cbn [fst snd flat_map]. rewrite app_nil_r, <- app_assoc, filter_map_swap, flat_map_map. reflexivity.
Qed.
Lemma write_partZ_ok : forall (C : codec Z) lab get g file, (1 <= bufsize C)%N ->
  write_partZ C lab get g (file, []) = Ok (file ++ head_text lab ++ part_text C get g, []).
Proof. intros. unfold write_partZ. cbn [fst snd]. rewrite write_part_ok by auto. reflexivity. Qed.

Lemma count_part_ok : forall (g : grid R), count_part g = Z.of_nat (length (own_parts g)).
Proof.
  intros g. unfold count_part, own_parts. rewrite fori_fold.
  rewrite filter_map_swap, map_length.
  assert (H : forall l n, fold_left (fun s x => if p_pos (g_part g x) =? 1 then s + 1 else s) l n =
                n + Z.of_nat (length (filter (fun x => p_pos (g_part g x) =? 1) l))).
  { induction l as [|x l IH]; intros n; [cbn; lia|]. cbn [fold_left filter]. rewrite IH.
    destruct (p_pos (g_part g x) =? 1); cbn [length]; lia. }
  rewrite H. lia.
Qed.

Definition type_text (t : glob R) (i : Z) : str :=
  (if r_feed c then c_enc (cR M) (t_r t TM i) else []) ++ c_enc (cR M) (t_r t TRad i) ++
  c_enc (cR M) (t_r t TRho i) ++ c_enc (cR M) (t_r t TTs i) ++ c_enc (cR M) (t_r t TRa i).
Definition types_text (t : glob R) (g : grid R) : str :=
  head_text (S_ "PARTICLE LIST") ++ c_enc (cL M) (Z.of_nat (length (own_parts g))) ++ c_enc (cI M) (t_n t) ++
  flat_map (type_text t) (zrange 0 (t_n t)) ++ c_enc (cR M) (t_alam t) ++
  flat_map (fun i => c_enc (cS M) (t_integ t i)) (zrange 0 (t_n t)).

Lemma write_types_ok : forall t g file,
  write_types M c t g (file, []) = Ok (file ++ types_text t g, []).
Proof.
  intros t g file. destruct OK as ((SR & _) & (SI & _) & (SL & _) & (SS & _)).
  pose proof (buf_big _ _ SR) as BR. pose proof (buf_big _ _ SS) as BS.
  unfold write_types. cbn [fst snd]. rewrite count_part_ok. rewrite fori_fold.
  set (np := if r_feed c then 5%N else 4%N).
  set (F := fwrite1 (cI M) (t_n t) _).
  set (body := fun (s : res (wst R)) (x : Z) => _).
  assert (B : forall l w, room (cR M) np w -> exists w', fold_left body l (Ok w) = Ok w' /\ room (cR M) np w' /\
            out (cR M) w' = out (cR M) w ++ flat_map (type_text t) l).
  { induction l as [|i l IH]; intros w Hw; [exists w; cbn; rewrite app_nil_r; auto|].
    cbn [fold_left flat_map]. unfold body at 2. cbn [bind].
    assert (E1 : exists w1, (if r_feed c then store (cR M) (t_r t TM i) w else Ok w) = Ok w1 /\ room (cR M) 4 w1 /\
              out (cR M) w1 = out (cR M) w ++ (if r_feed c then c_enc (cR M) (t_r t TM i) else [])).
    { subst np. destruct (r_feed c).
      - apply store_ok; auto.
      - exists w. rewrite app_nil_r. auto. }
    destruct E1 as (w1 & E1 & R1 & O1). rewrite E1. cbn [bind].
    destruct (store_ok (cR M) 3 (t_r t TRad i) w1 R1) as (w2 & E2 & R2 & O2). rewrite E2. cbn [bind].
    destruct (store_ok (cR M) 2 (t_r t TRho i) w2 R2) as (w3 & E3 & R3 & O3). rewrite E3. cbn [bind].
    destruct (store_ok (cR M) 1 (t_r t TTs i) w3 R3) as (w4 & E4 & R4 & O4). rewrite E4. cbn [bind].
    destruct (store_ok (cR M) 0 (t_r t TRa i) w4 R4) as (w5 & E5 & R5 & O5). rewrite E5. cbn [bind].
    destruct (spill_ok (cR M) np w5) as (R6 & O6); [subst np; destruct (r_feed c); lia|].
    destruct (IH _ R6) as (w' & E' & R' & O'). exists w'. split; [exact E'|]. split; [exact R'|].
    rewrite O', O6, O5, O4, O3, O2, O1. unfold type_text. rewrite <- !app_assoc. reflexivity. }
  destruct (B (zrange 0 (t_n t)) (F, [])) as (w' & E & _ & O);
    [unfold room; cbn [snd length]; subst np; destruct (r_feed c); lia|].
  rewrite E. cbn [bind]. rewrite flush_ok. cbn [fst snd]. rewrite fori_fold.
  destruct (puts_ok (cS M) _ (t_integ t) (zrange 0 (t_n t)) (fwrite1 (cR M) (t_alam t) (out (cR M) w'), []))
    as (v & Ev & _ & Ov); [lia|unfold room; cbn [snd length]; lia|].
  rewrite Ev. cbn [bind]. rewrite flush_ok. cbn [fst]. rewrite Ov. unfold out at 1. cbn [fst snd flat_map].
  rewrite app_nil_r. unfold fwrite1 at 1. rewrite O. unfold out. cbn [fst snd flat_map]. rewrite app_nil_r.
  subst F. unfold fwrite1, heading, types_text, head_text. rewrite <- !app_assoc. reflexivity.
Qed.

Definition parts_text (t : glob R) (g : grid R) : str :=
  types_text t g ++
  (head_text (S_ "PARTICLE X1") ++ part_text (cR M) (fun p => p_r p X1) g) ++
  (head_text (S_ "PARTICLE X2") ++ part_text (cR M) (fun p => p_r p X2) g) ++
  (head_text (S_ "PARTICLE X3") ++ part_text (cR M) (fun p => p_r p X3) g) ++
  (head_text (S_ "PARTICLE V1") ++ part_text (cR M) (fun p => p_r p V1) g) ++
  (head_text (S_ "PARTICLE V2") ++ part_text (cR M) (fun p => p_r p V2) g) ++
  (head_text (S_ "PARTICLE V3") ++ part_text (cR M) (fun p => p_r p V3) g) ++
  (head_text (S_ "PARTICLE PROPERTY") ++ part_text (cI M) p_prop g) ++
  (head_text (S_ "PARTICLE MY_ID") ++ part_text (cL M) p_id g) ++
  (if r_mpi c then head_text (S_ "PARTICLE INIT_ID") ++ part_text (cI M) p_init g else []).
Lemma write_parts_ok : forall t g file,
  write_parts M c t g (file, []) = Ok (file ++ parts_text t g, []).
Proof.
  intros t g file. pose proof OK as ((SR & _) & (SI & _) & (SL & _) & (SS & _)).
  pose proof (buf_big _ _ SR) as BR. pose proof (buf_big _ _ SI) as BI. pose proof (buf_big _ _ SL) as BL.
  unfold write_parts. rewrite write_types_ok. cbn [bind].
  do 6 (rewrite write_part_ok by lia; cbn [bind]).
  do 2 (rewrite write_partZ_ok by lia; cbn [bind]).
  unfold parts_text. destruct (r_mpi c).
  - rewrite write_partZ_ok by lia. rewrite <- !app_assoc. reflexivity.
  - rewrite app_nil_r, <- !app_assoc. reflexivity.
Qed.

Definition fld_text (lab : str) (f : fld) (ks ke js je is_ ie : Z) (u : arrays R) : str :=
  head_text lab ++ text3 M f ks ke js je is_ ie u.
Definition field_text (g : grid R) (b : wide) : str :=
  fld_text (S_ "1-FIELD") FB1i (g_ks g) (g_ke g) (g_js g) (g_je g) (g_is g) (g_ie g + b2z (w1 b)) (g_u g) ++
  fld_text (S_ "2-FIELD") FB2i (g_ks g) (g_ke g) (g_js g) (g_je g + b2z (w2 b)) (g_is g) (g_ie g) (g_u g) ++
  fld_text (S_ "3-FIELD") FB3i (g_ks g) (g_ke g + b2z (w3 b)) (g_js g) (g_je g) (g_is g) (g_ie g) (g_u g).
Definition cells_text (lab : str) (f : fld) (g : grid R) : str :=
  fld_text lab f (g_ks g) (g_ke g) (g_js g) (g_je g) (g_is g) (g_ie g) (g_u g).
Definition next_wide (g : grid R) (b : wide) : wide := if r_mhd c then widen g b else b.
Definition grid_text (t : glob R) (g : grid R) (b : wide) : str :=
  cells_text (S_ "DENSITY") FD g ++ cells_text (S_ "1-MOMENTUM") FM1 g ++ cells_text (S_ "2-MOMENTUM") FM2 g ++
  cells_text (S_ "3-MOMENTUM") FM3 g ++
  (if r_baro c then [] else cells_text (S_ "ENERGY") FE g) ++
  (if r_mhd c then field_text g (widen g b) else []) ++
  flat_map (fun n => cells_text (scalar_label n) (FS n) g) (zrange 0 (r_nscal c)) ++
  (if r_part c then parts_text t g else []).
Lemma write_grid_ok : forall t g b file,
  write_grid M c t g b (file, []) = Ok (next_wide g b, (file ++ grid_text t g b, [])).
Proof.
  intros t g b file. unfold write_grid, next_wide, grid_text. cbv beta zeta.
  do 4 (rewrite write_fld_ok by auto; cbn [bind]).
  match goal with |- context [if r_baro c then Ok (?f, []) else _] => set (file1 := f) end.
  assert (E1 : (if r_baro c then Ok (file1, []) else
      write_fld M (S_ "ENERGY") FE (g_ks g) (g_ke g) (g_js g) (g_je g) (g_is g) (g_ie g) (g_u g) (file1, [])) =
      Ok (file1 ++ (if r_baro c then [] else cells_text (S_ "ENERGY") FE g), [])).
  { destruct (r_baro c); [rewrite app_nil_r; reflexivity|]. rewrite write_fld_ok by auto. reflexivity. }
  apply (bind_eq _ _ _ _ _ _ E1). set (file2 := file1 ++ _).
  assert (E2 : (if r_mhd c then write_field M g (if r_mhd c then widen g b else b) (file2, []) else Ok (file2, [])) =
      Ok (file2 ++ (if r_mhd c then field_text g (widen g b) else []), [])).
  { destruct (r_mhd c); [|rewrite app_nil_r; reflexivity]. unfold write_field.
    do 2 (rewrite write_fld_ok by auto; cbn [bind]). rewrite write_fld_ok by auto.
    unfold field_text, fld_text. rewrite <- !app_assoc. reflexivity. }
  apply (bind_eq _ _ _ _ _ _ E2). set (file3 := file2 ++ _). cbv beta. rewrite fori_fold.
  assert (E3 : forall l f, fold_left (fun (s : res (wst R)) (x : Z) => w <- s;;
       write_fld M (scalar_label x) (FS x) (g_ks g) (g_ke g) (g_js g) (g_je g) (g_is g) (g_ie g) (g_u g) w) l (Ok (f, [])) =
       Ok (f ++ flat_map (fun n => cells_text (scalar_label n) (FS n) g) l, [])).
  { induction l as [|n l IH]; intros f; [cbn; rewrite app_nil_r; reflexivity|].
    cbn [fold_left bind flat_map]. rewrite write_fld_ok by auto. rewrite IH.
    unfold cells_text at 2, fld_text. rewrite <- !app_assoc. reflexivity. }
  apply (bind_eq _ _ _ _ _ _ (E3 _ _)). set (file4 := file3 ++ _).
  assert (E4 : (if r_part c then write_parts M c t g (file4, []) else Ok (file4, [])) =
      Ok (file4 ++ (if r_part c then parts_text t g else []), [])).
  { destruct (r_part c); [apply write_parts_ok|rewrite app_nil_r; reflexivity]. }
  apply (bind_eq _ _ _ _ _ _ E4). subst file4 file3 file2 file1. unfold cells_text, fld_text.
  rewrite <- !app_assoc. reflexivity.
Qed.

(** The Grids of a level, and of all levels *)
Fixpoint doms_text (t : glob R) (l : list (option (grid R))) (b : wide) : str :=
  match l with
  | [] => []
  | None :: l' => doms_text t l' b
  | Some g :: l' => grid_text t g b ++ doms_text t l' (next_wide g b)
  end.
Fixpoint doms_wide (l : list (option (grid R))) (b : wide) : wide :=
  match l with [] => b | None :: l' => doms_wide l' b | Some g :: l' => doms_wide l' (next_wide g b) end.
Lemma doms_text_app : forall t l l' b, doms_text t (l ++ l') b = doms_text t l b ++ doms_text t l' (doms_wide l b).
Proof.
  intros t l. induction l as [|[g|] l IH]; intros l' b; cbn [app doms_text doms_wide]; auto.
  rewrite IH, app_assoc. reflexivity.
Qed.
Lemma doms_wide_app : forall l l' b, doms_wide (l ++ l') b = doms_wide l' (doms_wide l b).
Proof. intros l. induction l as [|[g|] l IH]; intros l' b; cbn [app doms_wide]; auto. Qed.
Lemma write_level_ok : forall t l b file,
  fold_left (fun st o => write_domain M c t o st) l (Ok (b, (file, []))) =
  Ok (doms_wide l b, (file ++ doms_text t l b, [])).
Proof.
  intros t l. induction l as [|[g|] l IH]; intros b file; cbn [fold_left doms_wide doms_text].
  - rewrite app_nil_r. reflexivity.
  - unfold write_domain at 2. cbn [bind]. rewrite write_grid_ok, IH, <- app_assoc. reflexivity.
  - unfold write_domain at 2. cbn [bind]. apply IH.
Qed.
Lemma write_levels_ok : forall t ls b file,
  fold_left (fun st lev => fold_left (fun st o => write_domain M c t o st) lev st) ls (Ok (b, (file, []))) =
  Ok (doms_wide (concat ls) b, (file ++ doms_text t (concat ls) b, [])).
Proof.
  intros t ls. induction ls as [|l ls IH]; intros b file; cbn [fold_left concat].
  - cbn. rewrite app_nil_r. reflexivity.
  - rewrite write_level_ok, IH, doms_text_app, doms_wide_app, <- app_assoc. reflexivity.
Qed.
Definition head_txt (t : glob R) (m : mesh R) : str :=
  S_ "N_STEP" ++ [LF] ++ c_enc (cI M) (m_nstep m) ++
  head_text (S_ "TIME") ++ c_enc (cR M) (m_time m) ++
  head_text (S_ "TIME_STEP") ++ c_enc (cR M) (m_dt m) ++
  (if r_sts c then c_enc (cR M) (m_diff m) ++ c_enc (cI M) (n_sts t) ++ c_enc (cR M) (nu_sts t) else []).
Lemma write_head_ok : forall t m file, write_head M c t m file = file ++ head_txt t m.
Proof.
  intros. unfold write_head, head_txt, fwrite1, heading, head_text. destruct (r_sts c).
  - rewrite <- !app_assoc. cbn [app]. rewrite <- !app_assoc. reflexivity.
  - rewrite app_nil_r, <- !app_assoc. cbn [app]. rewrite <- !app_assoc. reflexivity.
Qed.
Definition body_text (t : glob R) (m : mesh R) : str :=
  head_txt t m ++ doms_text t (concat (m_dom m)) (Wide false false false).
Lemma dump_ok : forall s txt t m user s', set_times s m txt = Ok s' ->
  dump_restart M c s txt t m user = Ok (par_dump2 s' ++ body_text t m ++ head_text (S_ "USER_DATA") ++ user, s').
Proof.
  intros s txt t m user s' E. unfold dump_restart. rewrite E. cbn [bind]. rewrite write_levels_ok. cbn [bind fst].
  rewrite write_head_ok. unfold heading, body_text, head_text. rewrite <- !app_assoc. cbn [app]. rewrite <- !app_assoc. reflexivity.
Qed.
End W.
