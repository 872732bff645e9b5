(** Restart files: the particles, the Grids and the whole file are read back. *)
From Coq Require Import String Ascii NArith ZArith Bool Arith Lia List.
From Verif Require Import CStr ParModel UtilModel ResModel ResSpec ResFacts ResWrite ResRead.
Import ListNotations.
Open Scope Z_scope.

Section Bk.
Context {R : Type} (M : mach R) (c : rcfg).
Hypothesis OK : mach_ok M.
Hypothesis PART : r_part c = true.

(** The particle array after the number of particles was read *)
Definition resized (n : Z) (g : grid R) : grid R :=
  let g := set_np n (g_arr g) g in if n >? g_arr g - 2 then particle_realloc (n + 2) g else g.
Lemma resized_np : forall n g, g_np (resized n g) = n.
Proof. intros. unfold resized. cbv zeta. destruct (n >? _); reflexivity. Qed.
Lemma resized_arr : forall n g, n + 2 <= g_arr (resized n g).
Proof.
  intros. unfold resized. cbv zeta. destruct (Z.gtb_spec n (g_arr (set_np n (g_arr g) g) - 2)) as [L|L]; cbn in *; lia.
Qed.
Lemma own_le : forall (g : grid R), 0 <= g_np g -> Z.of_nat (length (own_parts g)) <= g_np g.
Proof.
  intros g H. unfold own_parts. rewrite filter_map_swap, map_length.
  assert (X : forall l (P : Z -> bool), (length (filter P l) <= length l)%nat).
  { induction l as [|x l IH]; intros P; [reflexivity|]. cbn. specialize (IH P). destruct (P x); cbn; lia. }
  specialize (X (zrange 0 (g_np g)) (fun x => p_pos (g_part g x) =? 1)). rewrite zrange_length in X. lia.
Qed.

Lemma read_types_ok : forall g g0 t t0 line rest, glob_fits c t -> grid_fits c t g -> t_n t <= t_alloc t0 ->
  exists st, read_types M c (g0, t0, (line, types_text M c t g ++ rest)) = Ok st /\
    fst (fst st) = resized (Z.of_nat (length (own_parts g))) g0 /\
    snd st = (S_ "PARTICLE LIST" ++ [LF], rest) /\
    (let t' := snd (fst st) in
     t_n t' = t_n t /\ t_alloc t' = t_alloc t0 /\ t_alam t' = t_alam t /\ n_sts t' = n_sts t0 /\ nu_sts t' = nu_sts t0 /\
     forall i, 0 <= i < t_n t ->
      (forall f, (f = TM -> r_feed c = true) -> t_r t' f i = t_r t f i) /\ t_integ t' i = t_integ t i).
Proof.
  intros g g0 t t0 line rest (_ & GT) GF AL. destruct (GT PART) as (N0 & NF & TF). destruct (GF PART) as ((P0 & P1) & _).
  clear GT GF. pose proof (own_le g P0) as OL.
  set (n := Z.of_nat (length (own_parts g))) in *.
  assert (FN : fits_in 63 n) by (unfold fits_in; subst n; lia).
  unfold read_types, types_text. rewrite <- !app_assoc. fold n.
  eapply bind_ex; [apply label_ok; [plain_tac|apply prefixb_app]|]. cbv beta.
  rewrite (fread_ok _ (cL M) (fits_in 63)) by (apply OK || exact FN).
  rewrite (fread_ok _ (cI M) (fits_in 31)) by (apply OK || exact NF).
  cbv zeta. change (if n >? _ then _ else _) with (resized n g0).
  set (t1 := set_tn (t_n t) t0).
  assert (IN : forall i, In i (zrange 0 (t_n t)) -> in_types t1 i = true).
  { intros i Hi. apply zrange_in in Hi. unfold in_types, t1. cbn. apply andb_true_intro. split; lia. }
  destruct (read_table_ok M c OK t t1 (zrange 0 (t_n t)) (t_r t1) (S_ "PARTICLE LIST" ++ [LF])
    (c_enc (cR M) (t_alam t) ++ flat_map (fun i => c_enc (cS M) (t_integ t i)) (zrange 0 (t_n t)) ++ rest) IN) as (r' & E1 & A1 & _).
  eapply bind_ex; [rewrite fori_fold; exact E1|]. cbv beta iota.
  rewrite (fread_ok _ (cR M) (fun _ => True)) by (apply OK || exact I). cbv zeta.
  set (t2 := set_alam (t_alam t) (with_r t1 r')).
  destruct (read_integ_ok M OK t t2 (zrange 0 (t_n t)) (t_integ t2) (S_ "PARTICLE LIST" ++ [LF]) rest IN) as (a' & E2 & A2 & _).
  { intros i Hi. apply TF. apply zrange_in in Hi. lia. }
  eapply bind_ex; [rewrite fori_fold; exact E2|]. cbv beta iota.
  eexists. split; [reflexivity|]. cbn [fst snd]. split; [reflexivity|]. split; [reflexivity|].
  repeat (split; [reflexivity|]). intros i Hi. assert (In i (zrange 0 (t_n t))) by (apply zrange_in; lia).
  split; [|apply A2; auto]. intros f F. apply (A1 i f); auto.
Qed.

(** Counting *)
Lemma upd_num_ok : forall (t : glob R) i v, in_types t i = true ->
  upd_num t i v = Ok (Glob (t_n t) (t_alloc t) (t_r t) (t_integ t) (upd (t_num t) i v) (t_alam t) (n_sts t) (nu_sts t)).
Proof. intros. unfold upd_num. rewrite H. reflexivity. Qed.
Definition with_n (t : glob R) (a : Z -> Z) : glob R :=
  Glob (t_n t) (t_alloc t) (t_r t) (t_integ t) a (t_alam t) (n_sts t) (nu_sts t).
Lemma count_types_ok : forall (g : grid R) t, 0 <= t_n t <= t_alloc t ->
  (forall p, 0 <= p < g_np g -> 0 <= p_prop (g_part g p) < t_n t) ->
  exists a, count_types g t = Ok (with_n t a) /\
    forall i, 0 <= i < t_n t -> a i = Z.of_nat (length (filter (fun p => p_prop p =? i) (map (g_part g) (zrange 0 (g_np g))))).
Proof.
  intros g t T P. unfold count_types. rewrite fori_fold.
  assert (H : forall l a, (forall i, In i l -> in_types t i = true) ->
     exists a', fold_left (fun s x => t <- s;; upd_num t x 0) l (Ok (with_n t a)) = Ok (with_n t a') /\
       (forall i, In i l -> a' i = 0) /\ (forall i, ~ In i l -> a' i = a i)).
  { induction l as [|x l IH]; intros a I; [exists a; split; [reflexivity|]; split; [intros ? []|auto]|].
    cbn [fold_left bind]. rewrite upd_num_ok by (apply I; left; auto).
    destruct (IH (upd a x 0)) as (a' & E & A & B); [intros; apply I; right; auto|].
    exists a'. split; [exact E|]. split.
    - intros i [<-|Hi]; [|auto]. destruct (in_dec Z.eq_dec x l) as [Y|Y]; [auto|]. rewrite B by auto.
      unfold upd. rewrite Z.eqb_refl. reflexivity.
    - intros i N. rewrite B by (intros X; apply N; right; auto). unfold upd.
      destruct (Z.eqb_spec i x) as [->|]; [exfalso; apply N; left; auto|reflexivity]. }
  destruct (H (zrange 0 (t_n t)) (t_num t)) as (a0 & E0 & A0 & _).
  { intros i Hi. apply zrange_in in Hi. unfold in_types. apply andb_true_intro. split; lia. }
  replace (with_n t (t_num t)) with t in E0 by (destruct t; reflexivity).
  rewrite E0. cbn [bind]. rewrite fori_fold. clear H.
  assert (H : forall l a, (forall p, In p l -> 0 <= p < g_np g) ->
     exists a', fold_left (fun s x => t <- s;; upd_num t (p_prop (g_part g x)) (t_num t (p_prop (g_part g x)) + 1)) l
       (Ok (with_n t a)) = Ok (with_n t a') /\
       (forall i, a' i = a i + Z.of_nat (length (filter (fun p => p_prop p =? i) (map (g_part g) l))))).
  { induction l as [|x l IH]; intros a I; [exists a; split; [reflexivity|intros; cbn; lia]|].
    cbn [fold_left bind map filter]. rewrite upd_num_ok.
    2:{ specialize (P x (I x (or_introl eq_refl))). unfold in_types. cbn. apply andb_true_intro. split; lia. }
    destruct (IH (upd a (p_prop (g_part g x)) (a (p_prop (g_part g x)) + 1))) as (a' & E & A); [intros; apply I; right; auto|].
    exists a'. split; [exact E|]. intros i. rewrite A. unfold upd.
    rewrite (Z.eqb_sym (p_prop (g_part g x)) i).
    destruct (Z.eqb_spec i (p_prop (g_part g x))) as [->|]; cbn [length]; lia. }
  destruct (H (zrange 0 (g_np g)) a0) as (a & E & A); [intros; apply zrange_in; auto|].
  exists a. split; [exact E|]. intros i Hi. rewrite A, A0 by (apply zrange_in; lia). lia.
Qed.

Lemma Forall2_nth : forall A B (P : A -> B -> Prop) l l', length l = length l' ->
  (forall n a b, nth_error l n = Some a -> nth_error l' n = Some b -> P a b) -> Forall2 P l l'.
Proof.
  intros A B P l. induction l as [|x l IH]; intros [|y l'] L H; try discriminate; constructor.
  - apply (H 0%nat); reflexivity.
  - apply IH; [cbn in L; lia|]. intros n a b. apply (H (S n)).
Qed.
Lemma nth_zrange : forall n hi p, nth_error (zrange 0 hi) n = Some p -> p = Z.of_nat n /\ (n < Z.to_nat hi)%nat.
Proof.
  intros n hi p H. unfold zrange in H. rewrite nth_error_map in H.
  destruct (nth_error (seq 0 (Z.to_nat (hi - 0))) n) as [q|] eqn:E; [|discriminate].
  injection H as <-. assert (L : (n < length (seq 0 (Z.to_nat (hi - 0))))%nat) by (apply nth_error_Some; congruence).
  rewrite seq_length in L. apply nth_error_nth with (d := 0%nat) in E. rewrite seq_nth in E by lia. lia.
Qed.

(** Everything about a Grid but its particles *)
Definition shell (g : grid R) := (g_is g, g_ie g, g_js g, g_je g, g_ks g, g_ke g, g_time g, g_dt g, g_u g).
Definition line_of (l : str) : Prop := prefixb (S_ "DENSITY") l = false /\ prefixb (S_ "USER_DATA") l = false.

Lemma own_in : forall (g : grid R) q, In q (own_parts g) -> exists p, 0 <= p < g_np g /\ q = g_part g p /\ p_pos q = 1.
Proof.
  intros g q H. unfold own_parts in H. apply filter_In in H. destruct H as (H & E).
  apply in_map_iff in H. destruct H as (p & <- & Hp). apply zrange_in in Hp. exists p. split; [lia|]. split; auto.
  apply Z.eqb_eq. exact E.
Qed.

Lemma read_parts_ok : forall g g0 t t0 line rest, glob_fits c t -> grid_fits c t g -> t_n t <= t_alloc t0 ->
  exists st, read_parts M c (g0, t0, (line, parts_text M c t g ++ rest)) = Ok st /\
    snd (snd st) = rest /\
    shell (fst (fst st)) = shell g0 /\ parts_back c g (fst (fst st)) /\
    types_back c t (snd (fst st)) g /\ t_alloc (snd (fst st)) = t_alloc t0 /\
    n_sts (snd (fst st)) = n_sts t0 /\ nu_sts (snd (fst st)) = nu_sts t0.
Proof.
  intros g g0 t t0 line rest GT GF AL. unfold read_parts, parts_text. rewrite <- !app_assoc.
  edestruct (read_types_ok g g0 t t0) as (((g1 & t1) & s1) & E1 & G1 & S1 & T1); [exact GT|exact GF|exact AL|].
  eapply bind_ex; [exact E1|]. clear E1. cbn [fst snd] in G1, S1, T1. cbv beta iota. subst s1.
  destruct T1 as (T1 & T2 & T3 & T4 & T5 & T6).
  assert (N1 : g_np g1 = Z.of_nat (length (own_parts g))) by (subst g1; apply resized_np).
  assert (A1 : g_np g1 + 2 <= g_arr g1) by (rewrite N1; subst g1; apply resized_arr).
  assert (SH : shell g1 = shell g0) by (subst g1; unfold resized; cbv zeta; destruct (_ >? _); reflexivity).
  clear G1. set (ps := own_parts g) in *.
  destruct (GT) as (_ & GT'). destruct (GT' PART) as (TN & _ & _). clear GT'.
  destruct (GF PART) as (_ & GF').
  assert (PF : forall q, In q ps -> 0 <= p_prop q < t_n t /\ fits_in 31 (p_prop q) /\ fits_in 63 (p_id q) /\
                 (r_mpi c = true -> fits_in 31 (p_init q))).
  { intros q Hq. destruct (own_in g q Hq) as (p & Hp & -> & PP). apply GF'; auto. }
  assert (LEN : forall A (f : part R -> A), g_np g1 = Z.of_nat (length (map f ps))) by (intros; rewrite map_length; auto).
  assert (TR : forall A (l : list A), Forall (fun _ => True) l) by (intros; apply Forall_forall; auto).
  unfold part_text. fold ps. rewrite !flat_map_enc.
  assert (CR : codec_ok (cR M) (fun _ => True)) by apply OK.
  assert (CI : codec_ok (cI M) (fits_in 31)) by apply OK.
  assert (CL : codec_ok (cL M) (fits_in 63)) by apply OK.
  edestruct (read_part_ok _ (cR M) (fun _ => True) (S_ "PARTICLE X1") (fun p => p_r p X1) (set_pr X1) (map (fun p => p_r p X1) ps) g1)
    as (a1 & E1 & H1); [exact CR|apply TR|plain_tac|apply LEN|lia|].
  eapply bind_ex; [exact E1|]. cbv beta. clear E1.
  edestruct (read_part_ok _ (cR M) (fun _ => True) (S_ "PARTICLE X2") (fun p => p_r p X2) (set_pr X2) (map (fun p => p_r p X2) ps) (with_parts g1 a1))
    as (a2 & E1 & H2); [exact CR|apply TR|plain_tac|apply LEN|cbn; lia|].
  eapply bind_ex; [exact E1|]. cbv beta. clear E1.
  edestruct (read_part_ok _ (cR M) (fun _ => True) (S_ "PARTICLE X3") (fun p => p_r p X3) (set_pr X3) (map (fun p => p_r p X3) ps) (with_parts g1 a2))
    as (a3 & E1 & H3); [exact CR|apply TR|plain_tac|apply LEN|cbn; lia|].
  eapply bind_ex; [exact E1|]. cbv beta. clear E1.
  edestruct (read_part_ok _ (cR M) (fun _ => True) (S_ "PARTICLE V1") (fun p => p_r p V1) (set_pr V1) (map (fun p => p_r p V1) ps) (with_parts g1 a3))
    as (a4 & E1 & H4); [exact CR|apply TR|plain_tac|apply LEN|cbn; lia|].
  eapply bind_ex; [exact E1|]. cbv beta. clear E1.
  edestruct (read_part_ok _ (cR M) (fun _ => True) (S_ "PARTICLE V2") (fun p => p_r p V2) (set_pr V2) (map (fun p => p_r p V2) ps) (with_parts g1 a4))
    as (a5 & E1 & H5); [exact CR|apply TR|plain_tac|apply LEN|cbn; lia|].
  eapply bind_ex; [exact E1|]. cbv beta. clear E1.
  edestruct (read_part_ok _ (cR M) (fun _ => True) (S_ "PARTICLE V3") (fun p => p_r p V3) (set_pr V3) (map (fun p => p_r p V3) ps) (with_parts g1 a5))
    as (a6 & E1 & H6); [exact CR|apply TR|plain_tac|apply LEN|cbn; lia|].
  eapply bind_ex; [exact E1|]. cbv beta. clear E1.
  edestruct (read_part_ok _ (cI M) (fits_in 31) (S_ "PARTICLE PROPERTY") p_prop set_prop (map p_prop ps) (with_parts g1 a6))
    as (a7 & E1 & H7); [exact CI|apply Forall_map, Forall_forall; intros q Hq; apply PF; auto|plain_tac|apply LEN|cbn; lia|].
  eapply bind_ex; [exact E1|]. cbv beta. clear E1.
  edestruct (read_part_ok _ (cL M) (fits_in 63) (S_ "PARTICLE MY_ID") p_id set_id (map p_id ps) (with_parts g1 a7))
    as (a8 & E1 & H8); [exact CL|apply Forall_map, Forall_forall; intros q Hq; apply PF; auto|plain_tac|apply LEN|cbn; lia|].
  eapply bind_ex; [exact E1|]. cbv beta. clear E1.
  assert (W : exists a9 l9, (if r_mpi c then read_part (cI M) (S_ "PARTICLE INIT_ID") p_init set_init
       (with_parts (with_parts g1 a7) a8, (S_ "PARTICLE MY_ID" ++ [LF],
        (if r_mpi c then head_text (S_ "PARTICLE INIT_ID") ++ flat_map (c_enc (cI M)) (map p_init ps) else []) ++ rest))
      else Ok (with_parts (with_parts g1 a7) a8, (S_ "PARTICLE MY_ID" ++ [LF],
        (if r_mpi c then head_text (S_ "PARTICLE INIT_ID") ++ flat_map (c_enc (cI M)) (map p_init ps) else []) ++ rest))) =
      Ok (with_parts g1 a9, (l9, rest)) /\
      forall n, (n < length ps)%nat -> exists v, a9 (Z.of_nat n) = set_init v (a8 (Z.of_nat n)) /\
        (r_mpi c = true -> nth_error (map p_init ps) n = Some v)).
  { destruct (r_mpi c).
    - rewrite <- app_assoc.
      edestruct (read_part_ok _ (cI M) (fits_in 31) (S_ "PARTICLE INIT_ID") p_init set_init (map p_init ps) (with_parts g1 a8))
        as (a9 & E1 & H9); [exact CI|apply Forall_map, Forall_forall; intros q Hq; apply PF; auto|plain_tac|apply LEN|cbn; lia|].
      exists a9. eexists. split; [exact E1|]. intros n Ln.
      destruct (nth_error (map p_init ps) n) as [v|] eqn:Ev.
      + exists v. split; [apply H9; auto|reflexivity].
      + apply nth_error_None in Ev. rewrite map_length in Ev. lia.
    - exists a8. eexists. split; [reflexivity|]. intros n Ln. exists (p_init (a8 (Z.of_nat n))). split; [|discriminate].
      destruct (a8 (Z.of_nat n)); reflexivity. }
  destruct W as (a9 & l9 & E9 & H9).
  eapply bind_ex; [exact E9|]. cbv beta iota. clear E9.
  (* the n-th particle *)
  assert (NTH : forall n q, nth_error ps n = Some q -> same_part c q (a9 (Z.of_nat n))).
  { intros n q Hq. assert (Ln : (n < length ps)%nat) by (apply nth_error_Some; congruence).
    destruct (H9 n Ln) as (v & -> & V).
    assert (MP : forall A (f : part R -> A), nth_error (map f ps) n = Some (f q))
      by (intros; rewrite nth_error_map, Hq; reflexivity).
    rewrite (H8 n _ (MP _ _)). cbn [with_parts g_part]. rewrite (H7 n _ (MP _ _)). cbn [with_parts g_part].
    rewrite (H6 n _ (MP _ _)). cbn [with_parts g_part]. rewrite (H5 n _ (MP _ _)). cbn [with_parts g_part].
    rewrite (H4 n _ (MP _ _)). cbn [with_parts g_part]. rewrite (H3 n _ (MP _ _)). cbn [with_parts g_part].
    rewrite (H2 n _ (MP _ _)). cbn [with_parts g_part]. rewrite (H1 n _ (MP _ _)).
    split; [intros []; reflexivity|]. split; [reflexivity|]. split; [reflexivity|]. split; [reflexivity|].
    intros MPI. specialize (V MPI). rewrite MP in V. injection V as <-. reflexivity. }
  assert (BACK : Forall2 (same_part c) ps (map a9 (zrange 0 (g_np g1)))).
  { apply Forall2_nth.
    - rewrite map_length, zrange_length. lia.
    - intros n q r Hq Hr. rewrite nth_error_map in Hr. destruct (nth_error (zrange 0 (g_np g1)) n) as [p|] eqn:Ep; [|discriminate].
      injection Hr as <-. apply nth_zrange in Ep. destruct Ep as (-> & _). apply NTH. exact Hq. }
  assert (CNT : forall i (l l' : list (part R)), Forall2 (same_part c) l l' ->
     length (filter (fun p => p_prop p =? i) l') = length (filter (fun p => p_prop p =? i) l)).
  { intros i l l' F. induction F as [|q r l l' S F IH]; [reflexivity|]. cbn [filter].
    destruct S as (_ & -> & _). destruct (p_prop q =? i); cbn [length]; lia. }
  destruct (count_types_ok (with_parts g1 a9) t1) as (num & EN & HN).
  { lia. }
  { cbn [with_parts g_np g_part]. intros p Hp. rewrite N1 in Hp.
    destruct (nth_error ps (Z.to_nat p)) as [q|] eqn:Eq.
    - pose proof (NTH _ _ Eq) as (_ & PP & _). rewrite Z2Nat.id in PP by lia. rewrite PP.
      apply nth_error_In in Eq. rewrite T1. apply PF. exact Eq.
    - apply nth_error_None in Eq. lia. }
  eapply bind_ex; [exact EN|]. cbv beta. eexists. split; [reflexivity|]. cbn [fst snd].
  split; [reflexivity|]. split; [exact SH|]. split.
  { split; [exact N1|]. split; [exact BACK|exact A1]. }
  split.
  { split; [exact T1|]. split; [exact T3|]. intros i Hi. destruct (T6 i Hi) as (F1 & F2). cbn [with_n t_r t_integ t_num].
    repeat (split; [apply F1; discriminate|]). split; [intros X; apply F1; auto|]. split; [exact F2|].
    rewrite HN by lia. cbn [with_parts g_np g_part]. f_equal. apply CNT. exact BACK. }
  split; [exact T2|]. split; [exact T4|exact T5].
Qed.
End Bk.
