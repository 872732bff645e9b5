(** Restart files: the theorems of C44. *)
From Coq Require Import String Ascii NArith ZArith Bool Arith Lia List.
From Verif Require Import CStr ParModel UtilModel ResModel ResSpec ResFacts ResWrite ResRead ResBack ResAll ResFile ResCut.
Import ListNotations.
Open Scope Z_scope.

Section Mesh.
Context {R : Type} (M : mach R) (c : rcfg).

Lemma data_back_b : forall b b' g u0 u, r_mhd c = false -> data_back M c b g u0 u -> data_back M c b' g u0 u.
Proof.
  intros b b' g u0 u H (A & B & C). split; [exact A|]. split; [congruence|].
  intros f k j i N1 N2 N3 N4 N5. apply C; auto; intros (X & _); congruence.
Qed.
Lemma grid_back_b : forall b b' tm dt g g0 g', r_mhd c = false -> grid_back M c tm dt b g g0 g' -> grid_back M c tm dt b' g g0 g'.
Proof.
  intros b b' tm dt g g0 g' H (A & B & C & D & E). repeat (split; [assumption|]). split; [|exact E].
  eapply data_back_b; eauto.
Qed.
Definition upto (b : wide) (gs : list (grid R)) (n : nat) : wide :=
  Wide (w1 b || existsb (fun g => g_ie g >? g_is g) (firstn (S n) gs))
       (w2 b || existsb (fun g => g_je g >? g_js g) (firstn (S n) gs))
       (w3 b || existsb (fun g => g_ke g >? g_ks g) (firstn (S n) gs)).
Definition flat (l : list (option (grid R))) : list (grid R) := flat_map (fun o => match o with Some g => [g] | None => [] end) l.
Lemma widen_or : forall g b, widen (R:=R) g b = Wide (w1 b || (g_ie g >? g_is g)) (w2 b || (g_je g >? g_js g)) (w3 b || (g_ke g >? g_ks g)).
Proof. intros g b. unfold widen. destruct (g_ie g >? g_is g), (g_je g >? g_js g), (g_ke g >? g_ks g); rewrite ?orb_true_r, ?orb_false_r; reflexivity. Qed.
Lemma levrel_nth : forall tm dt l l0 l' b, levrel M c tm dt b l l0 l' ->
  forall n g g0 g', nth_error (flat l) n = Some g -> nth_error (flat l0) n = Some g0 -> nth_error (flat l') n = Some g' ->
  grid_back M c tm dt (upto b (flat l) n) g g0 g'.
Proof.
  intros tm dt. induction l as [|[x|] l IH]; intros [|[x0|] l0] [|[x'|] l'] b L n g g0 g' E E0 E'; cbn [levrel] in L; try contradiction.
  - destruct n; discriminate.
  - destruct L as (G & L). destruct n as [|n].
    + cbn in E, E0, E'. injection E as ->. injection E0 as ->. injection E' as ->.
      unfold upto. cbn [flat flat_map firstn app existsb]. rewrite !orb_false_r.
      unfold next_wide in G. destruct (r_mhd c) eqn:H; [rewrite widen_or in G; exact G|eapply grid_back_b; eauto].
    + cbn in E, E0, E'. specialize (IH _ _ _ L n g g0 g' E E0 E').
      destruct (r_mhd c) eqn:H; [|eapply grid_back_b; eauto].
      replace (upto b (flat (Some x :: l)) (S n)) with (upto (next_wide c x b) (flat l) n); [exact IH|].
      unfold upto, next_wide. rewrite H, widen_or. cbn [flat flat_map app]. change (firstn (S (S n)) (x :: ?y)) with (x :: firstn (S n) y).
      cbn [existsb widen w1 w2 w3]. rewrite !orb_assoc. reflexivity.
  - cbn in E, E0, E'. apply (IH _ _ _ L n g g0 g' E E0 E').
Qed.
Lemma levrel_place : forall tm dt l l0 l' b, Forall2 same_place l l0 -> levrel M c tm dt b l l0 l' -> Forall2 same_place l l'.
Proof.
  intros tm dt l l0 l' b F. revert l' b. induction F as [|o o0 l l0 S F IH]; intros [|o' l'] b L; cbn [levrel] in L.
  - constructor.
  - contradiction.
  - destruct o, o0; contradiction.
  - destruct o as [g|], o0 as [g0|], o' as [g'|]; try contradiction; cbn in S.
    + destruct L as (G & L). constructor; [|eapply IH; eauto]. cbn. unfold same_box in *. destruct G as (G & _). congruence.
    + constructor; [exact I|eapply IH; eauto].
Qed.
Lemma app_split : forall A (a l b r : list A), length a = length l -> a ++ b = l ++ r -> a = l /\ b = r.
Proof.
  induction a as [|x a IH]; intros [|y l] b r E H; cbn in *; try lia; [auto|].
  injection H as -> H. destruct (IH l b r ltac:(lia) H). subst. auto.
Qed.
Lemma F2_length : forall A B (P : A -> B -> Prop) l l', Forall2 P l l' -> length l = length l'.
Proof. intros A B P l l' F. induction F; cbn; auto. Qed.
Lemma Forall2_concat_split : forall A B (P : A -> B -> Prop) ls ls', map (@length _) ls' = map (@length _) ls ->
  Forall2 P (concat ls) (concat ls') -> Forall2 (Forall2 P) ls ls'.
Proof.
  intros A B P. induction ls as [|l ls IH]; intros [|l' ls'] E F; cbn in *; try discriminate; [constructor|].
  injection E as E1 E2. apply Forall2_app_inv_l in F. destruct F as (a & b & F1 & F2 & E).
  destruct (app_split _ l' a (concat ls') b) as (<- & <-); [rewrite E1; eapply F2_length; eauto|exact E|]. constructor; auto.
Qed.
Lemma lastg_flat : forall l prev gs g, flat l = gs ++ [g] -> lastg prev l = Some g.
Proof.
  induction l as [|[x|] l IH]; intros prev gs g E; cbn in *.
  - destruct gs; discriminate.
  - destruct gs as [|y gs]; cbn in E; injection E as -> E.
    + clear IH. induction l as [|[z|] l IH]; cbn in *; try discriminate; auto.
    + eapply IH; eauto.
  - eapply IH; eauto.
Qed.

Lemma concat_place : forall A B (P : A -> B -> Prop) ls ls', Forall2 (Forall2 P) ls ls' -> Forall2 P (concat ls) (concat ls').
Proof. intros A B P ls ls' F. induction F; cbn; [constructor|]. apply Forall2_app; auto. Qed.

Lemma trip : forall s txt t m user file s' m0 t0, mach_ok M -> writable c m t -> same_layout m m0 ->
  (r_part c = true -> t_n t <= t_alloc t0) ->
  dump_restart M c s txt t m user = Ok (file, s') -> ~ has_sub PAR_END (flat_map dump_block (blocks s')) ->
  exists m' t', restart_grids M c (Some file) m0 t0 = Returns (Ok (m', t', user)) /\ mesh_back M c m m0 m' /\ glob_back c m t t0 t' /\
    levrel M c (m_time m) (m_dt m) (Wide false false false) (concat (m_dom m)) (concat (m_dom m0)) (concat (m_dom m')).
Proof.
  intros s txt t m user file s' m0 t0 OK (FN & NS & GF & GG) SL AL D NP.
  assert (ST : set_times s m txt = Ok s').
  { unfold dump_restart in D. destruct (set_times s m txt) as [x| |] eqn:E; cbn [bind] in D; try discriminate.
    match type of D with bind ?e _ = _ => destruct e as [y| |]; cbn [bind] in D; try discriminate end.
    destruct y as (y1 & y2). congruence. }
  pose proof (dump_ok M c OK s txt t m user s' ST) as D'. rewrite D in D'.
  assert (FE : file = par_dump2 s' ++ body_text M c t m ++ head_text (S_ "USER_DATA") ++ user) by congruence. subst file. clear D'.
  unfold restart_grids, par_dump2. rewrite <- !app_assoc.
  match goal with |- context [match ?f with [] => _ | _ => _ end] => set (file := f) end.
  assert (SK : skip_par (length file) file = Returns (Ok (PAR_END ++ [LF], body_text M c t m ++ head_text (S_ "USER_DATA") ++ user))).
  { unfold file. apply skip_ok; auto using dump_ends. rewrite app_length. lia. }
  destruct file as [|x file'] eqn:EF; [subst file; destruct (flat_map dump_block (blocks s')); discriminate|].
  rewrite <- EF in *. clear EF x file'. clearbody file. rewrite SK. cbn [bind].
  unfold body_text. rewrite <- app_assoc.
  destruct (read_head_ok M c OK m m0 t t0 (PAR_END ++ [LF])
      (doms_text M c t (concat (m_dom m)) (Wide false false false) ++ head_text (S_ "USER_DATA") ++ user) FN ltac:(apply GF))
    as (((mh & th) & (lh & sh)) & EH & ES & (H1 & H2 & H3 & H4 & H5) & HT).
  cbn [fst snd] in *. subst sh. 
  destruct (read_levels_ok M c OK NS mh t th (m_dom m) (m_dom mh) None (Wide false false false) th lh (head_text (S_ "USER_DATA") ++ user))
    as ((doms & (b & (t' & (l' & s1)))) & EL & E1 & LR & LEN & K & T).
  { rewrite H5. exact SL. }
  { intros g I P. split; [exact GF|]. split; [apply GG|rewrite HT; cbn; auto].
    unfold grids. apply in_flat_map. exists (Some g). split; [exact I|left; reflexivity]. }
  { repeat split. }
  { unfold TB. destruct (r_part c); reflexivity. }
  cbn [fst snd] in *. subst s1.
  exists (Mesh (m_nstep mh) (m_time mh) (m_dt mh) (m_diff mh) doms), t'. split; [|split; [|split]].
  - f_equal. eapply eq_trans; [eapply bind_eq; [exact EH|]; cbv beta iota; eapply eq_trans; [eapply bind_eq; [exact EL|]; cbv beta iota; reflexivity|]; reflexivity|].
    cbv beta. rewrite label_ok; [reflexivity|plain_tac|apply prefixb_app].
  - assert (SL' : Forall2 same_place (concat (m_dom m)) (concat doms)).
    { eapply levrel_place; [|exact LR]. rewrite H5. apply concat_place. exact SL. }
    unfold mesh_back. cbn [m_nstep m_time m_dt m_diff]. repeat (split; [congruence|]). split.
    + unfold same_layout. cbn [m_dom]. apply Forall2_concat_split; auto.
    + intros n g g0 g' E E0 E'. rewrite H2, H3, H5 in LR. pose proof (levrel_nth _ _ _ _ _ _ LR n g g0 g' E E0 E') as G.
      exact G.
  - destruct K as (K1 & K2 & K3). unfold glob_back. rewrite K1, K2, K3, HT. cbn [t_alloc n_sts nu_sts].
    split; [reflexivity|]. split; [intros ->; auto|].
    intros P gs g E. unfold TB in T. rewrite P in T. erewrite lastg_flat in T by exact E. exact T.
  - cbn [m_dom]. rewrite <- H2, <- H3, <- H5. exact LR.
Qed.
Lemma dump_inv : forall s txt t m user file s', mach_ok M -> dump_restart M c s txt t m user = Ok (file, s') ->
  set_times s m txt = Ok s' /\ file = par_dump2 s' ++ body_text M c t m ++ head_text (S_ "USER_DATA") ++ user.
Proof.
  intros s txt t m user file s' OK D.
  assert (ST : set_times s m txt = Ok s').
  { unfold dump_restart in D. destruct (set_times s m txt) as [x| |] eqn:E; cbn [bind] in D; try discriminate.
    match type of D with bind ?e _ = _ => destruct e as [y| |]; cbn [bind] in D; try discriminate end.
    destruct y as (y1 & y2). congruence. }
  split; [exact ST|]. pose proof (dump_ok M c OK s txt t m user s' ST) as D'. congruence.
Qed.

(** A second dump *)
Lemma flat_map_same : forall A B (f g : A -> list B) l, (forall x, In x l -> f x = g x) -> flat_map f l = flat_map g l.
Proof. intros A B f g l H. induction l as [|x l IH]; [reflexivity|]. cbn. rewrite (H x) by (left; auto). f_equal. apply IH. intros; apply H; right; auto. Qed.
Lemma text3_same : forall f ks ke js je is_ ie (u v : arrays R),
  (forall k j i, ks <= k <= ke -> js <= j <= je -> is_ <= i <= ie -> u f k j i = v f k j i) ->
  text3 M f ks ke js je is_ ie u = text3 M f ks ke js je is_ ie v.
Proof.
  intros f ks ke js je is_ ie u v H. unfold text3. apply flat_map_same. intros ((k, j), i) I. apply cells_in in I. rewrite H by lia. reflexivity.
Qed.
Lemma cells_same : forall lab f (g g' : grid R), (g_is g', g_ie g', g_js g', g_je g', g_ks g', g_ke g') = (g_is g, g_ie g, g_js g, g_je g, g_ks g, g_ke g) ->
  (forall k j i, zone g 0 0 0 k j i -> g_u g' f k j i = g_u g f k j i) -> cells_text M lab f g' = cells_text M lab f g.
Proof.
  intros lab f g g' B H. injection B as B1 B2 B3 B4 B5 B6. unfold cells_text, fld_text. f_equal. rewrite B1, B2, B3, B4, B5, B6.
  apply text3_same. intros k j i. intros. apply H. unfold zone. lia.
Qed.
Lemma part_text_same : forall A (C : codec A) (get : part R -> A) l l', (forall p q, same_part c p q -> get q = get p) -> Forall2 (same_part c) l l' ->
  flat_map (fun p => c_enc C (get p)) l' = flat_map (fun p => c_enc C (get p)) l.
Proof. intros A C get l l' H F. induction F; [reflexivity|]. cbn. rewrite (H _ _ H0). f_equal. exact IHF. Qed.
Lemma own_back : forall g g' : grid R, parts_back c g g' -> Forall2 (same_part c) (own_parts g) (own_parts g').
Proof.
  intros g g' (_ & F & _). unfold own_parts at 2. revert F. generalize (own_parts g). generalize (map (g_part g') (zrange 0 (g_np g'))).
  intros l' l F. assert (E : filter (fun p => p_pos p =? 1) l' = l').
  { induction F as [|p q l l' (_ & _ & _ & P & _) F IH]; [reflexivity|]. cbn. rewrite P. cbn. f_equal. exact IH. }
  rewrite E. exact F.
Qed.
Definition same_table (t t' : glob R) : Prop :=
  t_n t' = t_n t /\ t_alam t' = t_alam t /\
  forall i, 0 <= i < t_n t ->
    t_r t' TRad i = t_r t TRad i /\ t_r t' TRho i = t_r t TRho i /\ t_r t' TTs i = t_r t TTs i /\
    t_r t' TRa i = t_r t TRa i /\ (r_feed c = true -> t_r t' TM i = t_r t TM i) /\ t_integ t' i = t_integ t i.
Lemma parts_same : forall t t' (g g' : grid R), same_table t t' -> parts_back c g g' -> parts_text M c t' g' = parts_text M c t g.
Proof.
  intros t t' g g' (TN & TA & TT) PB. apply own_back in PB.
  assert (LEN : length (own_parts g') = length (own_parts g)) by (symmetry; eapply F2_length; exact PB).
  assert (TX : types_text M c t' g' = types_text M c t g).
  { unfold types_text. rewrite LEN, TN, TA. do 3 f_equal. f_equal; [|f_equal].
    - apply flat_map_same. intros i I. apply zrange_in in I. unfold type_text. destruct (TT i I) as (-> & -> & -> & -> & F & _).
      destruct (r_feed c); [rewrite F by reflexivity|]; reflexivity.
    - apply flat_map_same. intros i I. apply zrange_in in I. destruct (TT i I) as (_ & _ & _ & _ & _ & ->). reflexivity. }
  unfold parts_text. rewrite TX. unfold part_text.
  assert (E1 : forall f, flat_map (fun p => c_enc (cR M) (p_r p f)) (own_parts g') = flat_map (fun p => c_enc (cR M) (p_r p f)) (own_parts g)).
  { intros f. apply (part_text_same _ (cR M) (fun p => p_r p f)); auto. intros p q (H & _). apply H. }
  rewrite !E1.
  rewrite (part_text_same _ (cI M) p_prop (own_parts g)) by (auto; intros p q (_ & H & _); exact H).
  rewrite (part_text_same _ (cL M) p_id (own_parts g)) by (auto; intros p q (_ & _ & H & _); exact H).
  destruct (r_mpi c) eqn:MP; [|reflexivity].
  rewrite (part_text_same _ (cI M) p_init (own_parts g)) by (auto; intros p q (_ & _ & _ & _ & H); auto). reflexivity.
Qed.
Lemma grid_same : forall tm dt t t' b (g g0 g' : grid R), same_box g g0 -> (r_part c = true -> same_table t t') ->
  grid_back M c tm dt (next_wide c g b) g g0 g' ->
  grid_text M c t' g' b = grid_text M c t g b /\ next_wide c g' b = next_wide c g b.
Proof.
  intros tm dt t t' b g g0 g' SB ST (B & _ & _ & (D1 & D2 & _) & P).
  assert (B' : (g_is g', g_ie g', g_js g', g_je g', g_ks g', g_ke g') = (g_is g, g_ie g, g_js g, g_je g, g_ks g, g_ke g)) by (unfold same_box in SB; congruence).
  assert (W : widen g' b = widen g b) by (injection B' as B1 B2 B3 B4 B5 B6; unfold widen; rewrite B1, B2, B3, B4, B5, B6; reflexivity).
  split; [|unfold next_wide; rewrite W; reflexivity].
  unfold grid_text. rewrite W.
  rewrite (cells_same (S_ "DENSITY") FD g g' B'), (cells_same (S_ "1-MOMENTUM") FM1 g g' B'), (cells_same (S_ "2-MOMENTUM") FM2 g g' B'),
    (cells_same (S_ "3-MOMENTUM") FM3 g g' B') by (intros; apply D1; auto; exact I).
  do 4 f_equal. f_equal; [|f_equal; [|f_equal]].
  - destruct (r_baro c) eqn:RB; [reflexivity|]. apply cells_same; auto; intros; apply D1; auto.
  - unfold next_wide in D2. destruct (r_mhd c) eqn:MH; [|reflexivity]. destruct (D2 eq_refl) as (F1 & F2 & F3 & _).
    injection B' as B1 B2 B3 B4 B5 B6. unfold field_text, fld_text. rewrite B1, B2, B3, B4, B5, B6.
    f_equal; [|f_equal]; f_equal; apply text3_same; intros; first [apply F1|apply F2|apply F3]; unfold zone; lia.
  - apply flat_map_same. intros n I. apply zrange_in in I. apply cells_same; auto; intros; apply D1; auto.
  - destruct (r_part c); [|reflexivity]. apply parts_same; auto.
Qed.
Lemma doms_same : forall tm dt t t' (l l0 l' : list (option (grid R))) b, Forall2 same_place l l0 -> (r_part c = true -> flat l <> [] -> same_table t t') ->
  levrel M c tm dt b l l0 l' -> doms_text M c t' l' b = doms_text M c t l b.
Proof.
  intros tm dt t t' l l0 l' b F. revert l' b. induction F as [|o o0 l l0 S F IH]; intros [|o' l'] b ST L; cbn [levrel] in L.
  - reflexivity.
  - contradiction.
  - destruct o, o0; contradiction.
  - destruct o as [g|], o0 as [g0|], o' as [g'|]; try contradiction; cbn in S.
    + destruct L as (G & L). cbn [doms_text].
      destruct (grid_same tm dt t t' b g g0 g' S) as (-> & ->); [intros P; apply ST; auto; discriminate|exact G|].
      f_equal. apply IH; auto. intros P _. apply ST; auto. discriminate.
    + cbn [doms_text]. apply IH; auto.
Qed.
End Mesh.

(** Writing a restart file and reading it back into a mesh of the same layout gives back the step, the
    time, the time step, the data of every Grid and the particles, and leaves the rest of the file, what the
    problem wrote, to the problem. *)
Theorem C44_round_trip : forall R (M : mach R) c s txt t m user file s' m0 t0,
  mach_ok M -> writable c m t -> same_layout m m0 -> (r_part c = true -> t_n t <= t_alloc t0) ->
  dump_restart M c s txt t m user = Ok (file, s') ->
  ~ has_sub PAR_END (flat_map dump_block (blocks s')) ->
  exists m' t', restart_grids M c (Some file) m0 t0 = Returns (Ok (m', t', user)) /\
    mesh_back M c m m0 m' /\ glob_back c m t t0 t'.
Proof.
  intros R M c s txt t m user file s' m0 t0 OK W SL AL D NP.
  destruct (trip M c s txt t m user file s' m0 t0 OK W SL AL D NP) as (m' & t' & E & MB & GB & _). eauto.
Qed.
Print Assumptions C44_round_trip.

(** When every Grid has more than one cell in every direction that is used, and the fields at the centres
    of the cells follow from those on the faces, all that a run goes on from is the same after the restart. *)
Theorem C44_same_state : forall R (M : mach R) c s txt t m user file s' m0 t0,
  mach_ok M -> writable c m t -> same_layout m m0 -> (r_part c = true -> t_n t <= t_alloc t0) ->
  dump_restart M c s txt t m user = Ok (file, s') ->
  ~ has_sub PAR_END (flat_map dump_block (blocks s')) ->
  (forall g g1, In g (grids m) -> In g1 (grids m) -> own_wide g = own_wide g1) ->
  (r_mhd c = true -> forall g, In g (grids m) -> centred M (own_wide g) g (g_u g)) ->
  exists m' t', restart_grids M c (Some file) m0 t0 = Returns (Ok (m', t', user)) /\
    m_nstep m' = m_nstep m /\ m_time m' = m_time m /\ m_dt m' = m_dt m /\ same_layout m m' /\
    forall n g g', nth_error (grids m) n = Some g -> nth_error (grids m') n = Some g' ->
      g_time g' = m_time m /\ g_dt g' = m_dt m /\ same_state c g g' /\ (r_part c = true -> parts_back c g g').
Proof.
  intros R M c s txt t m user file s' m0 t0 OK W SL AL D NP UN CE.
  destruct (C44_round_trip R M c s txt t m user file s' m0 t0 OK W SL AL D NP) as (m' & t' & E & (N1 & N2 & N3 & _ & SL' & MB) & _).
  exists m', t'. split; [exact E|]. repeat (split; [assumption|]). intros n g g' G G'.
  assert (L0 : exists g0, nth_error (grids m0) n = Some g0).
  { assert (L : length (grids m) = length (grids m0)).
    { unfold grids. pose proof (concat_place _ _ _ _ _ SL) as F. induction F as [|o o0 l l0 S F IH]; [reflexivity|].
      cbn. destruct o, o0; cbn in S; try contradiction; cbn; auto. }
    destruct (nth_error (grids m0) n) as [g0|] eqn:X; [eauto|]. apply nth_error_None in X.
    assert (n < length (grids m))%nat by (apply nth_error_Some; congruence). lia. }
  destruct L0 as (g0 & G0). destruct (MB n g g0 g' G G0 G') as (_ & T1 & T2 & (D1 & D2 & _) & P).
  split; [exact T1|]. split; [exact T2|].
  assert (IN : In g (grids m)) by (eapply nth_error_In; eauto).
  assert (WU : wide_upto (grids m) n = own_wide g).
  { clear - UN G IN.
    assert (H : forall (f : grid R -> bool), (forall g1, In g1 (grids m) -> f g1 = f g) -> existsb f (firstn (S n) (grids m)) = f g).
    { intros f Hf. destruct (f g) eqn:FG.
      - apply existsb_exists. exists g. split; [|exact FG].
        rewrite <- (firstn_skipn (S n) (grids m)) in G. rewrite nth_error_app1 in G; [eapply nth_error_In; eauto|].
        rewrite firstn_length. rewrite firstn_skipn in G.
        assert (n < length (grids m))%nat by (apply nth_error_Some; congruence). lia.
      - destruct (existsb f (firstn (S n) (grids m))) eqn:X; [|reflexivity]. apply existsb_exists in X. destruct X as (g1 & I1 & F1).
        rewrite Hf in F1; [congruence|]. rewrite <- (firstn_skipn (S n) (grids m)). apply in_app_iff. auto. }
    unfold wide_upto, own_wide. f_equal; apply (H (fun g => _)); intros g1 I1; pose proof (UN g1 g I1 IN) as U; unfold own_wide in U; congruence. }
  rewrite WU in *. split; [|intros PC; rewrite PC in P; exact P].
  intros k j i. split; [auto|]. intros MH. destruct (D2 MH) as (F1 & F2 & F3 & F4). specialize (CE MH g IN).
  split; [|split; [|split]]; auto.
  intros Z f Hf. destruct (F4 k j i Z) as (A1 & A2 & A3). destruct (CE k j i Z) as (C1 & C2 & C3).
  unfold own_wide in *. cbn [w1 w2 w3] in *. unfold zone, b2z in *.
  destruct Hf as [->|[->| ->]]; [rewrite A1, C1|rewrite A2, C2|rewrite A3, C3].
  - destruct (g_ie g >? g_is g); rewrite !F1 by lia; reflexivity.
  - destruct (g_je g >? g_js g); rewrite !F2 by lia; reflexivity.
  - destruct (g_ke g >? g_ks g); rewrite !F3 by lia; reflexivity.
Qed.
Print Assumptions C44_same_state.

(** Dumping the mesh that was read, with the same parameters, writes the same file again. *)
Theorem C44_same_file : forall R (M : mach R) c s txt t m user file s' m0 t0,
  mach_ok M -> writable c m t -> same_layout m m0 -> (r_part c = true -> t_n t <= t_alloc t0) ->
  dump_restart M c s txt t m user = Ok (file, s') ->
  ~ has_sub PAR_END (flat_map dump_block (blocks s')) ->
  exists m' t', restart_grids M c (Some file) m0 t0 = Returns (Ok (m', t', user)) /\
    dump_restart M c s txt t' m' user = Ok (file, s').
Proof.
  intros R M c s txt t m user file s' m0 t0 OK W SL AL D NP.
  destruct (trip M c s txt t m user file s' m0 t0 OK W SL AL D NP) as (m' & t' & E & (N1 & N2 & N3 & N4 & SL' & MB) & (G1 & G2 & G3) & LR).
  exists m', t'. split; [exact E|]. destruct (dump_inv M c s txt t m user file s' OK D) as (ST & ->).
  rewrite (dump_ok M c OK s txt t' m' user s').
  2:{ unfold set_times in *. rewrite N1. exact ST. }
  assert (B : body_text M c t' m' = body_text M c t m); [|rewrite B; reflexivity].
  unfold body_text. f_equal.
  - unfold head_txt. rewrite N1, N2, N3. do 6 f_equal. rewrite N4. destruct (r_sts c); [|reflexivity]. destruct (G2 eq_refl) as (-> & ->). reflexivity.
  - eapply doms_same; [apply concat_place; exact SL| |exact LR].
    intros PC NE. destruct (exists_last NE) as (gs & (g & EG)).
    destruct (G3 PC gs g EG) as (A & B & C). split; [exact A|]. split; [exact B|]. intros i I. destruct (C i I) as (? & ? & ? & ? & ? & ? & _). auto 10.
Qed.
Print Assumptions C44_same_file.

(** A restart file that was cut before its last label is complete is never accepted (without particles): the program stops with an error, or, when not even the parameters are
    complete, does not get any further. *)
Theorem C44_truncated : forall R (M : mach R) c s txt t m user file s' m0 t0 p z,
  mach_ok M -> writable c m t -> same_layout m m0 -> r_part c = false ->
  dump_restart M c s txt t m user = Ok (file, s') ->
  ~ has_sub PAR_END (flat_map dump_block (blocks s')) ->
  file = p ++ z -> (length user + 1 < length z)%nat -> p <> [] ->
  restart_grids M c (Some p) m0 t0 =
    if (length p + 1 <? length (par_dump2 s'))%nat then Loops else Returns Fatal.
Proof.
  intros R M c s txt t m user file s' m0 t0 p z OK (FN & NS & (GF & _) & _) SL PC D NP E LZ NE.
  destruct (dump_inv M c s txt t m user file s' OK D) as (_ & EF). rewrite E in EF.
  assert (UD : head_text (S_ "USER_DATA") ++ user = (LF :: S_ "USER_DATA") ++ LF :: user) by reflexivity.
  rewrite UD in EF. unfold par_dump2 in *.
  set (pre := flat_map dump_block (blocks s')) in *.
  destruct (Nat.ltb_spec (length p + 1) (length (pre ++ PAR_END ++ [LF]))) as [LT|GE].
  - unfold restart_grids. assert (HP : ~ has_sub PAR_END p); [|destruct p; [congruence|]; rewrite skip_loops; auto].
    rewrite !app_length in LT. cbn [length] in LT.
    assert (X : exists w, p ++ w = pre ++ PAR_END /\ w <> []).
    { rewrite <- !app_assoc in EF. rewrite (app_assoc pre) in EF.
      destruct (app_cmp _ _ _ _ EF) as [(e & EE & _)|(e & EE & _)].
      - exists e. split; [auto|]. intros ->. apply (f_equal (@length _)) in EE. rewrite !app_length in EE. cbn [length] in EE. lia.
      - apply (f_equal (@length _)) in EE. rewrite !app_length in EE. lia. }
    destruct X as (w & X & NW). eapply no_overlap; eauto.
  - assert (X : (p = pre ++ PAR_END) \/ exists q, p = pre ++ PAR_END ++ [LF] ++ q /\ sp q (body_text M c t m ++ LF :: S_ "USER_DATA")).
    { rewrite !app_length in GE. cbn [length] in GE.
      rewrite <- !app_assoc in EF. rewrite (app_assoc pre) in EF.
      destruct (app_cmp _ _ _ _ EF) as [(e & EE & _)|(e & EE & EQ)].
      - left. destruct e as [|x e]; [rewrite app_nil_r in EE; auto|]. apply (f_equal (@length _)) in EE. rewrite !app_length in EE. cbn [length] in EE. lia.
      - destruct e as [|x e]; [left; rewrite app_nil_r in EE; auto|right]. 
        assert (EX : LF = x) by exact (f_equal (hd LF) EQ). subst x.
        assert (ET : (body_text M c t m ++ LF :: S_ "USER_DATA") ++ LF :: user = e ++ z) by (rewrite <- app_assoc; exact (f_equal (@tl _) EQ)).
        clear EQ. rename ET into EQ. symmetry in EQ.
        exists e. split; [rewrite EE, <- app_assoc; reflexivity|].
        destruct (app_cmp _ _ _ _ EQ) as [(w & EW & EU)|(w & EW & EU)].
        + exists w. split; [|exact EW]. intros ->. rewrite EU in LZ. cbn [app length] in LZ. lia.
        + exfalso. apply (f_equal (@length _)) in EU. rewrite app_length in EU. cbn [length] in EU. lia. }
    unfold restart_grids.
    assert (S : exists line q, skip_par (length p) p = Returns (Ok (line, q)) /\ isl PAR_END line /\ sp q (body_text M c t m ++ LF :: S_ "USER_DATA")).
    { destruct X as [->|(q & -> & S)].
      - exists PAR_END, []. split; [|split; [left; reflexivity|apply sp_nil, nnil; discriminate]].
        apply skip_last; auto. apply dump_ends.
      - exists (PAR_END ++ [LF]), q. split; [|split; [right; reflexivity|exact S]].
        apply skip_ok; [apply dump_ends|exact NP|fold pre; rewrite app_length; lia]. }
    destruct S as (line & q & S & I & SQ). destruct p; [congruence|]. rewrite S. f_equal.
    cbn [bind]. apply (body_cut M c OK NS PC m m0 t t0 line q FN GF SL I SQ).
Qed.
Print Assumptions C44_truncated.
