(** * C100: what particles deposit in ghost zones reaches the right cell *)
From Coq Require Import ZArith Reals List Bool Lia Lra FunctionalExtensionality.
From Verif Require Import Loop BvalsModel BvalsSpec BvalsParModel BvalsParProps IntegSpec IntegFacts SumFacts GravFacts ExchModel ExchSpec ExchSum ExchRow ExchStep ExchAll.
Import ListNotations.
Open Scope Z_scope.

(** What is exchanged in the three steps ... *)
Definition amount (b : label) (v : nat) (q : coup) : R :=
  match b, v with
  | Bin, 0 => grid_v1 q | Bin, 1 => grid_v2 q | Bin, 2 => grid_v3 q | Bin, 3 => grid_d q
  | Pred, 0 | Corr, 0 => fb1 q | Pred, 1 | Corr, 1 => fb2 q | Pred, 2 | Corr, 2 => fb3 q
  | Pred, 3 => FBstiff q | Pred, 4 => Eloss q | Corr, 3 => Eloss q
  | _, _ => 0%R
  end%nat.
Definition amounts (b : label) : nat := match b with Pred => 5 | _ => 4 end%nat.
(** ... and how far outside its Grid a particle deposits: the corrector deposits where a particle arrived, one cell further. *)
Definition far (b : label) : Z := match b with Corr => 2 | _ => 1 end.
Lemma load_amount : forall b q v, load b q v = amount b v q.
Proof. intros [] q v; do 6 (try destruct v as [|v]; [reflexivity|]); destruct v; reflexivity. Qed.
Lemma far_NExc : forall b, far b = NExc b. Proof. intros []; reflexivity. Qed.
Lemma amounts_NVar : forall b, amounts b = NVar b. Proof. intros []; reflexivity. Qed.

(** What the theorems assume.  The predictor fills nghost ghost zones, so its Grids must be wider by one cell, and its particles
    (they are in active cells) deposit at most one cell away.  Line 1880 of exchange.c excludes one more case. *)
Record exch_ok (b : label) (bl br : axis -> bc) (D : decomp) (Q : gpos -> arr coup) : Prop := {
  xo_dec : dec_ok D;
  xo_peri : forall a, 1 < total D a -> is_peri (bl a) = is_peri (br a);
  xo_size : b = Pred -> forall a l, 1 < total D a -> (l < d_NG D a)%nat -> d_ng D + 1 <= d_size D a l;
  xo_near : b = Pred -> forall g c v a, on_domain D g -> exists_ (geo D g) Cell c -> 1 < total D a ->
    (co a c < fst_ (geo D g) a - 1 \/ lst_ (geo D g) a + 1 < co a c) -> amount b v (Q g c) = 0%R;
  xo_js : b = Pred -> (bl A1 <> Refl /\ bl A1 <> Cond) \/ 1 < total D A2 }.
(** Deposits, as a function of Grid, cell and component. *)
Definition dep (b : label) (Q : gpos -> arr coup) : gpos -> idx -> nat -> R := fun g c v => amount b v (Q g c).
Lemma dep_load : forall b Q, (fun g c => load b (Q g c)) = dep b Q.
Proof. intros b Q. do 3 (apply functional_extensionality; intro). apply load_amount. Qed.

Lemma NExc_pos : forall b, 0 <= NExc b. Proof. intros []; cbn; lia. Qed.
Section Lab.
Variables (b : label) (bl br : axis -> bc) (D : decomp) (Q : gpos -> arr coup).
Hypothesis X : exch_ok b bl br D Q.
Notation ne := (NExc b).
Notation no := (NOfst (d_ng D) b).
Lemma xdec : dec_ok D. Proof. apply X. Qed.
Lemma ng1 : 1 <= d_ng D. Proof. apply xdec. Qed.
Lemma no_pos : 0 <= no. Proof. assert (G := ng1). destruct b; cbn; lia. Qed.
Lemma xsize : forall a l, 1 < total D a -> (l < d_NG D a)%nat -> ne + no <= d_size D a l.
Proof.
  intros a l T L. destruct (pos_facts D xdec a l T L) as (S1 & _). assert (W := xo_size _ _ _ _ _ X). destruct b; cbn [NExc NOfst]; try lia. specialize (W eq_refl a l T L). lia.
Qed.
Lemma xjs : no = 0 \/ (bl A1 <> Refl /\ bl A1 <> Cond) \/ 1 < total D A2.
Proof. assert (J := xo_js _ _ _ _ _ X). destruct b; cbn; auto. Qed.
Lemma xzero : no = 0 \/ forall g c v a, on_domain D g -> (forall b', low (Z.max ne no) (geo D g) b' <= co b' c <= high (Z.max ne no) (geo D g) b') ->
  (co a c < low ne (geo D g) a \/ high ne (geo D g) a < co a c) -> dep b Q g c v = 0%R.
Proof.
  assert (G := ng1). assert (OKD := xdec). assert (K := xo_near _ _ _ _ _ X). destruct b; cbn [NOfst NExc]; auto. right. intros g c v a V R F. specialize (K eq_refl g c v).
  assert (EX : exists_ (geo D g) Cell c).
  { intros a'. specialize (R a'). unfold ext, low, high in *. replace (Z.max 1 (d_ng D)) with (d_ng D) in R by lia. cbn [normal btoz]. destruct (g_N (geo D g) a' >? 1) eqn:E.
    - apply rng_spec. cbn [g_ng geo]. lia.
    - apply Z.eqb_eq. unfold fst_, lst_ in R. rewrite E in R. lia. }
  destruct (Z.le_gt_cases (total D a) 1) as [T|T].
  - destruct (ends1 D OKD a g T V) as (E1 & _). specialize (R a). unfold low, high in *. rewrite E1 in *. lia.
  - apply (K a V EX); [lia|]. destruct (ends D OKD a g ltac:(lia) V) as (E1 & _). unfold low, high in F. rewrite E1 in F. exact F.
Qed.
Lemma exch_loaded : forall swap st' g c v, exch_all ne no bl br D swap (dep b Q) st' -> on_domain D g -> (forall a, low no (geo D g) a <= co a c <= high no (geo D g) a) ->
  forall m z, (forall a, place bl br D a (co a c + disp D a (gco a g)) = Some (m a, z a)) ->
  st' g c v = (sgn A1 v (m A1) * (sgn A2 v (m A2) * (sgn A3 v (m A3) * deposited bl br D ne (dep b Q) v (z A3, z A2, z A1))))%R.
Proof.
  intros swap st' g c v H V R m z P.
  apply (exch_deposited bl br D ne no xdec (NExc_pos b) no_pos xsize (xo_peri _ _ _ _ _ X) xjs (dep b Q) st' swap H xzero g c v V R m z P).
Qed.
End Lab.

Lemma in_back : forall no G c, In c (back_box no G) <-> forall a, low no G a <= co a c <= high no G a.
Proof. intros no G c. change (back_box no G) with (gb (low no G) (high no G)). apply in_gb. Qed.
Lemma stored : forall b G m A c, (forall a, low (NOfst (g_ng G) b) G a <= co a c <= high (NOfst (g_ng G) b) G a) -> store_all b G m A c = store b (m c) (A c).
Proof.
  intros b G m A c H. unfold store_all. replace (existsb _ _) with true; [reflexivity|]. symmetry. apply existsb_exists. exists c. split; [apply in_back; exact H|].
  destruct (idx_eqb_spec c c); congruence.
Qed.
Lemma load_store : forall b u q v, (v < NVar b)%nat -> load b (store b u q) v = u v.
Proof. intros [] u q v H; cbn in H; do 5 (try (destruct v as [|v]; [first [reflexivity | lia]|])); lia. Qed.
Lemma act_low : forall G a x no, 0 <= no -> act G Cell a x = true -> low no G a <= x <= high no G a.
Proof. intros G a x no N H. unfold act in H. apply rng_spec in H. cbn [normal andb btoz] in H. unfold low, high. destruct (g_N G a >? 1); lia. Qed.
Lemma place_act : forall bl br D g a x, dec_ok D -> on_domain D g -> act (geo D g) Cell a x = true -> place bl br D a (x + disp D a (gco a g)) = Some (false, x + disp D a (gco a g)).
Proof.
  intros bl br D g a x OK V H. assert (K := act_glob D OK Cell a g x V H). unfold act in K. apply rng_spec in K. cbn [normal andb btoz] in K.
  unfold place, image. replace (_ <? _) with false by lia. replace (_ >? _) with false by lia. reflexivity.
Qed.

(** ** The theorems *)
(** After the exchange an active cell holds all that any Grid deposited at its place: in the cell itself, or in a ghost zone of that
    Grid that lies there (behind a neighbour, around a periodic edge, or in the mirror of a reflecting edge). *)
Theorem C100_active : forall b bl br D swap Q Q', exch_ok b bl br D Q -> exchange_gpcouple b bl br D swap Q Q' ->
  forall g c v, on_domain D g -> active (geo D g) Cell c -> (v < amounts b)%nat ->
  amount b v (Q' g c) = deposited bl br D (far b) (dep b Q) v (glob D g c).
Proof.
  intros b bl br D swap Q Q' X (st' & H & E) g c v V A N. rewrite dep_load in H. rewrite amounts_NVar in N. rewrite far_NExc, <- load_amount. assert (OK := xo_dec _ _ _ _ _ X). assert (NP := no_pos b bl br D Q X).
  assert (R : forall a, low (NOfst (d_ng D) b) (geo D g) a <= co a c <= high (NOfst (d_ng D) b) (geo D g) a) by (intros a; apply act_low; [exact NP|apply A]).
  rewrite E, stored by exact R. rewrite load_store by exact N.
  rewrite (exch_loaded b bl br D Q X swap st' g c v H V R (fun _ => false) (fun a => co a c + disp D a (gco a g))) by (intros a; apply place_act; auto).
  unfold sgn. cbn [andb]. rewrite !Rmult_1_l. destruct c as [[k j] i]. reflexivity.
Qed.
Print Assumptions C100_active.
(** After the predictor step every ghost zone also holds what is deposited at the place it is (with the sign of the mirror). *)
Theorem C100_ghosts : forall bl br D swap Q Q', exch_ok Pred bl br D Q -> exchange_gpcouple Pred bl br D swap Q Q' ->
  forall g c v, on_domain D g -> exists_ (geo D g) Cell c -> (v < 5)%nat ->
  forall m z, (forall a, place bl br D a (co a (glob D g c)) = Some (m a, z a)) ->
  amount Pred v (Q' g c) = (sgn A1 v (m A1) * (sgn A2 v (m A2) * (sgn A3 v (m A3) * deposited bl br D 1 (dep Pred Q) v (z A3, z A2, z A1))))%R.
Proof.
  intros bl br D swap Q Q' X (st' & H & E) g c v V A N m z P. rewrite dep_load in H. rewrite <- load_amount.
  assert (R : forall a, low (d_ng D) (geo D g) a <= co a c <= high (d_ng D) (geo D g) a).
  { intros a. specialize (A a). unfold ext in A. unfold low, high. destruct (g_N (geo D g) a >? 1) eqn:G; [apply rng_spec in A; cbn [normal btoz g_ng geo] in A; lia|].
    apply Z.eqb_eq in A. unfold fst_, lst_. rewrite G. lia. }
  rewrite E, stored by exact R. rewrite load_store by exact N.
  apply (exch_loaded Pred bl br D Q X swap st' g c v H V R m z). intros a. rewrite <- co_glob. apply P.
Qed.
Print Assumptions C100_ghosts.
(** No Grid waits for ever. *)
Theorem C100_completes : forall b bl br D swap Q, exch_ok b bl br D Q -> exists Q', exchange_gpcouple b bl br D swap Q Q'.
Proof.
  intros b bl br D swap Q X. assert (OK := xo_dec _ _ _ _ _ X).
  assert (K : forall a st, exists st', exch_axis (NExc b) (NOfst (d_ng D) b) bl br D a (swap a) st st').
  { intros a st. apply exch_axis_exists; auto; [apply NExc_pos|apply (no_pos b bl br D Q X)|apply (xsize b bl br D Q X)|apply X|apply (xjs b bl br D Q X)]. }
  destruct (K A3 (fun g c => load b (Q g c))) as (s1 & H1). destruct (K A2 s1) as (s2 & H2). destruct (K A1 s2) as (s3 & H3).
  exists (fun g => store_all b (geo D g) (s3 g) (Q g)). exists s3. split; [exists s1, s2; auto|reflexivity].
Qed.
Print Assumptions C100_completes.
(** Everything else is left alone. *)
Theorem C100_rest : forall b bl br D swap Q Q', exchange_gpcouple b bl br D swap Q Q' -> forall g c,
  (b = Bin -> fb1 (Q' g c) = fb1 (Q g c) /\ fb2 (Q' g c) = fb2 (Q g c) /\ fb3 (Q' g c) = fb3 (Q g c) /\ FBstiff (Q' g c) = FBstiff (Q g c) /\ Eloss (Q' g c) = Eloss (Q g c)) /\
  (b <> Bin -> grid_v1 (Q' g c) = grid_v1 (Q g c) /\ grid_v2 (Q' g c) = grid_v2 (Q g c) /\ grid_v3 (Q' g c) = grid_v3 (Q g c) /\ grid_d (Q' g c) = grid_d (Q g c)) /\
  (b = Corr -> FBstiff (Q' g c) = FBstiff (Q g c)) /\
  (b <> Pred -> ~ active (geo D g) Cell c -> Q' g c = Q g c).
Proof.
  intros b bl br D swap Q Q' (st' & H & E) g c. rewrite E. unfold store_all.
  destruct (existsb (idx_eqb c) (back_box (NOfst (g_ng (geo D g)) b) (geo D g))) eqn:X; [|repeat split; intros; auto].
  split; [intros ->; cbn; auto|]. split; [intros N; destruct b; [congruence| |]; cbn; auto|]. split; [intros ->; cbn; auto|]. intros N A. exfalso. apply A.
  apply existsb_exists in X. destruct X as (c' & I & Y). destruct (idx_eqb_spec c c') as [<-|]; [|discriminate]. assert (I' := proj1 (in_back _ _ _) I). intros a. unfold act. apply rng_spec. cbn [normal andb btoz].
  specialize (I' a). destruct b; [| congruence |]; cbn [NOfst] in I'; unfold low, high in I'; destruct (g_N (geo D g) a >? 1); lia.
Qed.
Print Assumptions C100_rest.

(** ** Conservation *)
Section Cons.
Variables (bl br : axis -> bc) (D : decomp) (ne : Z).
Hypothesis OK : dec_ok D.
Hypothesis NE : 0 <= ne.
Hypothesis SZ : forall a l, 1 < total D a -> (l < d_NG D a)%nat -> ne <= d_size D a l.
(** Cells of the Grids are cells of the Domain, each once. *)
Lemma cells_total : forall a (h : Z -> R), 1 < total D a -> lsum (seq 0 (d_NG D a)) (fun l => lsum (cells D a l) (fun x => h (x + disp D a l)%Z)) = sumZ (d_ng D) (total D a + d_ng D - 1) h.
Proof.
  intros a h T. unfold total at 1. assert (K : forall n, (n <= d_NG D a)%nat -> lsum (seq 0 n) (fun l => lsum (cells D a l) (fun x => h (x + disp D a l)%Z)) = sumZ (d_ng D) (disp D a n + d_ng D - 1) h).
  - induction n as [|n IH]; intros L; [cbn [seq disp]; rewrite lsum_nil, sumZ_empty by lia; reflexivity|].
    rewrite lsum_seq_S. cbn [Nat.add]. rewrite IH by lia. assert (S1 := sz1 D a OK T n ltac:(lia)). assert (DN := disp_nonneg D OK a n ltac:(lia)).
    unfold cells. rewrite (gfst_eq D a OK T) by lia. rewrite (glst_eq D a OK T) by lia. rewrite lsum_zr. rewrite (dp_S D a).
    rewrite <- (sumZ_cat (d_ng D) (disp D a n + d_ng D - 1) (disp D a n + d_size D a n + d_ng D - 1)) by lia. f_equal.
    rewrite <- !lsum_zr. unfold zrange. replace (disp D a n + d_size D a n + d_ng D - 1 - (disp D a n + d_ng D - 1 + 1) + 1) with (d_size D a n) by lia.
    replace (d_size D a n + d_ng D - 1 - d_ng D + 1) with (d_size D a n) by lia. rewrite !lsum_map. apply lsum_ext. intros i _. f_equal. lia.
  - apply K. lia.
Qed.
Lemma share_total : forall a v x, 1 < total D a -> d_ng D - ne <= x <= total D a + d_ng D - 1 + ne -> ne <= total D a -> sumZ (d_ng D) (total D a + d_ng D - 1) (fun y => share bl br D a v x y) = sign_of bl br D a v x.
Proof.
  intros a v x T X N. unfold share, sign_of. rewrite (place_eq bl br D a T). destruct (image (bl a) (br a) (d_ng D) (total D a + d_ng D - 1) x) as [[m z]|] eqn:E; [|apply sumZ_null; reflexivity].
  assert (Z : d_ng D <= z <= total D a + d_ng D - 1).
  { unfold image in E. destruct (Z.ltb_spec x (d_ng D)); [|destruct (Z.gtb_spec x (total D a + d_ng D - 1))].
    - destruct (bl a); try discriminate; apply some_pair in E; destruct E as [_ <-]; lia.
    - destruct (br a); try discriminate; apply some_pair in E; destruct E as [_ <-]; lia.
    - apply some_pair in E; destruct E as [_ <-]; lia. }
  rewrite (sumZ_pick _ _ _ z); [|intros i _ I; replace (z =? i) with false by lia; reflexivity].
  replace (d_ng D <=? z) with true by lia. replace (z <=? total D a + d_ng D - 1) with true by lia. rewrite Z.eqb_refl. reflexivity.
Qed.
Lemma axis_total : forall a v f, lsum (seq 0 (d_NG D a)) (fun l => lsum (cells D a l) (fun x => gathered bl br D ne a v f (x + disp D a l)%Z)) =
  lsum (seq 0 (d_NG D a)) (fun l => lsum (reach D ne a l) (fun x => (sign_of bl br D a v (x + disp D a l)%Z * f l x)%R)).
Proof.
  intros a v f. assert (P : (0 < d_NG D a)%nat) by (destruct OK as (_ & _ & K); apply K). destruct (Z.le_gt_cases (total D a) 1) as [T|T].
  - destruct (one_facts D OK a 0%nat T P) as (_ & N & S & T1). rewrite N. cbn [seq]. rewrite !lsum_cons, !lsum_nil. unfold cells, reach, gfst, glst. rewrite S. change (1 >? 1) with false. cbv iota.
    change (zrange 0 0) with [0]. rewrite !lsum_cons, !lsum_nil. cbn [disp]. change (0 + 0) with 0. rewrite gathered_flat by auto.
    unfold sign_of, place, image, fst_, lst_. rewrite g_N_dgeo, T1. change (1 >? 1) with false. cbv iota. change (0 <? 0) with false. change (0 >? 0) with false. cbv iota. unfold sgn. cbn [andb]. lra.
  - assert (T' : 1 < total D a) by lia. rewrite (cells_total a (fun y => gathered bl br D ne a v f y)) by auto. rewrite <- lsum_zr. unfold gathered. rewrite lsum_swap. apply lsum_ext. intros l L. apply in_seq in L.
    rewrite lsum_swap. apply lsum_ext. intros x X. rewrite (reach_eq D ne a OK T') in X by lia. apply in_zrange in X. rewrite lsum_zr.
    rewrite (sumZ_ext _ _ _ (fun y => (f l x * share bl br D a v (x + disp D a l) y)%R)) by (intros; ring). rewrite sumZ_scal.
    assert (DN := disp_nonneg D OK a l ltac:(lia)). assert (DT := disp_step D OK a (S l) (d_NG D a) ltac:(lia)). rewrite (dp_S D a) in DT. change (disp D a (d_NG D a)) with (total D a) in DT.
    assert (SL := SZ a l T' ltac:(lia)). rewrite share_total by (auto; lia). ring.
Qed.
Lemma all_ext : forall r F F', (forall g c, on_domain D g -> (forall a, In (co a c) (r a (gco a g))) -> F g c = F' g c) -> all_grids D r F = all_grids D r F'.
Proof.
  intros r F F' H. unfold all_grids. apply lsum_ext. intros l L. apply lsum_ext. intros i I. apply lsum_ext. intros m M. apply lsum_ext. intros j J. apply lsum_ext. intros n N. apply lsum_ext. intros k K.
  apply in_seq in L, M, N. apply H; intros []; cbn; auto; lia.
Qed.
Lemma deposited_total : forall Q v, all_grids D (cells D) (fun g c => deposited bl br D ne Q v (glob D g c)) =
  all_grids D (reach D ne) (fun g c => (sign_of bl br D A1 v (co A1 (glob D g c)) * (sign_of bl br D A2 v (co A2 (glob D g c)) * (sign_of bl br D A3 v (co A3 (glob D g c)) * Q g c v)))%R).
Proof.
  intros Q v. unfold all_grids, deposited. cbn [glob co gco].
  transitivity (lsum (seq 0 (d_NG D A1)) (fun l => lsum (cells D A1 l) (fun i => gathered bl br D ne A1 v (fun l0 i0 =>
     lsum (seq 0 (d_NG D A2)) (fun m => lsum (cells D A2 m) (fun j => gathered bl br D ne A2 v (fun m0 j0 =>
        lsum (seq 0 (d_NG D A3)) (fun n => lsum (cells D A3 n) (fun k => gathered bl br D ne A3 v (fun n0 k0 => Q (n0, m0, l0) (k0, j0, i0) v) (k + disp D A3 n)%Z))) (j + disp D A2 m)%Z))) (i + disp D A1 l)%Z))).
  - apply lsum_ext. intros l _. apply lsum_ext. intros i _.
    rewrite <- gathered_lsum. apply lsum_ext. intros m _. rewrite <- gathered_lsum. apply lsum_ext. intros j _.
    rewrite (lsum_ext _ _ _ (fun n => gathered bl br D ne A1 v (fun l0 i0 => lsum (cells D A3 n) (fun k => gathered bl br D ne A2 v (fun m0 j0 => gathered bl br D ne A3 v (fun n0 k0 => Q (n0, m0, l0) (k0, j0, i0) v) (k + disp D A3 n)%Z) (j + disp D A2 m)%Z)) (i + disp D A1 l)%Z))
      by (intros n _; rewrite <- gathered_lsum; reflexivity).
    rewrite gathered_lsum. apply gathered_ext. intros l0 i0 _ _. rewrite <- gathered_lsum. apply lsum_ext. intros n _. apply gathered_lsum.
  - rewrite axis_total. apply lsum_ext. intros l _. apply lsum_ext. intros i _. rewrite axis_total.
    rewrite <- lsum_scal. apply lsum_ext. intros m _. rewrite <- lsum_scal. apply lsum_ext. intros j _. rewrite axis_total.
    rewrite <- !lsum_scal. apply lsum_ext. intros n _. rewrite <- !lsum_scal. apply lsum_ext. intros k _. reflexivity.
Qed.
End Cons.
(** The sum over all active cells of the Domain is the sum of all deposits, in cells and ghost zones, each once: with a minus sign
    for a momentum mirrored in a reflecting edge normal to it, and without those beyond an open edge. *)
Theorem C100_conserved : forall b bl br D swap Q Q', exch_ok b bl br D Q -> exchange_gpcouple b bl br D swap Q Q' -> forall v, (v < amounts b)%nat ->
  all_grids D (cells D) (fun g c => amount b v (Q' g c)) =
  all_grids D (reach D (far b)) (fun g c => (sign_of bl br D A1 v (co A1 (glob D g c)) * (sign_of bl br D A2 v (co A2 (glob D g c)) * (sign_of bl br D A3 v (co A3 (glob D g c)) * amount b v (Q g c))))%R).
Proof.
  intros b bl br D swap Q Q' X H v N. assert (OK := xo_dec _ _ _ _ _ X). etransitivity; [|apply (deposited_total bl br D (far b) OK) with (Q := dep b Q) (v := v)].
  - apply all_ext. intros g c V I. apply (C100_active b bl br D swap Q Q' X H); auto. intros a. specialize (I a). unfold act. apply rng_spec. cbn [normal andb btoz].
    unfold cells in I. apply in_zrange in I. unfold gfst, glst in I. unfold fst_, lst_. rewrite g_N_geo. destruct (d_size D a (gco a g) >? 1); cbn [g_ng geo]; lia.
  - intros a l T L. assert (S := xsize b bl br D Q X a l T L). assert (NP := no_pos b bl br D Q X). rewrite far_NExc. lia.
Qed.
Print Assumptions C100_conserved.
(** In a periodic Domain nothing is lost. *)
Theorem C100_conserved_periodic : forall b D swap Q Q', exch_ok b (fun _ => Peri) (fun _ => Peri) D Q -> exchange_gpcouple b (fun _ => Peri) (fun _ => Peri) D swap Q Q' ->
  forall v, (v < amounts b)%nat -> all_grids D (cells D) (fun g c => amount b v (Q' g c)) = all_grids D (reach D (far b)) (fun g c => amount b v (Q g c)).
Proof.
  intros b D swap Q Q' X H v N. rewrite (C100_conserved b _ _ D swap Q Q' X H v N). apply all_ext. intros g c _ _.
  assert (S : forall a x, sign_of (fun _ => Peri) (fun _ => Peri) D a v x = 1%R) by (intros a x; unfold sign_of, place, image; destruct (x <? fst_ (dgeo D) a), (x >? lst_ (dgeo D) a); reflexivity). rewrite !S. ring.
Qed.
Print Assumptions C100_conserved_periodic.

(** ** Messages *)
Lemma zrange_len : forall lo hi, length (zrange lo hi) = Z.to_nat (hi - lo + 1).
Proof. intros. unfold zrange. rewrite map_length, seq_length. reflexivity. Qed.
Lemma for_len : forall B lo hi (body : Z -> list B) n, (forall x, lo <= x <= hi -> length (body x) = n) -> length (for_ lo hi body) = (Z.to_nat (hi - lo + 1) * n)%nat.
Proof.
  intros B lo hi body n H. unfold for_. rewrite <- zrange_len. assert (K : forall x, In x (zrange lo hi) -> length (body x) = n) by (intros x I; apply H; apply in_zrange; exact I).
  induction (zrange lo hi) as [|x L IH]; [reflexivity|]. cbn [flat_map length]. rewrite app_length, IH by (intros; apply K; right; auto). rewrite K by (left; auto). lia.
Qed.
Lemma box_len : forall k0 k1 j0 j1 i0 i1, k0 <= k1 + 1 -> j0 <= j1 + 1 -> i0 <= i1 + 1 ->
  Z.of_nat (length (box k0 k1 j0 j1 i0 i1)) = (k1 - k0 + 1) * (j1 - j0 + 1) * (i1 - i0 + 1).
Proof.
  intros. unfold box.
  rewrite (for_len _ _ _ _ (Z.to_nat (j1 - j0 + 1) * (Z.to_nat (i1 - i0 + 1) * 1))); [rewrite !Nat2Z.inj_mul, !Z2Nat.id by lia; ring|].
  intros k _. apply for_len. intros j _. apply for_len. reflexivity.
Qed.
(** The length given to MPI_Isend and MPI_Irecv (cnt) is the number of values packed and unpacked, on either side ... *)
Theorem C100_message : forall b D g a, dec_ok D -> on_domain D g -> 1 < total D a ->
  let ne := NExc b in let no := NOfst (d_ng D) b in let G := geo D g in
  Z.of_nat (length (pack_l ne no G a)) = cnt_cells ne no G a /\ Z.of_nat (length (pack_r ne no G a)) = cnt_cells ne no G a /\
  Z.of_nat (length (unpack_l ne no G a)) = cnt_cells ne no G a /\ Z.of_nat (length (unpack_r ne no G a)) = cnt_cells ne no G a.
Proof.
  intros b D g a OK V T ne no G. assert (NP : 0 <= no) by (destruct OK; unfold no; destruct b; cbn; lia). assert (EP : 0 <= ne) by apply NExc_pos.
  assert (KN : forall a', (1 < total D a' -> 1 < g_N G a') /\ 1 <= g_N G a').
  { intros a'. unfold G. rewrite g_N_geo. destruct (Z.le_gt_cases (total D a') 1) as [T1|T1].
    - destruct (one_facts D OK a' (gco a' g) T1 (V a')) as (_ & _ & S & _). lia.
    - assert (S := proj1 (pos_facts D OK a' (gco a' g) ltac:(lia) (V a'))). lia. }
  assert (K1 := KN A1). assert (K2 := KN A2). assert (K3 := KN A3). cbn [g_N] in K1, K2, K3. clearbody ne no. clear KN.
  unfold pack_l, pack_r, unpack_l, unpack_r, cnt_cells, il, iu, ib, it, jl, ju, jb, jt, kl, ku, kb, kt, g_is, g_ie, g_js, g_je, g_ks, g_ke.
  destruct a; destruct (Z.gtb_spec (g_N1 G) 1); destruct (Z.gtb_spec (g_N2 G) 1); destruct (Z.gtb_spec (g_N3 G) 1); try (exfalso; lia); rewrite !box_len by lia; repeat split; try ring;
    repeat match goal with H : _ <= 1 |- _ => assert (E : _ = 1) by (apply Z.le_antisymm; [exact H|lia]); rewrite ?E; clear H end; ring.
Qed.
Print Assumptions C100_message.
(** ... and fits the buffers, for up to five ghost zones. *)
Lemma face_bound : forall b D g a, dec_ok D -> on_domain D g -> d_ng D <= 5 -> cnt_cells (NExc b) (NOfst (d_ng D) b) (geo D g) a <= NLayer_Max * face (geo D g) a.
Proof.
  intros b D g a OK V G5. set (ne := NExc b). set (no := NOfst (d_ng D) b). set (G := geo D g).
  assert (NP : 0 <= no <= 6) by (destruct OK; unfold no; destruct b; cbn [NOfst]; lia). assert (EP : 0 <= ne <= 6) by (unfold ne; destruct b; cbn [NExc]; lia).
  assert (SP : ne + no <= 6) by (destruct OK; unfold ne, no; destruct b; cbn [NExc NOfst]; lia).
  assert (KN : forall a', 1 <= g_N G a').
  { intros a'. unfold G. rewrite g_N_geo. destruct (Z.le_gt_cases (total D a') 1) as [T1|T1].
    - destruct (one_facts D OK a' (gco a' g) T1 (V a')) as (_ & _ & S & _). lia.
    - assert (S := proj1 (pos_facts D OK a' (gco a' g) ltac:(lia) (V a'))). lia. }
  assert (K1 := KN A1). assert (K2 := KN A2). assert (K3 := KN A3). cbn [g_N] in K1, K2, K3. clearbody ne no. clear KN.
  assert (W : forall N w, 1 <= N -> 0 <= w <= 6 -> 0 <= (if N >? 1 then N + 2 * w else 1) <= wide N).
  { intros N w H H'. unfold wide, NLayer_Max. destruct (Z.gtb_spec N 1); lia. }
  unfold cnt_cells, face, NLayer_Max.
  assert (M : forall x y z x' y', 0 <= x <= 6 -> 0 <= y <= x' -> 0 <= z <= y' -> x * y * z <= 6 * (x' * y')).
  { intros x y z x' y' Hx Hy Hz. rewrite <- Z.mul_assoc. apply Z.mul_le_mono_nonneg; [lia|lia|apply Z.mul_nonneg_nonneg; lia|]. apply Z.mul_le_mono_nonneg; lia. }
  destruct a; apply M; auto; lia.
Qed.
Lemma fold_max_base : forall gs a m, m <= fold_left (fun m G => Z.max m (face G a)) gs m.
Proof. induction gs as [|G gs IH]; intros a m; [apply Z.le_refl|]. cbn [fold_left]. eapply Z.le_trans; [|apply IH]. lia. Qed.
Lemma fold_max_in : forall gs a m G, In G gs -> face G a <= fold_left (fun m G => Z.max m (face G a)) gs m.
Proof.
  induction gs as [|H gs IH]; intros a m G I; [contradiction|]. cbn [fold_left]. destruct I as [->|I]; [|apply IH; exact I]. eapply Z.le_trans; [|apply fold_max_base]. lia.
Qed.
Lemma fold_div_base : forall gs div m, m <= fold_left (fun m a => fold_left (fun m G => Z.max m (face G a)) gs m) div m.
Proof. intros gs. induction div as [|a div IH]; intros m; [apply Z.le_refl|]. cbn [fold_left]. eapply Z.le_trans; [|apply IH]. apply fold_max_base. Qed.
Lemma fold_div_in : forall gs div m G a, In G gs -> In a div -> face G a <= fold_left (fun m a => fold_left (fun m G => Z.max m (face G a)) gs m) div m.
Proof.
  intros gs. induction div as [|a' div IH]; intros m G a I J; [contradiction|]. cbn [fold_left]. destruct J as [->|J]; [|apply IH; auto]. eapply Z.le_trans; [|apply fold_div_base]. apply fold_max_in. exact I.
Qed.
Theorem C100_buffer : forall b D gs div, dec_ok D -> d_ng D <= 5 -> (forall g, on_domain D g -> In (geo D g) gs) -> (forall a, (1 < d_NG D a)%nat -> In a div) ->
  forall g a, on_domain D g -> (1 < d_NG D a)%nat -> Z.of_nat (NVar b) * cnt_cells (NExc b) (NOfst (d_ng D) b) (geo D g) a <= buf_size gs div.
Proof.
  intros b D gs div OK G5 GS DV g a V N. assert (F := fold_div_in gs div 0 (geo D g) a (GS g V) (DV a N)). assert (B := face_bound b D g a OK V G5). unfold buf_size.
  set (M := fold_left _ div 0) in *. assert (NV : 0 <= Z.of_nat (NVar b) <= 5) by (destruct b; cbn; lia). assert (MP : 0 <= M) by apply fold_div_base. unfold NLayer_Max, NVar_Max in *.
  apply Z.le_trans with (Z.of_nat (NVar b) * (6 * M)); [apply Z.mul_le_mono_nonneg_l; lia|]. nia.
Qed.
Print Assumptions C100_buffer.

(** ** Where the code does not do it *)
(** In one dimension the reflecting x1 boundary of the predictor reads outside the array: line 1880 has js where is is meant. *)
Theorem C100_mirror_1d_refuted : forall ng N1, 1 <= ng -> 1 < N1 ->
  exists t s f, In (t, Copy s f) (snd (apply_ 1 ng (Geom ng N1 1 1) Refl A1 false)) /\ co A1 s < 0.
Proof.
  intros ng N1 H H'. exists (0, 0, 0), (0, 0, - 1), (flip 0). split; [|cbn; lia]. cbn [apply_ reflect_ix1 snd].
  apply in_map_iff. exists (0, 0, 0). split; [reflexivity|]. apply in_box.
  unfold kb, kt, jb, jt, ib, g_is, g_js, g_je, g_ks, g_ke. cbn [g_N1 g_N2 g_N3 g_ng]. change (1 >? 1) with false. cbv iota. rewrite (gt1 _ H'). lia.
Qed.
Print Assumptions C100_mirror_1d_refuted.

(** Grids of nghost cells: two Grids of two cells, two ghost zones, the last edge reflecting.  A deposit of the second Grid behind that
    edge belongs to its second cell, and the second right ghost zone of the first Grid is that cell: it does not get it. *)
Definition D2 : decomp := {| d_ng := 2; d_NG := fun a => match a with A1 => 2%nat | _ => 1%nat end; d_size := fun a _ => match a with A1 => 2 | _ => 1 end |}.
Definition one_at (g0 : gpos) (c0 : idx) : gpos -> arr vec := fun g c v => if pos_eqb g g0 && idx_eqb c c0 && (v =? 1)%nat then 1%R else 0%R.
Definition refl2 : axis -> bc := fun _ => Refl.
Lemma D2_ok : dec_ok D2.
Proof.
  split; [cbn; lia|]. split; [cbn; lia|]. intros []; cbn.
  - split; [lia|]. right. intros l L. lia.
  - split; [lia|]. left. split; reflexivity.
  - split; [lia|]. left. split; reflexivity.
Qed.
Theorem C100_small_grid_refuted : exists st', exch_all 1 2 refl2 refl2 D2 (fun _ _ => false) (one_at (0, 0, 1)%nat (0, 0, 4)) st' /\
  place refl2 refl2 D2 A1 (co A1 (glob D2 (0, 0, 0)%nat (0, 0, 5))) = Some (false, 5) /\
  place refl2 refl2 D2 A2 (co A2 (glob D2 (0, 0, 0)%nat (0, 0, 5))) = Some (false, 0) /\
  place refl2 refl2 D2 A3 (co A3 (glob D2 (0, 0, 0)%nat (0, 0, 5))) = Some (false, 0) /\
  deposited refl2 refl2 D2 1 (one_at (0, 0, 1)%nat (0, 0, 4)) 1 (0, 0, 5) = 1%R /\
  st' (0, 0, 0)%nat (0, 0, 5) 1%nat = 0%R.
Proof.
  set (st := one_at (0, 0, 1)%nat (0, 0, 4)).
  exists (fun g => match exch 1 2 refl2 refl2 D2 A1 (fun _ => false) st g with Some A => A | None => st g end). split; [|split; [|split; [|split; [|split]]]]; try reflexivity.
  - exists st, st. split; [|split].
    + intros g V. unfold exch. rewrite !inbox_l, !inbox_r; try exact V; try (intros a _; reflexivity). cbn [obind]. unfold axis_step. rewrite g_N_geo. reflexivity.
    + intros g V. unfold exch. rewrite !inbox_l, !inbox_r; try exact V; try (intros a _; reflexivity). cbn [obind]. unfold axis_step. rewrite g_N_geo. reflexivity.
    + intros [[n m] l] V. assert (V1 := V A1). assert (V2 := V A2). assert (V3 := V A3). cbn in V1, V2, V3.
      assert (n = 0)%nat as -> by lia. assert (m = 0)%nat as -> by lia. destruct l as [|[|l]]; [reflexivity|reflexivity|lia].
  - cbv -[Rplus Rmult Ropp R1 R0 IZR]. lra.
  - cbv -[Rplus Rmult Ropp R1 R0 IZR]. lra.
Qed.
Print Assumptions C100_small_grid_refuted.

(** ** The hypotheses can be met *)
Definition D3 : decomp := {| d_ng := 2; d_NG := fun a => match a with A3 => 1%nat | _ => 2%nat end; d_size := fun a _ => match a with A3 => 1 | _ => 4 end |}.
Definition bc3 : axis -> bc := fun a => match a with A1 => Refl | _ => Peri end.
(** One particle of the last Grid deposits in the corner behind the reflecting x1 edge and the periodic x2 edge. *)
Definition Q3 : gpos -> arr coup := fun g c =>
  if pos_eqb g (0, 1, 1)%nat && idx_eqb c (0, 6, 6) then Coup 1 2 3 4 5 6 7 8 9 else Coup 0 0 0 0 0 0 0 0 0.
Lemma Q3_zero : forall b g c v, c <> (0, 6, 6) -> amount b v (Q3 g c) = 0%R.
Proof.
  intros b g c v N. unfold Q3. destruct (idx_eqb_spec c (0, 6, 6)); [contradiction|]. rewrite andb_false_r. destruct b; do 6 (try destruct v as [|v]; [reflexivity|]); destruct v; reflexivity.
Qed.
Example C100_hypotheses : forall b, exch_ok b bc3 bc3 D3 Q3.
Proof.
  intros b. split.
  - split; [cbn; lia|]. split; [cbn; lia|]. intros []; cbn.
    + split; [lia|]. right. intros l L. lia.
    + split; [lia|]. right. intros l L. lia.
    + split; [lia|]. left. split; reflexivity.
  - reflexivity.
  - intros _ [] l T L; cbn in *; lia.
  - intros -> g c v a V E T F. apply Q3_zero. intros ->. destruct a; cbn in F; lia.
  - intros _. right. cbn. lia.
Qed.
(** It goes to the last cell along x1 and the first along x2, and its x1 momentum changes sign. *)
Example C100_example : forall b swap Q', exchange_gpcouple b bc3 bc3 D3 swap Q3 Q' ->
  amount b 0 (Q' (0, 0, 1)%nat (0, 2, 5)) = (- (match b with Bin => 6 | _ => 1 end))%R /\ amount b 1 (Q' (0, 0, 1)%nat (0, 2, 5)) = (match b with Bin => 7 | _ => 2 end)%R.
Proof.
  intros b swap Q' H. assert (A : active (geo D3 (0, 0, 1)%nat) Cell (0, 2, 5)) by (intros []; reflexivity).
  assert (V : on_domain D3 (0, 0, 1)%nat) by (intros []; cbn; lia).
  split; rewrite (C100_active b bc3 bc3 D3 swap Q3 Q' (C100_hypotheses b) H) by (auto; destruct b; cbn; lia); destruct b; cbv -[Rplus Rmult Ropp R1 R0 IZR]; lra.
Qed.
