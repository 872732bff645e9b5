(** The three axes of exchange_gpcouple. *)
From Coq Require Import ZArith Reals List Bool Lia Lra FunctionalExtensionality.
From Verif Require Import Loop BvalsModel BvalsSpec BvalsParModel BvalsParProps IntegSpec IntegFacts SumFacts GravFacts ExchModel ExchSpec ExchSum ExchRow ExchStep.
Import ListNotations.
Open Scope Z_scope.

Section Gather.
Variables (bl br : axis -> bc) (D : decomp) (ne : Z).
Notation gath := (gathered bl br D ne).
Lemma gathered_ext : forall a v f f' y, (forall l x, (l < d_NG D a)%nat -> In x (reach D ne a l) -> f l x = f' l x) -> gath a v f y = gath a v f' y.
Proof.
  intros a v f f' y H. unfold gathered. apply lsum_ext. intros l L. apply in_seq in L. apply lsum_ext. intros x X. rewrite (H l x); auto. lia.
Qed.
Lemma gathered_scal : forall a v k f y, gath a v (fun l x => (k * f l x)%R) y = (k * gath a v f y)%R.
Proof.
  intros a v k f y. unfold gathered. rewrite <- lsum_scal. apply lsum_ext. intros l _. rewrite <- lsum_scal. apply lsum_ext. intros x _. ring.
Qed.
Lemma gathered_lsum : forall X (L : list X) a v (f : X -> nat -> Z -> R) y, lsum L (fun p => gath a v (f p) y) = gath a v (fun l x => lsum L (fun p => f p l x)) y.
Proof.
  intros X L a v f y. unfold gathered. rewrite lsum_swap. apply lsum_ext. intros l _. rewrite lsum_swap. apply lsum_ext. intros x _. rewrite lsum_scal. reflexivity.
Qed.
Lemma gathered_flat : forall a v f, dec_ok D -> total D a <= 1 -> gath a v f 0 = f 0%nat 0.
Proof.
  intros a v f OK T. assert (P : (0 < d_NG D a)%nat) by (destruct OK as (_ & _ & K); apply K). destruct (one_facts D OK a 0%nat T P) as (_ & N & S & T1).
  unfold gathered. rewrite N. cbn [seq]. rewrite lsum_cons, lsum_nil. unfold reach. rewrite S. change (1 >? 1) with false. cbv iota. rewrite lsum_cons, lsum_nil.
  unfold share, place, image, fst_, lst_. rewrite g_N_dgeo, T1. change (1 >? 1) with false. cbv iota. cbn [disp]. change (0 + 0) with 0. change (0 <? 0) with false. change (0 >? 0) with false. cbv iota.
  change (0 =? 0) with true. unfold sgn. cbn [andb]. lra.
Qed.
End Gather.

Section All.
Variables (bl br : axis -> bc) (D : decomp) (ne no : Z).
Hypothesis OK : dec_ok D.
Hypothesis NE : 0 <= ne.
Hypothesis NO : 0 <= no.
Hypothesis SZ : forall a l, 1 < total D a -> (l < d_NG D a)%nat -> ne + no <= d_size D a l.
Hypothesis BP : forall a, 1 < total D a -> is_peri (bl a) = is_peri (br a).
Hypothesis JS : no = 0 \/ (bl A1 <> Refl /\ bl A1 <> Cond) \/ 1 < total D A2.
Notation ob g a c := (othersb a (wl ne no (geo D g) a) (wh ne no (geo D g) a) c).

Lemma SB : same_bc D bl br.
Proof.
  intros a N. apply BP. destruct (Z.le_gt_cases (total D a) 1) as [T|T]; [|lia]. destruct (one_facts D OK a 0%nat T ltac:(lia)) as (_ & X & _). lia.
Qed.
Lemma step_exists : forall a st g swap, on_domain D g -> exists A', exch ne no bl br D a swap st g = Some A' /\
  (forall c v, ob g a c = false -> A' c v = st g c v) /\
  (forall c v, ob g a c = true -> low no (geo D g) a <= co a c <= high no (geo D g) a ->
     (co a c < low ne (geo D g) a \/ high ne (geo D g) a < co a c -> st g c v = 0%R) ->
     forall m z, place bl br D a (co a c + disp D a (gco a g)) = Some (m, z) ->
     A' c v = (sgn a v m * gathered bl br D ne a v (fun l x => st (gupd a g l) (upd a c x) v) z)%R).
Proof.
  intros a st g swap V. destruct (Z.le_gt_cases (total D a) 1) as [T|T].
  - destruct (ends1 D OK a g T V) as (E1 & E2 & E3 & E4 & E5 & E6 & E7). exists (st g). split.
    { unfold exch. rewrite !inbox_l, !inbox_r by (auto; apply SB). cbn [obind]. unfold axis_step. rewrite E1. reflexivity. }
    split; [reflexivity|]. intros c v O X _ m z P. unfold low, high in X. rewrite E1, E3, E5 in X. assert (C0 : co a c = 0) by lia. rewrite E7, C0, Z.add_0_r in P.
    unfold place in P. rewrite E4, E6 in P. cbn in P. apply some_pair in P. destruct P as [<- <-]. rewrite gathered_flat by auto. unfold sgn. cbn [andb]. rewrite Rmult_1_l.
    destruct (one_facts D OK a (gco a g) T (V a)) as (G0 & _). replace (gupd a g 0%nat) with g by (rewrite <- G0; symmetry; apply gupd_same). rewrite <- C0, upd_co. reflexivity.
  - assert (T' : 1 < total D a) by lia. destruct (ends D OK a g T' V) as (E1 & E2 & E3 & E4 & E5 & E6).
    assert (J' : no = 0 \/ (bl a <> Refl /\ bl a <> Cond) \/ a <> A1 \/ 1 < total D A2).
    { destruct JS as [J|[J|J]]; auto. destruct (axis_dec a A1) as [->|]; auto. }
    destruct (exch_fin bl br D ne no a OK T' NE NO (fun l => SZ a l T') (BP a T') SB J' st g swap V) as (A' & X & Y & Z). exists A'. split; [exact X|]. split; [exact Y|].
    intros c v O R Z0 m z P. unfold low, high in R, Z0. rewrite E1 in R, Z0. rewrite Z by auto.
    rewrite (fin_gathered bl br D ne no a OK T' NE NO (fun l => SZ a l T') (BP a T') J' st g V c v m z) by auto. reflexivity.
Qed.
Lemma exch_axis_exists : forall a st swap, exists st', exch_axis ne no bl br D a swap st st'.
Proof.
  intros a st swap. exists (fun g => match exch ne no bl br D a swap st g with Some A => A | None => st g end). intros g V.
  destruct (step_exists a st g swap V) as (A' & E & _). rewrite E. reflexivity.
Qed.
Lemma step : forall a st st' swap g, exch_axis ne no bl br D a swap st st' -> on_domain D g ->
  (forall c v, ob g a c = false -> st' g c v = st g c v) /\
  (forall c v, ob g a c = true -> low no (geo D g) a <= co a c <= high no (geo D g) a ->
     (co a c < low ne (geo D g) a \/ high ne (geo D g) a < co a c -> st g c v = 0%R) ->
     forall m z, place bl br D a (co a c + disp D a (gco a g)) = Some (m, z) ->
     st' g c v = (sgn a v m * gathered bl br D ne a v (fun l x => st (gupd a g l) (upd a c x) v) z)%R).
Proof.
  intros a st st' swap g H V. destruct (step_exists a st g swap V) as (A' & E & K). rewrite (H g V) in E. injection E as ->. exact K.
Qed.
Lemma reach_in : forall a g l x, on_domain D g -> (l < d_NG D a)%nat -> In x (reach D ne a l) -> low ne (geo D (gupd a g l)) a <= x <= high ne (geo D (gupd a g l)) a.
Proof.
  intros a g l x V L X. unfold low, high, fst_, lst_. rewrite g_N_geo, gco_gupd. unfold reach, gfst, glst in X. destruct (d_size D a l >? 1); [apply in_zrange in X; cbn [g_ng geo]; lia|].
  destruct X as [<-|[]]. lia.
Qed.
Lemma low_gupd : forall w a b g l, b <> a -> low w (geo D (gupd a g l)) b = low w (geo D g) b /\ high w (geo D (gupd a g l)) b = high w (geo D g) b.
Proof. intros w a b g l N. unfold low, high, fst_, lst_. rewrite !g_N_geo, gco_gupd_other by auto. auto. Qed.

(** The three axes. *)
Variables (st st' : gpos -> arr vec) (swap : axis -> gpos -> bool).
Hypothesis H : exch_all ne no bl br D swap st st'.
Hypothesis ZO : no = 0 \/ forall g c v b, on_domain D g -> (forall b', low (Z.max ne no) (geo D g) b' <= co b' c <= high (Z.max ne no) (geo D g) b') ->
  (co b c < low ne (geo D g) b \/ high ne (geo D g) b < co b c) -> st g c v = 0%R.
Lemma low_le : forall w w' g b, w <= w' -> on_domain D g -> low w' (geo D g) b <= low w (geo D g) b /\ high w (geo D g) b <= high w' (geo D g) b.
Proof. intros w w' g b W V. unfold low, high. destruct (g_N (geo D g) b >? 1); lia. Qed.
Theorem exch_deposited : forall g c v, on_domain D g -> (forall b, low no (geo D g) b <= co b c <= high no (geo D g) b) ->
  forall m z, (forall b, place bl br D b (co b c + disp D b (gco b g)) = Some (m b, z b)) ->
  st' g c v = (sgn A1 v (m A1) * (sgn A2 v (m A2) * (sgn A3 v (m A3) * deposited bl br D ne st v (z A3, z A2, z A1))))%R.
Proof.
  intros g c v V R m z P. destruct H as (st1 & st2 & H3 & H2 & H1).
  assert (OT : forall g a c, on_domain D g -> (forall b, b <> a -> wl ne no (geo D g) a b <= co b c <= wh ne no (geo D g) a b) -> ob g a c = true) by (intros; apply othersb_spec; auto).
  (* cells beyond reach keep zero *)
  assert (Z1 : forall g a c, on_domain D g -> (forall b, b <> a -> wl ne no (geo D g) a b <= co b c <= wh ne no (geo D g) a b) -> low no (geo D g) a <= co a c <= high no (geo D g) a ->
    (co a c < low ne (geo D g) a \/ high ne (geo D g) a < co a c) -> st g c v = 0%R).
  { intros g' a c' V' W A B. destruct ZO as [N0|Z0].
    - exfalso. rewrite N0 in A. destruct (low_le 0 ne g' a NE V'). lia.
    - apply (Z0 g' c' v a V'); auto. intros b. assert (M1 := low_le ne (Z.max ne no) g' b ltac:(lia) V'). assert (M2 := low_le no (Z.max ne no) g' b ltac:(lia) V').
      destruct (axis_dec b a) as [->|N]; [lia|]. specialize (W b N). unfold wl, wh in W. destruct (done b a); lia. }
  assert (far : forall g a b c, on_domain D g -> b <> a -> done b a = false -> (co b c < low ne (geo D g) b \/ high ne (geo D g) b < co b c) -> ob g a c = false).
  { intros g' a b c' V' N Dn F. destruct (ob g' a c') eqn:O; [|reflexivity]. exfalso. apply othersb_spec in O. specialize (O b N). unfold wl, wh in O. rewrite Dn in O. lia. }
  (* along x1 *)
  destruct (step A1 st2 st' (swap A1) g H1 V) as [_ S1]. rewrite (S1 c v) with (m := m A1) (z := z A1).
  2: { apply OT; auto. intros b B. destruct b; [congruence|apply R|apply R]. }
  2: { apply R. }
  2: { intros F. destruct (step A2 st1 st2 (swap A2) g H2 V) as [K2 _]. rewrite K2 by (apply (far g A2 A1); auto; discriminate).
       destruct (step A3 st st1 (swap A3) g H3 V) as [K3 _]. rewrite K3 by (apply (far g A3 A1); auto; discriminate).
       apply (Z1 g A1); auto. intros b B. destruct b; [congruence|apply R|apply R]. }
  2: { apply P. }
  f_equal. rewrite <- gathered_scal, <- gathered_scal || idtac.
  unfold deposited. cbn [co]. rewrite <- !gathered_scal.
  apply gathered_ext. intros l i L I.
  assert (Vl : on_domain D (gupd A1 g l)) by (apply on_gupd; auto). assert (RI := reach_in A1 g l i V L I).
  (* along x2 *)
  destruct (step A2 st1 st2 (swap A2) (gupd A1 g l) H2 Vl) as [_ S2]. rewrite (S2 (upd A1 c i) v) with (m := m A2) (z := z A2).
  2: { apply OT; auto. intros b B. destruct b; [rewrite co_upd; exact RI|congruence|rewrite co_upd_other by discriminate]. unfold wl, wh. cbn [done]. destruct (low_gupd no A1 A3 g l ltac:(discriminate)) as [-> ->]. apply R. }
  2: { rewrite co_upd_other by discriminate. destruct (low_gupd no A1 A2 g l ltac:(discriminate)) as [-> ->]. apply R. }
  2: { intros F. destruct (step A3 st st1 (swap A3) (gupd A1 g l) H3 Vl) as [K3 _]. rewrite K3 by (apply (far _ A3 A2); auto; discriminate).
       apply (Z1 (gupd A1 g l) A2); auto.
       - intros b B. destruct b; [rewrite co_upd; exact RI|congruence|rewrite co_upd_other by discriminate]. unfold wl, wh. cbn [done]. destruct (low_gupd no A1 A3 g l ltac:(discriminate)) as [-> ->]. apply R.
       - rewrite co_upd_other by discriminate. destruct (low_gupd no A1 A2 g l ltac:(discriminate)) as [-> ->]. apply R. }
  2: { rewrite co_upd_other, gco_gupd_other by discriminate. apply P. }
  f_equal. rewrite <- gathered_scal. apply gathered_ext. intros q j Q J.
  assert (Vq : on_domain D (gupd A2 (gupd A1 g l) q)) by (apply on_gupd; auto). assert (RJ := reach_in A2 (gupd A1 g l) q j Vl Q J).
  assert (RI' : low ne (geo D (gupd A2 (gupd A1 g l) q)) A1 <= i <= high ne (geo D (gupd A2 (gupd A1 g l) q)) A1) by (destruct (low_gupd ne A2 A1 (gupd A1 g l) q ltac:(discriminate)) as [-> ->]; exact RI).
  assert (R3 : low no (geo D (gupd A2 (gupd A1 g l) q)) A3 <= co A3 c <= high no (geo D (gupd A2 (gupd A1 g l) q)) A3)
    by (destruct (low_gupd no A2 A3 (gupd A1 g l) q ltac:(discriminate)) as [-> ->]; destruct (low_gupd no A1 A3 g l ltac:(discriminate)) as [-> ->]; apply R).
  (* along x3 *)
  destruct (step A3 st st1 (swap A3) (gupd A2 (gupd A1 g l) q) H3 Vq) as [_ S3]. rewrite (S3 (upd A2 (upd A1 c i) j) v) with (m := m A3) (z := z A3).
  2: { apply OT; auto. intros b B. destruct b; [rewrite co_upd_other, co_upd by discriminate; exact RI'|rewrite co_upd; exact RJ|congruence]. }
  2: { rewrite !co_upd_other by discriminate. exact R3. }
  2: { intros F. apply (Z1 (gupd A2 (gupd A1 g l) q) A3); auto.
       - intros b B. destruct b; [rewrite co_upd_other, co_upd by discriminate; exact RI'|rewrite co_upd; exact RJ|congruence].
       - rewrite !co_upd_other by discriminate. exact R3. }
  2: { rewrite !co_upd_other, !gco_gupd_other by discriminate. apply P. }
  f_equal. apply gathered_ext. intros n k _ _. destruct g as [[n0 m0] l0], c as [[k0 j0] i0]. reflexivity.
Qed.
End All.
