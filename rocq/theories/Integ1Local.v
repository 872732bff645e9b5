(** * 1D integrators: the new value of a cell depends on the cells within [nghost] of it *)
From Coq Require Import Reals ZArith List Bool Lia Lra.
From Verif Require Import GasModel IntegModel IntegSpec IntegFacts SchemeModel Integ1Spec.
From Verif Require Ctu1Model Vl1Model.
Import Ctu1Model (grid1, scratch1, is, ie, dt, dx1, X2, X3, U, B1i, B2i, B3i, Phi, x1Mass, x1c).
Open Scope R_scope.

Lemma x1c_off : forall g i d, x1c g (i + d) = x1c g i + IZR d * dx1 g.
Proof. intros. unfold x1c. replace (i + d - is g)%Z with ((i - is g) + d)%Z by lia. rewrite plus_IZR. ring. Qed.

Section Ctu.
Import Ctu1Model.
Variables (sc : scheme) (z z' : scratch1) (g g' : grid1) (i i' a b : Z).
Hypothesis Hlr : nearby (s_lr sc).
Hypothesis N : near1 sc g g' i i' a b.

Lemma ctu_pp : forall phi, s_grav sc = Some phi -> forall d y,
  phi (x1c g' (i' + d) + y) (X2 g') (X3 g') = phi (x1c g (i + d) + y) (X2 g) (X3 g).
Proof. intros. rewrite !x1c_off, !Rplus_assoc, (n_dx _ _ _ _ _ _ _ N). now apply (n_pot _ _ _ _ _ _ _ N). Qed.
Lemma ctu_pm : forall phi, s_grav sc = Some phi -> forall d y,
  phi (x1c g' (i' + d) - y) (X2 g') (X3 g') = phi (x1c g (i + d) - y) (X2 g) (X3 g).
Proof. intros. unfold Rminus. now apply ctu_pp. Qed.
Lemma ctu_pc : forall phi, s_grav sc = Some phi -> forall d,
  phi (x1c g' (i' + d)) (X2 g') (X3 g') = phi (x1c g (i + d)) (X2 g) (X3 g).
Proof. intros. rewrite <- (Rplus_0_r (x1c g' _)), <- (Rplus_0_r (x1c g _)). now apply ctu_pp. Qed.
Lemma ctu_q : q g' = q g. Proof. unfold q. now rewrite (n_dt _ _ _ _ _ _ _ N), (n_dx _ _ _ _ _ _ _ N). Qed.
Lemma ctu_hq : hq g' = hq g. Proof. unfold hq. now rewrite (n_dt _ _ _ _ _ _ _ N), (n_dx _ _ _ _ _ _ _ N). Qed.

Ltac pot Hg := rewrite ?(ctu_pp _ Hg), ?(ctu_pm _ Hg), ?(ctu_pc _ Hg).
Ltac base := rewrite ?ctu_q, ?ctu_hq, ?(n_dt _ _ _ _ _ _ _ N), ?(n_dx _ _ _ _ _ _ _ N).

Lemma ctu_W : forall d, (a <= d <= b)%Z ->
  (is g - nghost <= i + d <= ie g + nghost)%Z -> (is g' - nghost <= i' + d <= ie g' + nghost)%Z ->
  W sc z' g' (i' + d) = W sc z g (i + d).
Proof. intros. unfold W. rewrite !loop1_in by lia. now rewrite (n_U _ _ _ _ _ _ _ N) by lia. Qed.

Lemma ctu_Wlr : forall d, (a + 3 <= d <= b - 2)%Z ->
  (is g <= i + d <= ie g + 1)%Z -> (is g' <= i' + d <= ie g' + 1)%Z ->
  Wlr sc z' g' (i' + d) = Wlr sc z g (i + d).
Proof.
  intros d Hd H H'. unfold nghost in *.
  assert (E0 : Wlr0 sc z' g' (i' + d) = Wlr0 sc z g (i + d)).
  { unfold Wlr0, il, iu. rewrite !loop1_in by lia. base. apply Hlr. intros e He. offs.
    apply ctu_W; unfold nghost; lia. }
  assert (E1 : Wlr1 sc z' g' (i' + d) = Wlr1 sc z g (i + d)).
  { unfold Wlr1, il, iu. rewrite !loop1_in by lia. now rewrite E0. }
  assert (E2 : Wlr2 sc z' g' (i' + d) = Wlr2 sc z g (i + d)).
  { unfold Wlr2. destruct (s_grav sc) eqn:Hg; [|exact E1]. unfold il, iu. rewrite !loop1_in by lia. cbv zeta. base. pot Hg. now rewrite E1. }
  assert (E3 : Wlr3 sc z' g' (i' + d) = Wlr3 sc z g (i + d)).
  { unfold Wlr3. destruct (s_selfg sc) eqn:Hsg; [|exact E2]. unfold il, iu. rewrite !loop1_in by lia. base. offs.
    rewrite !(n_Phi _ _ _ _ _ _ _ N ltac:(congruence)) by lia. now rewrite E2. }
  unfold Wlr, il, iu. rewrite !loop1_in by lia. base. now rewrite E3.
Qed.

Lemma ctu_F : forall d, (a + 3 <= d <= b - 2)%Z ->
  (is g <= i + d <= ie g + 1)%Z -> (is g' <= i' + d <= ie g' + 1)%Z ->
  F sc z' g' (i' + d) = F sc z g (i + d).
Proof.
  intros d Hd H H'. unfold F, il, iu. rewrite !loop1_in by lia.
  rewrite ctu_Wlr by lia. now rewrite (n_B _ _ _ _ _ _ _ N) by lia.
Qed.

Lemma ctu_dhalf : forall d, (a + 3 <= d <= b - 3)%Z -> (s_grav sc <> None \/ s_cool sc <> None) ->
  (is g <= i + d <= ie g)%Z -> (is g' <= i' + d <= ie g')%Z ->
  dhalf sc z' g' (i' + d) = dhalf sc z g (i + d).
Proof.
  intros d Hd Hs H H'.
  assert (E : loop1 (il g' + 1) (iu g' - 1) (fun i => floor_x (s_dmin sc) (cd (U g' i) - hq g' * (ud (F sc z' g' (i + 1)%Z) - ud (F sc z' g' i)))) (z_dh z') (i' + d)%Z
    = loop1 (il g + 1) (iu g - 1) (fun i => floor_x (s_dmin sc) (cd (U g i) - hq g * (ud (F sc z g (i + 1)%Z) - ud (F sc z g i)))) (z_dh z) (i + d)%Z).
  { unfold il, iu. rewrite !loop1_in by lia. base. offs. rewrite !ctu_F by lia. now rewrite (n_U _ _ _ _ _ _ _ N) by lia. }
  unfold dhalf. destruct (s_grav sc), (s_cool sc); try exact E. destruct Hs as [Hs|Hs]; now elim Hs.
Qed.

Lemma ctu_phalf : forall d, (a + 3 <= d <= b - 3)%Z -> s_cool sc <> None ->
  (is g <= i + d <= ie g)%Z -> (is g' <= i' + d <= ie g')%Z ->
  phalf sc z' g' (i' + d) = phalf sc z g (i + d).
Proof.
  intros d Hd Hs H H'. unfold phalf. destruct (s_cool sc) eqn:Hc; [|now elim Hs].
  unfold il, iu. rewrite !loop1_in by lia. cbv zeta. base. destruct (s_selfg sc) eqn:Hsg; (destruct (s_grav sc) eqn:Hg; [pot Hg|]); offs;
  (rewrite !ctu_F by lia; rewrite !(n_U _ _ _ _ _ _ _ N) by lia; try rewrite !(n_Phi _ _ _ _ _ _ _ N ltac:(congruence)) by lia;
   rewrite ctu_dhalf by (try lia; right; congruence); reflexivity).
Qed.

Lemma ctu_U12 : forall d, (a + 3 <= d <= b - 3)%Z ->
  (is g <= i + d <= ie g)%Z -> (is g' <= i' + d <= ie g')%Z ->
  U12 sc z' g' (i' + d) = U12 sc z g (i + d).
Proof.
  intros d Hd H H'.
  assert (Ea : U11a sc z' g' (i' + d) = U11a sc z g (i + d)).
  { unfold U11a. destruct (s_grav sc) eqn:Hg; [|apply (n_U _ _ _ _ _ _ _ N); lia].
    rewrite !loop1_in by lia. cbv zeta. base. pot Hg. offs. rewrite !ctu_F by lia.
    rewrite ctu_dhalf by (try lia; left; congruence). now rewrite (n_U _ _ _ _ _ _ _ N) by lia. }
  assert (Eb : U11b sc z' g' (i' + d) = U11b sc z g (i + d)).
  { unfold U11b. destruct (s_selfg sc) as [[? ?]|] eqn:Hsg; [|exact Ea].
    rewrite !loop1_in by lia. cbv zeta. base. offs. rewrite !ctu_F by lia.
    rewrite !(n_Phi _ _ _ _ _ _ _ N ltac:(congruence)) by lia. now rewrite Ea. }
  assert (Ec : U11c sc z' g' (i' + d) = U11c sc z g (i + d)).
  { unfold U11c. destruct (s_cool sc) eqn:Hc; [|exact Eb].
    rewrite !loop1_in by lia. base.
    rewrite ctu_dhalf by (try lia; right; congruence). rewrite ctu_phalf by (try lia; congruence). now rewrite Eb. }
  unfold U12. rewrite !loop1_in by lia. base. offs. rewrite !ctu_F by lia. now rewrite Ec.
Qed.
End Ctu.

Section Vl.
Import Ctu1Model Vl1Model.
Variables (sc : scheme) (z z' : scratch1) (g g' : grid1) (i i' a b : Z).
Hypothesis Hlr : nearby (s_lr sc).
Hypothesis N : near1 sc g g' i i' a b.

Lemma vl_pp : forall phi, s_grav sc = Some phi -> forall d y,
  phi (x1c g' (i' + d) + y) (X2 g') (X3 g') = phi (x1c g (i + d) + y) (X2 g) (X3 g).
Proof. intros. rewrite !x1c_off, !Rplus_assoc, (n_dx _ _ _ _ _ _ _ N). now apply (n_pot _ _ _ _ _ _ _ N). Qed.
Lemma vl_pm : forall phi, s_grav sc = Some phi -> forall d y,
  phi (x1c g' (i' + d) - y) (X2 g') (X3 g') = phi (x1c g (i + d) - y) (X2 g) (X3 g).
Proof. intros. unfold Rminus. now apply vl_pp. Qed.
Lemma vl_pc : forall phi, s_grav sc = Some phi -> forall d,
  phi (x1c g' (i' + d)) (X2 g') (X3 g') = phi (x1c g (i + d)) (X2 g) (X3 g).
Proof. intros. rewrite <- (Rplus_0_r (x1c g' _)), <- (Rplus_0_r (x1c g _)). now apply vl_pp. Qed.
Lemma vl_q : Vl1Model.q g' = Vl1Model.q g. Proof. unfold Vl1Model.q. now rewrite (n_dt _ _ _ _ _ _ _ N), (n_dx _ _ _ _ _ _ _ N). Qed.
Lemma vl_hq : Vl1Model.hq g' = Vl1Model.hq g. Proof. unfold Vl1Model.hq. now rewrite (n_dt _ _ _ _ _ _ _ N), (n_dx _ _ _ _ _ _ _ N). Qed.
Ltac pot Hg := rewrite ?(vl_pp _ Hg), ?(vl_pm _ Hg), ?(vl_pc _ Hg).
Ltac base := rewrite ?vl_q, ?vl_hq, ?(n_dt _ _ _ _ _ _ _ N), ?(n_dx _ _ _ _ _ _ _ N).

Lemma vl_W : forall d, (a <= d <= b)%Z ->
  (is g - nghost <= i + d <= ie g + nghost)%Z -> (is g' - nghost <= i' + d <= ie g' + nghost)%Z ->
  Vl1Model.W sc z' g' (i' + d) = Vl1Model.W sc z g (i + d).
Proof. intros. unfold Vl1Model.W. rewrite !loop1_in by lia. now rewrite (n_U _ _ _ _ _ _ _ N) by lia. Qed.
Lemma vl_F0 : forall d, (a + 1 <= d <= b)%Z ->
  (is g - 3 <= i + d <= ie g + 4)%Z -> (is g' - 3 <= i' + d <= ie g' + 4)%Z ->
  F0 sc z' g' (i' + d) = F0 sc z g (i + d).
Proof.
  intros. unfold F0, Vl1Model.il, nghost, Bxi. rewrite !loop1_in by lia. offs.
  rewrite !vl_W by (unfold nghost; lia). rewrite !(n_U _ _ _ _ _ _ _ N), (n_B _ _ _ _ _ _ _ N) by lia. reflexivity.
Qed.
Lemma vl_Uh : forall d, (a + 1 <= d <= b - 1)%Z ->
  (is g - 3 <= i + d <= ie g + 3)%Z -> (is g' - 3 <= i' + d <= ie g' + 3)%Z ->
  Uh sc z' g' (i' + d) = Uh sc z g (i + d).
Proof.
  intros d Hd H H'.
  assert (E0 : Uh0 z' g' (i' + d) = Uh0 z g (i + d)).
  { unfold Uh0, nghost. rewrite !loop1_in by lia. apply (n_U _ _ _ _ _ _ _ N); lia. }
  assert (E1 : Uh1 sc z' g' (i' + d) = Uh1 sc z g (i + d)).
  { unfold Uh1, Vl1Model.il, Vl1Model.iu, nghost. rewrite !loop1_in by lia. base. offs. rewrite !vl_F0 by lia. now rewrite E0. }
  assert (E2 : Uh2 sc z' g' (i' + d) = Uh2 sc z g (i + d)).
  { unfold Uh2. destruct (s_grav sc) eqn:Hg; [|exact E1]. unfold Vl1Model.il, Vl1Model.iu, nghost. rewrite !loop1_in by lia.
    cbv zeta. base. pot Hg. offs. rewrite !vl_F0 by lia. rewrite (n_U _ _ _ _ _ _ _ N) by lia. now rewrite E1. }
  unfold Uh. destruct (s_selfg sc) eqn:Hsg; [|exact E2]. unfold Vl1Model.il, Vl1Model.iu, nghost. rewrite !loop1_in by lia.
  cbv zeta. base. offs. rewrite !vl_F0 by lia. rewrite (n_U _ _ _ _ _ _ _ N) by lia. rewrite !(n_Phi _ _ _ _ _ _ _ N ltac:(congruence)) by lia. now rewrite E2.
Qed.
Lemma vl_F : forall d, (a + 4 <= d <= b - 3)%Z ->
  (is g <= i + d <= ie g + 1)%Z -> (is g' <= i' + d <= ie g' + 1)%Z ->
  Vl1Model.F sc z' g' (i' + d) = Vl1Model.F sc z g (i + d).
Proof.
  intros d Hd H H'.
  assert (E : Vl1Model.Wlr sc z' g' (i' + d) = Vl1Model.Wlr sc z g (i + d)).
  { unfold Vl1Model.Wlr. rewrite !loop1_in by lia. base. apply Hlr. intros e He. offs.
    unfold Wh, Vl1Model.il, Vl1Model.iu, nghost. rewrite !loop1_in by lia. now rewrite vl_Uh by lia. }
  unfold Vl1Model.F, Bxi. rewrite !loop1_in by lia. rewrite E. now rewrite (n_B _ _ _ _ _ _ _ N) by lia.
Qed.
Lemma vl_U13 : forall d, (a + 4 <= d <= b - 4)%Z ->
  (is g <= i + d <= ie g)%Z -> (is g' <= i' + d <= ie g')%Z ->
  U13 sc z' g' (i' + d) = U13 sc z g (i + d).
Proof.
  intros d Hd H H'.
  assert (Ea : U12a sc z' g' (i' + d) = U12a sc z g (i + d)).
  { unfold U12a. destruct (s_grav sc) eqn:Hg; [|apply (n_U _ _ _ _ _ _ _ N); lia].
    rewrite !loop1_in by lia. cbv zeta. base. pot Hg. offs. rewrite !vl_F by lia. rewrite vl_Uh by lia.
    now rewrite (n_U _ _ _ _ _ _ _ N) by lia. }
  assert (Eb : U12b sc z' g' (i' + d) = U12b sc z g (i + d)).
  { unfold U12b. destruct (s_selfg sc) as [[? ?]|] eqn:Hsg; [|exact Ea].
    rewrite !loop1_in by lia. cbv zeta. base. offs. rewrite !vl_F by lia.
    rewrite !(n_Phi _ _ _ _ _ _ _ N ltac:(congruence)) by lia. now rewrite Ea. }
  unfold U13. rewrite !loop1_in by lia. base. offs. rewrite !vl_F by lia. now rewrite Eb.
Qed.
End Vl.
