(** * Every configured reconstruction uses the three cells on either side of the interface *)
From Coq Require Import Reals ZArith List Bool Lia.
From Verif Require Import GasModel FluxModel ReconModel EsysPrimModel IntegModel IntegSpec IntegFacts SchemeModel.
Open Scope R_scope.

Section Loc.
Variables (nw : nat) (W W' : slice) (es es' : Z -> esystem) (i i' a b : Z).
Hypothesis HW : forall d, (a <= d <= b)%Z -> W' (i' + d)%Z = W (i + d)%Z.
Hypothesis He : forall d, (a <= d <= b)%Z -> es' (i' + d)%Z = es (i + d)%Z.

Lemma loc_da : forall d, (a + 1 <= d <= b - 1)%Z -> chr_da nw W' es' (i' + d) = chr_da nw W es (i + d).
Proof. intros. unfold chr_da. offs. rewrite !HW, !He by lia. reflexivity. Qed.
Lemma loc_slope : forall d, (a + 1 <= d <= b - 1)%Z -> chr_slope nw W' es' (i' + d) = chr_slope nw W es (i + d).
Proof. intros. unfold chr_slope. rewrite loc_da, !He by lia. reflexivity. Qed.
Lemma loc_plm : forall d, (a + 1 <= d <= b - 1)%Z -> plm_ends nw W' es' (i' + d) = plm_ends nw W es (i + d).
Proof. intros. unfold plm_ends. rewrite loc_slope by lia. offs. rewrite !HW by lia. reflexivity. Qed.
Lemma loc_phalf : forall d, (a + 2 <= d <= b - 1)%Z -> ppm_half nw W' es' (i' + d) = ppm_half nw W es (i + d).
Proof. intros. unfold ppm_half. offs. rewrite !loc_slope by lia. rewrite !HW by lia. reflexivity. Qed.
Lemma loc_ppm : forall d, (a + 2 <= d <= b - 2)%Z -> ppm_ends nw W' es' (i' + d) = ppm_ends nw W es (i + d).
Proof. intros. unfold ppm_ends, clamped_ends. offs. rewrite !loc_phalf by lia. rewrite !HW by lia. reflexivity. Qed.
Lemma loc_prim2 : forall d, (a + 1 <= d <= b - 1)%Z -> prim2_ends W' (i' + d) = prim2_ends W (i + d).
Proof. intros. unfold prim2_ends, prim2_slope. offs. rewrite !HW by lia. reflexivity. Qed.
Lemma loc_half3 : forall d, (a + 2 <= d <= b - 1)%Z -> prim3_half W' (i' + d) = prim3_half W (i + d).
Proof. intros. unfold prim3_half. offs. rewrite !HW by lia. reflexivity. Qed.
Lemma loc_prim3 : forall d, (a + 2 <= d <= b - 2)%Z -> prim3_ends W' (i' + d) = prim3_ends W (i + d).
Proof.
  intros. unfold prim3_ends, clamped_ends, prim3_extremum. offs. rewrite !loc_half3 by lia. rewrite !HW by lia. reflexivity.
Qed.
Lemma loc_koren : forall d, (a + 1 <= d <= b - 1)%Z -> koren_ends W' (i' + d) = koren_ends W (i + d).
Proof. intros. unfold koren_ends. offs. rewrite !HW by lia. reflexivity. Qed.
Lemma loc_limo3 : forall dx d, (a + 1 <= d <= b - 1)%Z -> limo3_ends dx W' (i' + d) = limo3_ends dx W (i + d).
Proof. intros. unfold limo3_ends. offs. rewrite !HW by lia. reflexivity. Qed.

Variables (strict hll curved : bool) (src : nat -> nat) (k : R) (vx vx' : Z -> R) (E E' : edges).
Hypothesis Hv : forall d, (a <= d <= b)%Z -> vx' (i' + d)%Z = vx (i + d)%Z.
Lemma loc_ctu_l : forall d, (a <= d - 1 <= b)%Z -> E' (i' + (d - 1))%Z = E (i + (d - 1))%Z ->
  ctu_l nw strict hll curved src k W' vx' es' E' (i' + d) = ctu_l nw strict hll curved src k W vx es E (i + d).
Proof.
  intros d Hd HE. unfold ctu_l, base_l, waves_l, scalar_l, dW, W6, ev_max. cbv zeta. offs.
  rewrite !HE, !HW, !He, !Hv by lia. reflexivity.
Qed.
Lemma loc_ctu_r : forall d, (a <= d <= b)%Z -> E' (i' + d)%Z = E (i + d)%Z ->
  ctu_r nw strict hll curved src k W' vx' es' E' (i' + d) = ctu_r nw strict hll curved src k W vx es E (i + d).
Proof.
  intros d Hd HE. unfold ctu_r, base_r, waves_r, scalar_r, dW, W6, ev_min. cbv zeta.
  rewrite !HE, !HW, !He, !Hv by lia. reflexivity.
Qed.
End Loc.

Theorem lr_states_nearby : forall c k o f, nearby (lr_states c k o f).
Proof.
  intros c k o f dt dx A A' i i' H.
  assert (H0 : A' i' = A i) by (specialize (H 0%Z ltac:(lia)); rewrite !Z.add_0_r in H; exact H).
  rewrite <- (Z.add_0_r i'), <- (Z.add_0_r i). unfold lr_states.
  set (W := fun j => vec c (fst (A j))). set (W' := fun j => vec c (fst (A' j))).
  set (es := fun j => esys_cell c (fst (A j)) (snd (A j))). set (es' := fun j => esys_cell c (fst (A' j)) (snd (A' j))).
  set (vx := fun j => wvx (fst (A j))). set (vx' := fun j => wvx (fst (A' j))).
  assert (HW : forall d, (-3 <= d <= 2)%Z -> W' (i' + d)%Z = W (i + d)%Z) by (intros; unfold W, W'; rewrite H by lia; reflexivity).
  assert (He : forall d, (-3 <= d <= 2)%Z -> es' (i' + d)%Z = es (i + d)%Z) by (intros; unfold es, es'; rewrite H by lia; reflexivity).
  assert (Hv : forall d, (-3 <= d <= 2)%Z -> vx' (i' + d)%Z = vx (i + d)%Z) by (intros; unfold vx, vx'; rewrite H by lia; reflexivity).
  rewrite (H 0%Z) by lia. clearbody W W' es es' vx vx'. clear H H0 A'.
  assert (T : forall strict curved src E E', E' (i' + -1)%Z = E (i + -1)%Z -> E' (i' + 0)%Z = E (i + 0)%Z ->
    ctu_l (nwave c) strict (hll_flux f) curved src (dt / dx) W' vx' es' E' (i' + 0) = ctu_l (nwave c) strict (hll_flux f) curved src (dt / dx) W vx es E (i + 0) /\
    ctu_r (nwave c) strict (hll_flux f) curved src (dt / dx) W' vx' es' E' (i' + 0) = ctu_r (nwave c) strict (hll_flux f) curved src (dt / dx) W vx es E (i + 0)).
  { intros. split; [eapply loc_ctu_l with (a := (-3)%Z) (b := 2%Z)|eapply loc_ctu_r with (a := (-3)%Z) (b := 2%Z)]; eauto; lia. }
  assert (P : forall E E', E' (i' + -1)%Z = E (i + -1)%Z -> E' (i' + 0)%Z = E (i + 0)%Z ->
    vl_l E' (i' + 0) = vl_l E (i + 0) /\ vl_r E' (i' + 0) = vl_r E (i + 0)).
  { intros E E' H1 H2. unfold vl_l, vl_r. offs. change (0 - 1)%Z with (-1)%Z. rewrite H1, H2. auto. }
  Ltac fin HW He := first [eapply loc_plm with (a := (-3)%Z) (b := 2%Z) | eapply loc_ppm with (a := (-3)%Z) (b := 2%Z)
    | eapply loc_prim2 with (a := (-3)%Z) (b := 2%Z) | eapply loc_prim3 with (a := (-3)%Z) (b := 2%Z)
    | eapply loc_koren with (a := (-3)%Z) (b := 2%Z) | eapply loc_limo3 with (a := (-3)%Z) (b := 2%Z)]; try exact HW; try exact He; lia.
  destruct o, k; cbv zeta.
  1,2: unfold dc_l, dc_r; offs; change (0 - 1)%Z with (-1)%Z; rewrite !HW by lia; reflexivity.
  all: match goal with
    | |- (unvec _ _ (ctu_l _ ?st _ ?cu ?sr _ _ _ _ ?E' _), _) = (unvec _ _ (ctu_l _ _ _ _ _ _ _ _ _ ?E _), _) =>
        destruct (T st cu sr E E') as [-> ->]; [fin HW He|fin HW He|reflexivity]
    | |- (unvec _ _ (vl_l ?E' _), _) = (unvec _ _ (vl_l ?E _), _) =>
        destruct (P E E') as [-> ->]; [fin HW He|fin HW He|reflexivity]
    end.
Qed.
Print Assumptions lr_states_nearby.
