(** * Thermal conduction: with the code's own timestep, no new maxima or minima of the
      temperature - unless the density varies too much between neighbours *)
From Coq Require Import Reals ZArith List Bool Lia Lra Psatz.
From Verif Require Import GasModel ConvProps IntegModel IntegSpec IntegFacts Ctu3Model Integ3Spec Integ3Props CondModel DiffSpec CondProps CondHeat.
Import ListNotations.
Open Scope R_scope.

Lemma MAX_ge : forall a b, a <= MAX a b /\ b <= MAX a b.
Proof. intros. unfold MAX. destruct (Rlt_dec b a); lra. Qed.
Lemma MIN_le : forall a b, MIN a b <= a /\ MIN a b <= b.
Proof. intros. unfold MIN. destruct (Rlt_dec a b); lra. Qed.
Lemma MIN_pos : forall a b, 0 < a -> 0 < b -> 0 < MIN a b.
Proof. intros. unfold MIN. destruct (Rlt_dec a b); lra. Qed.
Lemma dxmin_le : forall c a b d, dxmin c a b d <= a /\ (two c = true -> dxmin c a b d <= b) /\ (three c = true -> dxmin c a b d <= d).
Proof.
  intros c a b d. unfold dxmin. destruct (MIN_le a b), (MIN_le (MIN a b) d), (MIN_le a d).
  destruct (two c), (three c); repeat split; intros; try discriminate; lra.
Qed.
Lemma dxmin_pos : forall c a b d, 0 < a -> 0 < b -> 0 < d -> 0 < dxmin c a b d.
Proof. intros c a b d A B D. unfold dxmin. destruct (two c), (three c); auto using MIN_pos. Qed.
Lemma qa_pos : forall c x, 0 < x -> 0 < dt_qa c x.
Proof. intros c x H. assert (0 < x * x) by (apply Rmult_lt_0_compat; auto). unfold dt_qa. destruct (two c), (three c); lra. Qed.
Lemma fold_max : forall c etas q m, m <= fold_left (fun m e => let '(o, h, a) := e in
        let m := MAX m ((o + a) / q) in if Rlt_dec 0 (Q_Hall c) then MAX m (Rabs h / q) else m) etas m.
Proof.
  intros c etas q. induction etas as [|((o, h), a) l IH]; intros m; [cbn; lra|]. cbn [fold_left].
  eapply Rle_trans; [|apply IH]. cbv zeta. destruct (MAX_ge m ((o + a) / q)). destruct (Rlt_dec 0 (Q_Hall c)); [|assumption].
  destruct (MAX_ge (MAX m ((o + a) / q)) (Rabs h / q)). lra.
Qed.
Lemma fold_max2 : forall c grids m, m <= fold_left (fun m (gr : (R * R * R) * list (R * R * R)) => let '((e1, e2, e3), etas) := gr in
      let qa := dt_qa c (dxmin c e1 e2 e3) in
      fold_left (fun m e => let '(o, h, a) := e in
        let m := MAX m ((o + a) / qa) in
        if Rlt_dec 0 (Q_Hall c) then MAX m (Rabs h / qa) else m) etas m) grids m.
Proof.
  intros c grids. induction grids as [|(((e1, e2), e3), etas) l IH]; intros m; [cbn; lra|]. cbn [fold_left].
  eapply Rle_trans; [|apply IH]. cbv zeta. apply fold_max.
Qed.
(** The rate the code uses is at least that of the heat conduction. *)
Lemma dti_conduct : forall c v r n d1 d2 d3 grids,
  (kappa_iso c + kappa_aniso c) / dt_qa c (dxmin c (d1 / 2 ^ n) (d2 / 2 ^ n) (d3 / 2 ^ n)) <= new_dt_diff c true v r n d1 d2 d3 grids.
Proof.
  intros c v r n d1 d2 d3 grids. unfold new_dt_diff. cbv zeta.
  set (q := dt_qa c (dxmin c (d1 / 2 ^ n) (d2 / 2 ^ n) (d3 / 2 ^ n))). destruct (MAX_ge TINY_NUMBER ((kappa_iso c + kappa_aniso c) / q)) as (_ & A).
  set (m := MAX TINY_NUMBER ((kappa_iso c + kappa_aniso c) / q)) in *. destruct (MAX_ge m ((nu_iso c + nu_aniso c) / q)) as (B & _).
  destruct r; [eapply Rle_trans; [|apply fold_max2]|]; destruct v; lra.
Qed.

(** The conduction timestep limit in terms of the finest cells. *)
Lemma dt_small : forall c v r n d1 d2 d3 grids CourNo h, 0 <= CourNo -> 0 < d1 -> 0 < d2 -> 0 < d3 -> 0 < kappa_iso c -> kappa_aniso c = 0 ->
  h <= diff_dt CourNo (new_dt_diff c true v r n d1 d2 d3 grids) ->
  h * kappa_iso c <= CourNo * dt_qa c (dxmin c (d1 / 2 ^ n) (d2 / 2 ^ n) (d3 / 2 ^ n)).
Proof.
  intros c v r n d1 d2 d3 grids CourNo h HC H1 H2 H3 Hk Ha Hh.
  pose proof (dti_conduct c v r n d1 d2 d3 grids) as L. rewrite Ha, Rplus_0_r in L.
  assert (P2 : 0 < / 2 ^ n) by (apply Rinv_0_lt_compat, pow_lt; lra).
  assert (Q : 0 < dt_qa c (dxmin c (d1 / 2 ^ n) (d2 / 2 ^ n) (d3 / 2 ^ n))) by (apply qa_pos, dxmin_pos; unfold Rdiv; now apply Rmult_lt_0_compat).
  set (q := dt_qa c _) in *. set (t := new_dt_diff c true v r n d1 d2 d3 grids) in *. unfold diff_dt in Hh.
  assert (T : 0 < kappa_iso c / q) by (unfold Rdiv; apply Rmult_lt_0_compat; [exact Hk|now apply Rinv_0_lt_compat]).
  assert (Ht : 0 < t) by lra.
  assert (E : h * t <= CourNo).
  { replace CourNo with (CourNo / t * t) by (field; lra). apply Rmult_le_compat_r; lra. }
  destruct (Rle_dec 0 h) as [H0|H0].
  - assert (h * (kappa_iso c / q) <= CourNo) by (eapply Rle_trans; [|exact E]; apply Rmult_le_compat_l; auto).
    replace (h * kappa_iso c) with (h * (kappa_iso c / q) * q) by (field; lra). apply Rmult_le_compat_r; lra.
  - assert (0 <= CourNo * q) by (apply Rmult_le_pos; lra). nra.
Qed.

(** Heat exchanged through the faces, as weights on the temperature differences. *)
Definition weight (c : dcfg) (h dx : R) (u v : cons) : R := Gamma_1 c * (h * kappa_iso c) * (1 + cd v / cd u) / (2 * (dx * dx)).
Lemma iso_temp : forall c h z g k j i, shaped c g -> active3 g k j i -> positive_sizes g -> 0 < kappa_iso c -> kappa_aniso c = 0 -> 0 < cd (U g k j i) ->
  (forall k' j' i', beside c k j i k' j' i' -> 0 < cd (U g k' j' i')) ->
  let T k j i := temperature c (U g k j i) in
  T k j i + (let w := weight c h (dx1 g) (U g k j i) in w (U g k j (i + 1)%Z) * (T k j (i + 1)%Z - T k j i) + w (U g k j (i - 1)%Z) * (T k j (i - 1)%Z - T k j i))
    + (if two c then let w := weight c h (dx2 g) (U g k j i) in w (U g k (j + 1)%Z i) * (T k (j + 1)%Z i - T k j i) + w (U g k (j - 1)%Z i) * (T k (j - 1)%Z i - T k j i) else 0)
    + (if three c then let w := weight c h (dx3 g) (U g k j i) in w (U g (k + 1)%Z j i) * (T (k + 1)%Z j i - T k j i) + w (U g (k - 1)%Z j i) * (T (k - 1)%Z j i - T k j i) else 0)
  = temperature c (U (conduction c h z g) k j i).
Proof.
  intros c h z g k j i S A (P1 & P2 & P3) Hk Ha Hd Hb T. rewrite (cond_set_E c h z g k j i S), temp_changed by exact Hd.
  rewrite (cond_cell c z g S h k j i A). unfold set_E at 1. cbn [cE]. cbv zeta. fold (T k j i).
  assert (An : aniso_on c = false). { unfold aniso_on. rewrite Ha. destruct (Rlt_dec 0 0); [lra|reflexivity]. }
  assert (Is : iso_on c = true). { unfold iso_on. destruct (Rlt_dec 0 (kappa_iso c)); [reflexivity|contradiction]. }
  assert (Z1 : (i + 1 - 1 = i)%Z) by lia. assert (Z2 : (j + 1 - 1 = j)%Z) by lia. assert (Z3 : (k + 1 - 1 = k)%Z) by lia.
  unfold fq1, fq2, fq3. rewrite An, Is, Z1, Z2, Z3. cbn [andb].
  assert (T0 : Tm c g k j i = T k j i) by (unfold Tm, T; apply temp_eq; lra).
  assert (T1 : Tm c g k j (i + 1) = T k j (i + 1)%Z) by (unfold Tm, T; apply temp_eq, Rgt_not_eq, Hb; left; auto).
  assert (T2 : Tm c g k j (i - 1) = T k j (i - 1)%Z) by (unfold Tm, T; apply temp_eq, Rgt_not_eq, Hb; left; auto).
  rewrite T0, T1, T2. destruct S as (_ & _ & _ & D32).
  unfold weight, kd, half.
  destruct (two c) eqn:Tw.
  - assert (T3 : Tm c g k (j + 1) i = T k (j + 1)%Z i) by (unfold Tm, T; apply temp_eq, Rgt_not_eq, Hb; right; left; auto).
    assert (T4 : Tm c g k (j - 1) i = T k (j - 1)%Z i) by (unfold Tm, T; apply temp_eq, Rgt_not_eq, Hb; right; left; auto).
    rewrite T3, T4. destruct (three c) eqn:Th.
    + assert (T5 : Tm c g (k + 1) j i = T (k + 1)%Z j i) by (unfold Tm, T; apply temp_eq, Rgt_not_eq, Hb; right; right; auto).
      assert (T6 : Tm c g (k - 1) j i = T (k - 1)%Z j i) by (unfold Tm, T; apply temp_eq, Rgt_not_eq, Hb; right; right; auto).
      rewrite T5, T6. field. repeat split; lra.
    + field. repeat split; lra.
  - destruct (three c); [specialize (D32 eq_refl); discriminate|]. field. repeat split; lra.
Qed.

Lemma convex6 : forall t m M w1 w2 w3 w4 w5 w6 x1 x2 x3 x4 x5 x6,
  0 <= w1 -> 0 <= w2 -> 0 <= w3 -> 0 <= w4 -> 0 <= w5 -> 0 <= w6 -> w1 + w2 + w3 + w4 + w5 + w6 <= 1 ->
  m <= t <= M -> m <= x1 <= M -> m <= x2 <= M -> m <= x3 <= M -> m <= x4 <= M -> m <= x5 <= M -> m <= x6 <= M ->
  m <= t + (w1 * (x1 - t) + w2 * (x2 - t)) + (w3 * (x3 - t) + w4 * (x4 - t)) + (w5 * (x5 - t) + w6 * (x6 - t)) <= M.
Proof.
  intros t m M w1 w2 w3 w4 w5 w6 x1 x2 x3 x4 x5 x6 W1 W2 W3 W4 W5 W6 W T X1 X2 X3 X4 X5 X6.
  assert (K : forall w x, 0 <= w -> m <= x <= M -> w * (m - t) <= w * (x - t) <= w * (M - t)) by (intros w x Hw Hx; split; apply Rmult_le_compat_l; lra).
  pose proof (K _ _ W1 X1). pose proof (K _ _ W2 X2). pose proof (K _ _ W3 X3). pose proof (K _ _ W4 X4). pose proof (K _ _ W5 X5). pose proof (K _ _ W6 X6).
  assert (0 <= (1 - (w1 + w2 + w3 + w4 + w5 + w6)) * (M - t)) by (apply Rmult_le_pos; lra).
  assert (0 <= (1 - (w1 + w2 + w3 + w4 + w5 + w6)) * (t - m)) by (apply Rmult_le_pos; lra).
  split; lra.
Qed.

(** If each neighbour's density is at most rho times the cell's, the timestep is the one the
    code computes (or less) and (Gamma-1) * CourNo * (1 + rho) is at most 4 (in 3D: 2), the new
    temperature lies between the old ones of the cell and its neighbours. *)
Theorem C76_no_overshoot : forall c v r n d1 d2 d3 grids CourNo h z g k j i rho m M,
  shaped c g -> active3 g k j i -> positive_sizes g -> 0 < d1 -> 0 < d2 -> 0 < d3 ->
  d1 / 2 ^ n <= dx1 g -> (two c = true -> d2 / 2 ^ n <= dx2 g) -> (three c = true -> d3 / 2 ^ n <= dx3 g) ->
  0 <= CourNo -> 0 <= Gamma_1 c -> 0 < kappa_iso c -> kappa_aniso c = 0 ->
  0 <= h <= diff_dt CourNo (new_dt_diff c true v r n d1 d2 d3 grids) ->
  Gamma_1 c * CourNo * (1 + rho) <= (if three c then 2 else 4) ->
  0 < cd (U g k j i) -> m <= temperature c (U g k j i) <= M ->
  (forall k' j' i', beside c k j i k' j' i' -> 0 < cd (U g k' j' i') <= rho * cd (U g k j i) /\ m <= temperature c (U g k' j' i') <= M) ->
  m <= temperature c (U (conduction c h z g) k j i) <= M.
Proof.
  intros c v r n d1 d2 d3 grids CourNo h z g k j i rho m M S A Hsz H1 H2 H3 G1 G2 G3 HC HG Hk Ha (Hh0 & Hh) HR Hd HT Hb.
  pose proof (dt_small c v r n d1 d2 d3 grids CourNo h HC H1 H2 H3 Hk Ha Hh) as L.
  rewrite <- (iso_temp c h z g k j i S A Hsz Hk Ha Hd) by (intros k' j' i' B; apply Hb, B). cbv zeta.
  destruct (dxmin_le c (d1 / 2 ^ n) (d2 / 2 ^ n) (d3 / 2 ^ n)) as (M1 & M2 & M3).
  assert (P2 : 0 < / 2 ^ n) by (apply Rinv_0_lt_compat, pow_lt; lra).
  assert (Px : 0 < dxmin c (d1 / 2 ^ n) (d2 / 2 ^ n) (d3 / 2 ^ n)) by (apply dxmin_pos; unfold Rdiv; now apply Rmult_lt_0_compat).
  set (x := dxmin c (d1 / 2 ^ n) (d2 / 2 ^ n) (d3 / 2 ^ n)) in *. destruct Hsz as (P1 & P3 & P4).
  assert (hk : 0 <= h * kappa_iso c) by (apply Rmult_le_pos; lra).
  assert (W0 : forall dx k' j' i', 0 < dx -> beside c k j i k' j' i' -> 0 <= weight c h dx (U g k j i) (U g k' j' i')).
  { intros dx k' j' i' Hx B. destruct (Hb _ _ _ B) as ((B1 & B2) & B3). unfold weight.
    assert (0 < dx * dx) by now apply Rmult_lt_0_compat. assert (0 < / (2 * (dx * dx))) by (apply Rinv_0_lt_compat; lra).
    assert (0 < cd (U g k' j' i') / cd (U g k j i)) by (unfold Rdiv; apply Rmult_lt_0_compat; [lra|now apply Rinv_0_lt_compat]).
    unfold Rdiv at 1. repeat apply Rmult_le_pos; lra. }
  assert (W1 : forall dx k' j' i', x <= dx -> beside c k j i k' j' i' -> weight c h dx (U g k j i) (U g k' j' i') <= Gamma_1 c * (h * kappa_iso c) * (1 + rho) / (2 * (x * x))).
  { intros dx k' j' i' Hx B. destruct (Hb _ _ _ B) as ((B1 & B2) & B3). unfold weight.
    assert (Q : cd (U g k' j' i') / cd (U g k j i) <= rho).
    { replace rho with (rho * cd (U g k j i) / cd (U g k j i)) by (field; lra). unfold Rdiv. apply Rmult_le_compat_r; [left; now apply Rinv_0_lt_compat|lra]. }
    assert (0 < cd (U g k' j' i') / cd (U g k j i)) by (unfold Rdiv; apply Rmult_lt_0_compat; [lra|now apply Rinv_0_lt_compat]).
    assert (X : x * x <= dx * dx) by (apply Rmult_le_compat; lra). assert (0 < x * x) by now apply Rmult_lt_0_compat.
    assert (GH : 0 <= Gamma_1 c * (h * kappa_iso c)) by now apply Rmult_le_pos.
    unfold Rdiv at 1 3. apply Rmult_le_compat.
    - apply Rmult_le_pos; lra.
    - left. apply Rinv_0_lt_compat. lra.
    - apply Rmult_le_compat_l; lra.
    - apply Rinv_le_contravar; lra. }
  set (w := Gamma_1 c * (h * kappa_iso c) * (1 + rho) / (2 * (x * x))) in *.
  assert (X2 : 0 < x * x) by now apply Rmult_lt_0_compat.
  assert (R0 : 0 <= 1 + rho).
  { destruct (Hb k j (i + 1)%Z ltac:(left; auto)) as ((B1 & B2) & _). assert (0 < rho * cd (U g k j i)) by lra. clear - H Hd. nra. }
  assert (Lw : w <= Gamma_1 c * (CourNo * dt_qa c x) * (1 + rho) / (2 * (x * x))).
  { unfold w, Rdiv. apply Rmult_le_compat_r; [left; apply Rinv_0_lt_compat; lra|]. apply Rmult_le_compat_r; [exact R0|]. apply Rmult_le_compat_l; [exact HG|]. exact L. }
  assert (Lw2 : w <= Gamma_1 c * CourNo * (1 + rho) * (if three c then / 12 else if two c then / 16 else / 8)).
  { eapply Rle_trans; [exact Lw|]. right. unfold dt_qa. destruct (three c), (two c); field; lra. }
  assert (Q0 : 0 <= Gamma_1 c * CourNo * (1 + rho)) by (repeat apply Rmult_le_pos; lra).
  destruct S as (_ & _ & _ & D32).
  assert (b1 : beside c k j i k j (i + 1)) by (left; auto). assert (b2 : beside c k j i k j (i - 1)) by (left; auto).
  pose proof (W0 (dx1 g) _ _ _ P1 b1). pose proof (W0 (dx1 g) _ _ _ P1 b2).
  pose proof (W1 (dx1 g) _ _ _ ltac:(lra) b1). pose proof (W1 (dx1 g) _ _ _ ltac:(lra) b2). destruct (Hb _ _ _ b1) as (_ & t1). destruct (Hb _ _ _ b2) as (_ & t2).
  destruct (two c) eqn:Tw.
  - assert (b3 : beside c k j i k (j + 1) i) by (right; left; auto). assert (b4 : beside c k j i k (j - 1) i) by (right; left; auto).
    specialize (M2 eq_refl). specialize (G2 eq_refl).
    pose proof (W0 (dx2 g) _ _ _ P3 b3). pose proof (W0 (dx2 g) _ _ _ P3 b4).
    pose proof (W1 (dx2 g) _ _ _ ltac:(lra) b3). pose proof (W1 (dx2 g) _ _ _ ltac:(lra) b4). destruct (Hb _ _ _ b3) as (_ & t3). destruct (Hb _ _ _ b4) as (_ & t4).
    destruct (three c) eqn:Th.
    + assert (b5 : beside c k j i (k + 1) j i) by (right; right; auto). assert (b6 : beside c k j i (k - 1) j i) by (right; right; auto).
      specialize (M3 eq_refl). specialize (G3 eq_refl).
      pose proof (W0 (dx3 g) _ _ _ P4 b5). pose proof (W0 (dx3 g) _ _ _ P4 b6).
      pose proof (W1 (dx3 g) _ _ _ ltac:(lra) b5). pose proof (W1 (dx3 g) _ _ _ ltac:(lra) b6). destruct (Hb _ _ _ b5) as (_ & t5). destruct (Hb _ _ _ b6) as (_ & t6).
      apply convex6; auto. lra.
    + rewrite Rplus_0_r.
      match goal with |- _ <= ?e <= _ => replace e with (e + (0 * (temperature c (U g k j i) - temperature c (U g k j i)) + 0 * (temperature c (U g k j i) - temperature c (U g k j i)))) by ring end.
      apply convex6; auto; try lra.
  - destruct (three c); [specialize (D32 eq_refl); discriminate|]. rewrite !Rplus_0_r.
    match goal with |- _ <= ?e <= _ => replace e with (e + (0 * (temperature c (U g k j i) - temperature c (U g k j i)) + 0 * (temperature c (U g k j i) - temperature c (U g k j i))) + (0 * (temperature c (U g k j i) - temperature c (U g k j i)) + 0 * (temperature c (U g k j i) - temperature c (U g k j i)))) by ring end.
    apply convex6; auto; try lra.
Qed.
Print Assumptions C76_no_overshoot.
