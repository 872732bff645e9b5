(** Property C67: the third-order schemes reproduce parabolas. *)
From Coq Require Import Reals ZArith Arith Lra Lia List.
From Verif Require Import GasModel ConvProps ReconModel ReconSpec ReconProps.
Open Scope R_scope.

(** ** Vocabulary.  Cells have size 1; cell [j] is centred on [j].  [W] holds the cell averages (the
    differences of the antiderivative) of the parabola a + b x + c x^2 in variable [n]. *)
Definition parabola (a b c x : R) : R := a + b * x + c * (x * x).
Definition antider (a b c x : R) : R := a * x + b * (x * x) / 2 + c * (x * x * x) / 3.
Definition averages_of (a b c : R) (W : slice) (n : nat) : Prop :=
  forall j, W j n = antider a b c (IZR j + 1/2) - antider a b c (IZR j - 1/2).
(** Slope of the parabola in the middle of cell j; the parabola has no extremum near the interface. *)
Definition slope_at (b c : R) (j : Z) : R := b + 2 * c * IZR j.
Definition steep (b c : R) (i : Z) : Prop := forall j, (i - 2 <= j <= i + 1)%Z -> 4 * Rabs c < Rabs (slope_at b c j).
(** Third-order schemes: exact, or exact up to the stated error. *)
Definition third_order_error (b c : R) (s : scheme) (i : Z) (n : nat) : option R :=
  match s with
  | Prim3 => Some 0
  | Ppm nw _ => if (n <? nw)%nat then None else Some (Rabs c ^ 3 / (3 * Rabs (slope_at b c (i - 1)) * Rabs (slope_at b c i)))
  | Koren => Some (2 * TINY40)
  | _ => None
  end.

Definition mid (a b c : R) (i : Z) : R := parabola a b c (IZR i - 1/2).

Section Par.
Variables (a b c : R) (W : slice) (n : nat).
Hypothesis AV : averages_of a b c W n.
Lemma W_eq : forall j, W j n = a + b * IZR j + c * (IZR j * IZR j + 1/12).
Proof. intros j. rewrite AV. unfold antider. field. Qed.
Lemma W_step : forall j, W (j + 1)%Z n = W j n + slope_at b c j + c.
Proof. intros j. rewrite !W_eq, plus_IZR. unfold slope_at. ring. Qed.
Lemma W_back : forall j, W (j - 1)%Z n = W j n - slope_at b c j + c.
Proof. intros j. rewrite !W_eq, minus_IZR. unfold slope_at. ring. Qed.
Lemma mid_l : forall j, mid a b c j = W j n - slope_at b c j / 2 + c / 6.
Proof. intros j. rewrite W_eq. unfold mid, parabola, slope_at. field. Qed.
Lemma mid_r : forall j, mid a b c (j + 1) = W j n + slope_at b c j / 2 + c / 6.
Proof. intros j. rewrite W_eq. unfold mid, parabola, slope_at. rewrite plus_IZR. field. Qed.
Lemma slope_step : forall j, slope_at b c (j + 1) = slope_at b c j + 2 * c.
Proof. intros j. unfold slope_at. rewrite plus_IZR. ring. Qed.
Lemma slope_back : forall j, slope_at b c (j - 1) = slope_at b c j - 2 * c.
Proof. intros j. unfold slope_at. rewrite minus_IZR. ring. Qed.

(** signs *)
Lemma steep_sign : forall s, 4 * Rabs c < Rabs s -> (0 < s /\ 4 * c < s /\ - (4 * c) < s) \/ (s < 0 /\ s < 4 * c /\ s < - (4 * c)).
Proof. intros s. unfold Rabs. destruct (Rcase_abs c), (Rcase_abs s); lra. Qed.

Lemma shape_ok : forall w l r s e f, 4 * Rabs c < Rabs s -> Rabs e <= Rabs c / 12 -> Rabs f <= Rabs c / 12 ->
  l = w - s / 2 + c / 6 + e -> r = w + s / 2 + c / 6 + f ->
  monotonize w l r = (l, r) /\ between w (w - s + c) l /\ between w (w + s + c) r.
Proof.
  intros w l r s e f S E F L X.
  assert (SC := steep_sign s S).
  assert (E' : - (Rabs c / 12) <= e <= Rabs c / 12) by (revert E; unfold Rabs; destruct (Rcase_abs e), (Rcase_abs c); lra).
  assert (F' : - (Rabs c / 12) <= f <= Rabs c / 12) by (revert F; unfold Rabs; destruct (Rcase_abs f), (Rcase_abs c); lra).
  assert (CB : - Rabs c <= c <= Rabs c) by (unfold Rabs; destruct (Rcase_abs c); lra).
  assert (SG : (0 < s /\ 4 * Rabs c < s) \/ (s < 0 /\ 4 * Rabs c < - s)) by (revert S; unfold Rabs; destruct (Rcase_abs s), (Rcase_abs c); lra).
  assert (P0 := Rabs_pos c). clear S E F SC. set (k := Rabs c) in *. clearbody k.
  split.
  - unfold monotonize. cbv zeta.
    assert (A1 : 0 < (r - w) * (w - l)).
    { subst l r. destruct SG as [[G1 G2]|[G1 G2]].
      - apply Rmult_lt_0_compat; lra.
      - replace ((w + s / 2 + c / 6 + f - w) * (w - (w - s / 2 + c / 6 + e))) with ((- s / 2 - c / 6 - f) * (- s / 2 + c / 6 + e)) by field. apply Rmult_lt_0_compat; lra. }
    destruct (Rle_dec ((r - w) * (w - l)) 0); [lra|].
    assert (QB : r - l = s + f - e) by (subst; lra). assert (QC : 6 * (w - half * (l + r)) = - c - 3 * (e + f)) by (subst; unfold half; field).
    rewrite QB, QC.
    assert (M : forall t, - (2 * k) <= t <= 2 * k -> (s + f - e) * t <= (s + f - e) * (s + f - e)).
    { intros t T. destruct SG as [[G1 G2]|[G1 G2]].
      - apply Rmult_le_compat_l; lra.
      - replace ((s + f - e) * t) with (- (s + f - e) * (- t)) by ring. replace ((s + f - e) * (s + f - e)) with (- (s + f - e) * - (s + f - e)) by ring. apply Rmult_le_compat_l; lra. }
    pose proof (M (- c - 3 * (e + f)) ltac:(lra)). pose proof (M (c + 3 * (e + f)) ltac:(lra)).
    destruct (Rlt_dec _ _) as [B|B]; [lra|]. clear B. destruct (Rlt_dec _ _) as [B|B]; [|reflexivity]. nra.
  - rewrite !between_cases. subst l r. destruct SG; lra.
Qed.

(** *** prim3 *)
Lemma prim3_half_exact : forall j, prim3_half W j n = mid a b c j.
Proof.
  intros j. rewrite mid_l. unfold prim3_half. cbv zeta.
  replace (j - 2)%Z with (j - 1 - 1)%Z by lia. rewrite (W_back (j - 1)), slope_back, (W_back j), (W_step j).
  set (w := W j n). set (s := slope_at b c j). clearbody w s. unfold half.
  replace (3 * (w - s + c - 2 * ((7 * (w - s + c + w) - (w - s + c - (s - 2 * c) + c + (w + s + c))) / 12) + w)) with (2 * c) by field.
  replace (w - s + c - (s - 2 * c) + c - 2 * (w - s + c) + w) with (2 * c) by ring.
  replace (w - s + c - 2 * w + (w + s + c)) with (2 * c) by ring.
  assert (MM : forall x, 0 <= x -> MIN (5 / 4 * MIN x x) x = x) by (intros x X; unfold MIN; repeat destruct (Rlt_dec _ _); lra).
  rewrite MM by apply Rabs_pos. unfold SIGN.
  destruct (Rlt_dec 0 (2 * c)) as [C|C], (Rlt_dec (2 * c) 0) as [D|D]; try (exfalso; lra).
  - rewrite Rabs_right by lra. field.
  - rewrite Rabs_left by lra. field.
  - assert (Z : c = 0) by lra. rewrite Z. field.
Qed.
Lemma prim3_exact : forall j, 4 * Rabs c < Rabs (slope_at b c j) -> prim3_ends W j n = (mid a b c j, mid a b c (j + 1)).
Proof.
  intros j S. unfold prim3_ends. cbv zeta. rewrite !prim3_half_exact.
  assert (X : prim3_extremum W j n (mid a b c j) (mid a b c (j + 1)) = (mid a b c j, mid a b c (j + 1))).
  { unfold prim3_extremum. cbv zeta. destruct (Rle_dec _ _) as [Q|]; [|reflexivity]. exfalso. revert Q. rewrite (mid_l j), (mid_r j).
    set (w := W j n). set (s := slope_at b c j) in *. clearbody w s. apply Rlt_not_le.
    destruct (steep_sign s S) as [G|G].
    - apply Rmult_lt_0_compat; lra.
    - replace ((w + s / 2 + c / 6 - w) * (w - (w - s / 2 + c / 6))) with ((- s / 2 - c / 6) * (- s / 2 + c / 6)) by field. apply Rmult_lt_0_compat; lra. }
  rewrite X. cbn [fst snd]. clear X.
  destruct (shape_ok (W j n) (mid a b c j) (mid a b c (j + 1)) (slope_at b c j) 0 0) as (M & B1 & B2); auto.
  { rewrite Rabs_R0. pose proof (Rabs_pos c). lra. } { rewrite Rabs_R0. pose proof (Rabs_pos c). lra. }
  { rewrite mid_l. ring. } { rewrite mid_r. ring. }
  rewrite M. unfold clamped_ends. cbn [fst snd]. rewrite W_back, W_step. rewrite !clamp_id; auto.
Qed.

(** *** PPM, passive scalars *)
Lemma ppm_slope : forall nw es j, (n <? nw)%nat = false -> 4 * Rabs c < Rabs (slope_at b c j) ->
  chr_slope nw W es j n = slope_at b c j - c * c / slope_at b c j.
Proof.
  intros nw es j N S. unfold chr_slope, chr_da. rewrite N. rewrite W_back, W_step.
  set (w := W j n). set (s := slope_at b c j) in *. clearbody w s.
  replace (w + s + c - (w - s + c)) with (2 * s) by ring. replace (w - (w - s + c)) with (s - c) by ring. replace (w + s + c - w) with (s + c) by ring.
  assert (SG := steep_sign s S). assert (NZ : s <> 0) by lra.
  assert (PP : 0 < (s - c) * (s + c)).
  { destruct SG as [G|G]; [apply Rmult_lt_0_compat; lra|]. replace ((s - c) * (s + c)) with ((- s + c) * (- s - c)) by ring. apply Rmult_lt_0_compat; lra. }
  unfold limited, vl_diff. destruct (Rlt_dec 0 ((s - c) * (s + c))); [|lra].
  replace (2 * (s - c) * (s + c) / (s - c + (s + c))) with (s - c * c / s) by (field; lra).
  assert (D : Rabs (s - c * c / s) <= Rabs s /\ (s < 0 -> s - c * c / s < 0) /\ (0 < s -> 0 < s - c * c / s)).
  { replace (s - c * c / s) with ((s - c) * (s + c) / s) by (field; auto).
    destruct SG as [G|G].
    - assert (0 < (s - c) * (s + c) / s) by (apply Rdiv_lt_0_compat; lra). rewrite !Rabs_right by lra. split; [|lra].
      apply Rmult_le_reg_r with s; [lra|]. unfold Rdiv. rewrite Rmult_assoc, Rinv_l by lra. nra.
    - assert (0 < (s - c) * (s + c) / (- s)) by (apply Rdiv_lt_0_compat; lra).
      assert (NE : (s - c) * (s + c) / s = - ((s - c) * (s + c) / (- s))) by (field; lra). rewrite NE.
      rewrite Rabs_Ropp, (Rabs_right (_ / _)), (Rabs_left s) by lra. split; [|lra].
      apply Rmult_le_reg_r with (- s); [lra|]. unfold Rdiv. rewrite Rmult_assoc, Rinv_l by lra. nra. }
  destruct D as (D1 & D2 & D3).
  assert (L1 : Rabs s <= 2 * MIN (Rabs (s - c)) (Rabs (s + c))).
  { unfold MIN. destruct (Rlt_dec _ _); unfold Rabs; repeat destruct (Rcase_abs _); lra. }
  assert (L2 : half * Rabs (2 * s) = Rabs s) by (rewrite Rabs_mult, (Rabs_right 2) by lra; unfold half; field). rewrite L2.
  set (g := s - c * c / s) in *. clearbody g.
  set (m := MIN (Rabs (s - c)) (Rabs (s + c))) in *. clearbody m.
  assert (Q : MIN (2 * m) (MIN (Rabs s) (Rabs g)) = Rabs g).
  { unfold MIN. repeat destruct (Rlt_dec _ _); lra. }
  rewrite Q. unfold SIGN. destruct (Rlt_dec (2 * s) 0).
  - rewrite Rabs_left by (apply D2; lra). ring.
  - rewrite Rabs_right by (apply Rle_ge, Rlt_le, D3; lra). ring.
Qed.
(** deviation of the interpolated interface value from the parabola *)
Lemma ppm_half_err : forall nw es j, (n <? nw)%nat = false -> 4 * Rabs c < Rabs (slope_at b c (j - 1)) -> 4 * Rabs c < Rabs (slope_at b c j) ->
  Rabs (ppm_half nw W es j n - mid a b c j) <= Rabs c ^ 3 / (3 * Rabs (slope_at b c (j - 1)) * Rabs (slope_at b c j)) /\
  Rabs (ppm_half nw W es j n - mid a b c j) <= Rabs c / 12.
Proof.
  intros nw es j N S1 S2. unfold ppm_half. rewrite !ppm_slope by auto. rewrite W_back, mid_l.
  set (t := slope_at b c (j - 1)) in *. assert (T : slope_at b c j = t + 2 * c) by (unfold t; rewrite slope_back; ring).
  set (s := slope_at b c j) in *. clearbody s t. set (w := W j n). clearbody w.
  assert (NS : s <> 0). { destruct (steep_sign s S2); lra. } assert (NT : t <> 0). { destruct (steep_sign t S1); lra. }
  assert (E : half * (w + (w - s + c)) - (s - c * c / s - (t - c * c / t)) / 6 - (w - s / 2 + c / 6) = - (c * c * c) / (3 * t * s)).
  { subst s. unfold half. field. auto. }
  rewrite E.
  assert (E2 : Rabs (- (c * c * c) / (3 * t * s)) = Rabs c ^ 3 / (3 * Rabs t * Rabs s)).
  { unfold Rdiv. rewrite Rabs_mult, Rabs_Ropp, Rabs_inv, !Rabs_mult, (Rabs_right 3) by lra. cbn [pow]. ring. }
  rewrite E2. split; [lra|].
  assert (P := Rabs_pos c). set (k := Rabs c) in *. set (u := Rabs s) in *. set (v := Rabs t) in *. clearbody k u v.
  assert (UV : 0 < v * u) by (apply Rmult_lt_0_compat; lra).
  apply Rmult_le_reg_r with (3 * v * u); [nra|]. unfold Rdiv. rewrite Rmult_assoc, Rinv_l by nra.
  assert (K : 4 * k * k <= v * u). { assert (4 * k * (4 * k) <= v * u) by (apply Rmult_le_compat; lra). nra. }
  cbn [pow]. assert (0 <= k * (v * u - 4 * k * k)) by (apply Rmult_le_pos; lra). nra.
Qed.
Lemma ppm_near : forall nw es j, (n <? nw)%nat = false ->
  4 * Rabs c < Rabs (slope_at b c (j - 1)) -> 4 * Rabs c < Rabs (slope_at b c j) -> 4 * Rabs c < Rabs (slope_at b c (j + 1)) ->
  ppm_ends nw W es j n = (ppm_half nw W es j n, ppm_half nw W es (j + 1) n).
Proof.
  intros nw es j N S1 S2 S3. unfold ppm_ends.
  destruct (ppm_half_err nw es j N S1 S2) as [_ E1].
  assert (S2' : 4 * Rabs c < Rabs (slope_at b c (j + 1 - 1))) by (replace (j + 1 - 1)%Z with j by lia; auto).
  destruct (ppm_half_err nw es (j + 1) N S2' S3) as [_ E2].
  destruct (shape_ok (W j n) (ppm_half nw W es j n) (ppm_half nw W es (j + 1) n) (slope_at b c j)
    (ppm_half nw W es j n - mid a b c j) (ppm_half nw W es (j + 1) n - mid a b c (j + 1))) as (M & B1 & B2); auto.
  { rewrite mid_l. ring. } { rewrite mid_r. ring. }
  rewrite M. unfold clamped_ends. cbn [fst snd]. rewrite W_back, W_step, !clamp_id; auto.
Qed.

(** *** Koren *)
Lemma koren_err : forall s, 4 * Rabs c < Rabs s -> forall dl dr, (dl = s - c /\ dr = s + c) \/ (dl = s + c /\ dr = s - c) ->
  Rabs (koren (p3c_theta dr dl) * dl - (dl / 3 + dr / 6)) <= 2 * TINY40.
Proof.
  intros s S dl dr H. assert (SG := steep_sign s S). assert (T0 : 0 < TINY40) by (unfold TINY40; apply Rinv_0_lt_compat; lra).
  set (t := TINY40) in *.
  assert (TH : p3c_theta dr dl = Rabs dr / (Rabs dl + t)).
  { unfold p3c_theta, SIGN. fold t. destruct SG as [G|G].
    - destruct (Rlt_dec dl 0); [lra|]. rewrite (Rabs_right dr) by lra. ring.
    - destruct (Rlt_dec dl 0); [|lra]. rewrite (Rabs_left dr) by lra. unfold Rdiv. ring. }
  assert (Q : exists z, (z = 1 \/ z = -1) /\ dl = z * Rabs dl /\ dr = z * Rabs dr /\ 0 < Rabs dl /\ 3 * Rabs dl <= 5 * Rabs dr /\ 3 * Rabs dr <= 5 * Rabs dl).
  { destruct SG as [G|G].
    - exists 1. rewrite !Rabs_right by lra. lra.
    - exists (-1). rewrite !Rabs_left by lra. lra. }
  destruct Q as (z & Z & EL & ER & P1 & P2 & P3). rewrite TH. set (u := Rabs dl) in *. set (v := Rabs dr) in *.
  rewrite EL, ER. replace (koren (v / (u + t)) * (z * u) - (z * u / 3 + z * v / 6)) with (z * (koren (v / (u + t)) * u - (u / 3 + v / 6))) by field.
  rewrite Rabs_mult. replace (Rabs z) with 1 by (destruct Z as [-> | ->]; [rewrite Rabs_R1|rewrite Rabs_left by lra]; ring). rewrite Rmult_1_l.
  clear TH EL ER Z H SG S. clearbody u v t. clear - T0 P1 P2 P3.
  set (th := v / (u + t)). assert (TE : th * (u + t) = v) by (unfold th; field; lra). assert (TP : 0 < th) by (unfold th; apply Rdiv_lt_0_compat; lra).
  clearbody th. apply Rabs_le.
  destruct (Rle_dec (2 * t) u) as [U|U].
  - assert (H1 : 2 / 5 <= th). { apply Rmult_le_reg_r with (u + t); [lra|]. lra. }
    assert (H2 : th <= 4). { apply Rmult_le_reg_r with (u + t); [lra|]. lra. }
    assert (KE : koren th = (2 + th) / 6). { unfold koren, MIN, MAX. repeat destruct (Rlt_dec _ _); lra. }
    rewrite KE. assert (TT : th * u = v - th * t) by lra.
    assert (TU : 0 <= th * t <= 4 * t) by (split; [apply Rmult_le_pos; lra|apply Rmult_le_compat_r; lra]). nra.
  - destruct (koren_range th) as [K1 K2]. assert (0 <= koren th * u <= u) by (split; [apply Rmult_le_pos; lra|nra]). lra.
Qed.
End Par.

Theorem C67_parabola : forall s a b c W i n err, averages_of a b c W n -> steep b c i -> third_order_error b c s i n = Some err ->
  Rabs (left_state s W i n - parabola a b c (IZR i - 1/2)) <= err /\ Rabs (right_state s W i n - parabola a b c (IZR i - 1/2)) <= err.
Proof.
  intros s a b c W i n err AV ST TE. change (parabola a b c (IZR i - 1/2)) with (mid a b c i).
  assert (S0 : 4 * Rabs c < Rabs (slope_at b c i)) by (apply ST; lia).
  assert (S1 : 4 * Rabs c < Rabs (slope_at b c (i - 1))) by (apply ST; lia).
  assert (S2 : 4 * Rabs c < Rabs (slope_at b c (i - 1 - 1))) by (apply ST; lia).
  assert (S3 : 4 * Rabs c < Rabs (slope_at b c (i + 1))) by (apply ST; lia).
  unfold left_state, right_state, vl_l, vl_r. destruct s; cbn [third_order_error] in TE; try discriminate; cbn [ends].
  - injection TE as <-. rewrite !(prim3_exact a b c W n AV) by auto. cbn [fst snd]. replace (i - 1 + 1)%Z with i by lia.
    rewrite Rminus_diag_eq, Rabs_R0 by reflexivity. lra.
  - destruct (n <? nw)%nat eqn:N; [discriminate|]. injection TE as <-.
    rewrite (ppm_near a b c W n AV nw es i N) by auto.
    rewrite (ppm_near a b c W n AV nw es (i - 1) N) by (auto; replace (i - 1 + 1)%Z with i by lia; auto).
    cbn [fst snd]. replace (i - 1 + 1)%Z with i by lia. split; apply (ppm_half_err a b c W n AV nw es i N S1 S0).
  - injection TE as <-. unfold koren_ends. cbv zeta. cbn [fst snd]. split.
    + replace (i - 1 + 1)%Z with (i - 1 + 1)%Z by lia.
      assert (ML := mid_r a b c W n AV (i - 1)). rewrite (W_back a b c W n AV (i - 1)), (W_step a b c W n AV (i - 1)).
      replace (i - 1 + 1)%Z with i in ML by lia. rewrite ML.
      set (w := W (i - 1)%Z n). set (s := slope_at b c (i - 1)) in *. clearbody w s.
      replace (w + s + c - w) with (s + c) by ring. replace (w - (w - s + c)) with (s - c) by ring.
      pose proof (koren_err c s S1 (s + c) (s - c) ltac:(right; lra)) as K.
      replace (w + koren (p3c_theta (s - c) (s + c)) * (s + c) - (w + s / 2 + c / 6)) with (koren (p3c_theta (s - c) (s + c)) * (s + c) - ((s + c) / 3 + (s - c) / 6)) by field. exact K.
    + rewrite (mid_l a b c W n AV i), (W_back a b c W n AV i), (W_step a b c W n AV i).
      set (w := W i n). set (s := slope_at b c i) in *. clearbody w s.
      replace (w + s + c - w) with (s + c) by ring. replace (w - (w - s + c)) with (s - c) by ring.
      pose proof (koren_err c s S0 (s - c) (s + c) ltac:(left; lra)) as K.
      replace (w - koren (p3c_theta (s + c) (s - c)) * (s - c) - (w - s / 2 + c / 6)) with (- (koren (p3c_theta (s + c) (s - c)) * (s - c) - ((s - c) / 3 + (s + c) / 6))) by field.
      rewrite Rabs_Ropp. exact K.
Qed.
Print Assumptions C67_parabola.
Example ex_parabola : averages_of 1 8 (1/2) (fun j _ => 1 + 8 * IZR j + (1/2) * (IZR j * IZR j + 1/12)) 3 /\ steep 8 (1/2) 0 /\
  third_order_error 8 (1/2) (Ppm 2 (fun _ => Esystem (fun _ => 0) (fun _ _ => 0) (fun _ _ => 0))) 0 3 <> None.
Proof.
  split; [intros j; unfold antider; field|]. split; [|discriminate].
  intros j J. assert (H1 := IZR_le _ _ (proj1 J)). assert (H2 := IZR_le _ _ (proj2 J)). cbn in H1, H2. unfold slope_at.
  rewrite (Rabs_right (1/2)), Rabs_right; lra.
Qed.
