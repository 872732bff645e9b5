(** Property C60: characteristic tracing of the interface states (CTU integrator). *)
From Coq Require Import Reals ZArith Arith Lra Lia List Bool.
From Verif Require Import GasModel ConvProps ReconModel ReconSpec ReconProps EsysPrimModel EsysPrimProps.
Import ListNotations.
Open Scope R_scope.

(** ** Specification: the profile inside a cell.
    With edge values l, r and mean w, the parabola through l (xi = 0) and r
    (xi = 1) whose mean is w, and its antiderivative. *)
Definition sixth (w l r : R) : R := 6 * (w - (l + r) / 2).
Definition profile (w l r xi : R) : R := l + xi * ((r - l) + sixth w l r * (1 - xi)).
Definition profile_int (w l r xi : R) : R := l * xi + (r - l + sixth w l r) * (xi * xi / 2) - sixth w l r * (xi * xi * xi / 3).
(** Mean of the profile over the rightmost (leftmost) fraction sigma of the cell. *)
Definition mean_right (w l r sigma : R) : R := if Req_EM_T sigma 0 then r else (profile_int w l r 1 - profile_int w l r (1 - sigma)) / sigma.
Definition mean_left (w l r sigma : R) : R := if Req_EM_T sigma 0 then l else profile_int w l r sigma / sigma.

Lemma profile_facts w l r : profile w l r 0 = l /\ profile w l r 1 = r /\ profile_int w l r 1 = w /\ profile_int w l r 0 = 0 /\
  forall x, derivable_pt_lim (profile_int w l r) x (profile w l r x).
Proof.
  unfold profile, profile_int, sixth. split; [field|]. split; [field|]. split; [field|]. split; [field|]. intros x.
  set (s := 6 * (w - (l + r) / 2)). clearbody s.
  replace (l + x * (r - l + s * (1 - x))) with ((l * 1 + (r - l + s) * x) - s * (x * x)) by ring.
  apply (derivable_pt_lim_minus (fun x => l * x + (r - l + s) * (x * x / 2)) (fun x => s * (x * x * x / 3))).
  - apply (derivable_pt_lim_plus (fun x => l * x) (fun x => (r - l + s) * (x * x / 2))).
    + apply (derivable_pt_lim_scal (fun x => x) l x 1). apply derivable_pt_lim_id.
    + apply (derivable_pt_lim_scal (fun x => x * x / 2)).
      replace x with (/ 2 * (1 * x + x * 1)) at 2 by field.
      replace (fun x0 => x0 * x0 / 2) with (mult_real_fct (/ 2) (id * id)%F) by (apply FunctionalExtensionality.functional_extensionality; intros; unfold mult_real_fct, mult_fct, id; field).
      apply derivable_pt_lim_scal. apply (derivable_pt_lim_mult id id x 1 1); apply derivable_pt_lim_id.
  - apply (derivable_pt_lim_scal (fun x => x * x * x / 3)).
    replace (x * x) with (/ 3 * ((1 * x + x * 1) * x + (x * x) * 1)) at 1 by field.
    replace (fun x0 => x0 * x0 * x0 / 3) with (mult_real_fct (/ 3) ((id * id) * id)%F) by (apply FunctionalExtensionality.functional_extensionality; intros; unfold mult_real_fct, mult_fct, id; field).
    apply derivable_pt_lim_scal. apply (derivable_pt_lim_mult (id * id)%F id x (1 * x + x * 1) 1); [|apply derivable_pt_lim_id].
    apply (derivable_pt_lim_mult id id x 1 1); apply derivable_pt_lim_id.
Qed.

(** A cell whose profile is monotone: edge values on either side of the mean and
    no interior extremum. *)
Definition mono (w l r : R) : Prop := 0 <= (r - w) * (w - l) /\ - ((r - l) * (r - l)) <= (r - l) * sixth w l r <= (r - l) * (r - l).

Lemma mean_right_eq w l r q : mean_right w l r (2 * q) = r - q * ((r - l) - (1 - four3 * q) * sixth w l r).
Proof.
  unfold mean_right, four3. destruct (Req_EM_T (2 * q) 0) as [Z|Z]; [assert (q = 0) by lra; subst; ring|].
  unfold profile_int, sixth. field. lra.
Qed.
Lemma mean_left_eq w l r q : mean_left w l r (2 * q) = l + q * ((r - l) + (1 - four3 * q) * sixth w l r).
Proof.
  unfold mean_left, four3. destruct (Req_EM_T (2 * q) 0) as [Z|Z]; [assert (q = 0) by lra; subst; ring|].
  unfold profile_int, sixth. field. lra.
Qed.

Lemma mono_mean w l r q : mono w l r -> 0 <= q <= 1 / 2 -> between w r (r - q * ((r - l) - (1 - four3 * q) * sixth w l r)).
Proof.
  intros [M1 M2] Q. unfold four3.
  set (D := r - l) in *. set (S6 := sixth w l r) in *.
  assert (WE : w = r - D / 2 + S6 / 6) by (unfold S6, sixth, D; field).
  assert (V1 : r - q * (D - (1 - 4 / 3 * q) * S6) - w = (1 / 2 - q) * (D + (4 / 3) * (q - 1 / 4) * S6)) by (rewrite WE; field).
  assert (V2 : r - (r - q * (D - (1 - 4 / 3 * q) * S6)) = q * (D - (1 - 4 / 3 * q) * S6)) by ring.
  set (v := r - q * (D - (1 - 4 / 3 * q) * S6)) in *. clearbody v.
  assert (T : -1 / 3 <= 4 / 3 * (q - 1 / 4) <= 1 / 3) by lra. set (t := 4 / 3 * (q - 1 / 4)) in *. clearbody t.
  assert (U : 1 / 3 <= 1 - 4 / 3 * q <= 1) by lra. set (u := 1 - 4 / 3 * q) in *. clearbody u.
  apply between_cases.
  destruct (Req_EM_T D 0) as [P0|P0].
  - assert (l = r) by (unfold D in P0; lra). subst l.
    assert (Z : (r - w) * (r - w) <= 0) by lra. assert (Z2 : 0 <= (r - w) * (r - w)) by apply Rle_0_sqr.
    assert (w = r) by (assert (E : (r - w) * (r - w) = 0) by lra; destruct (Rmult_integral _ _ E); lra).
    assert (S6 = 0) by (unfold S6, sixth; rewrite H; field). rewrite P0, H0 in V1. left. lra.
  - clear WE M1. clearbody S6 D. clear l. destruct (Rlt_dec D 0) as [P|P].
    + right. assert (SB : D <= S6 <= - D) by nra. assert (0 <= - (D + t * S6)) by nra. assert (0 <= - (D - u * S6)) by nra. clear - V1 V2 H H0 Q. split; nra.
    + left. assert (0 < D) by lra. assert (SB : - D <= S6 <= D) by nra. assert (0 <= D + t * S6) by nra. assert (0 <= D - u * S6) by nra. clear - V1 V2 H0 H1 Q. split; nra.
Qed.
Lemma mono_swap w l r : mono w l r -> mono w r l.
Proof. unfold mono, sixth. intros [A B]. replace (6 * (w - (r + l) / 2)) with (6 * (w - (l + r) / 2)) by field. split; [nra|]. set (s := 6 * (w - (l + r) / 2)) in *. clearbody s. replace ((l - r) * (l - r)) with ((r - l) * (r - l)) by ring. replace ((l - r) * s) with (- ((r - l) * s)) by ring. lra. Qed.
Lemma mono_mean_left w l r q : mono w l r -> 0 <= q <= 1 / 2 -> between w l (l + q * ((r - l) + (1 - four3 * q) * sixth w l r)).
Proof.
  intros M Q. apply mono_swap in M. assert (H := mono_mean w r l q M Q).
  replace (sixth w r l) with (sixth w l r) in H by (unfold sixth; field).
  replace (l + q * (r - l + (1 - four3 * q) * sixth w l r)) with (l - q * (l - r - (1 - four3 * q) * sixth w l r)) by ring. exact H.
Qed.

(** ** The edge values of passive scalars give a monotone profile in the cell *)
Lemma chr_scalar_slope nw W es i n : (nw <= n)%nat -> chr_slope nw W es i n = prim2_slope W i n.
Proof. intros H. unfold chr_slope, chr_da, prim2_slope. replace (n <? nw)%nat with false by (symmetry; apply Nat.ltb_ge; exact H). reflexivity. Qed.
Lemma sym_mono w d : mono w (w - d) (w + d).
Proof. unfold mono, sixth. replace (6 * (w - (w - d + (w + d)) / 2)) with 0 by field. assert (H := Rle_0_sqr d). unfold Rsqr in H. split; nra. Qed.

Lemma monotonize_mono w l r : mono w (fst (monotonize w l r)) (snd (monotonize w l r)).
Proof.
  unfold monotonize. cbv zeta.
  destruct (Rle_dec _ 0) as [A|A]. { cbn [fst snd]. unfold mono, sixth. split; [lra|]. replace (w - w) with 0 by ring. lra. }
  apply Rnot_le_lt in A.
  replace (6 * (w - half * (l + r))) with (sixth w l r) by (unfold sixth, half; field).
  destruct (Rlt_dec _ _) as [B|B]; [|destruct (Rlt_dec _ _) as [C|C]]; cbn [fst snd]; unfold mono, sixth in *.
  - split. { replace ((r - w) * (w - (6 * w - r * 4) / 2)) with (2 * ((r - w) * (r - w))) by field. assert (H := Rle_0_sqr (r - w)). unfold Rsqr in H. lra. }
    replace (6 * (w - ((6 * w - r * 4) / 2 + r) / 2)) with (r - (6 * w - r * 4) / 2) by field.
    set (z := r - (6 * w - r * 4) / 2). assert (H := Rle_0_sqr z). unfold Rsqr in H. lra.
  - split. { replace (((6 * w - l * 4) / 2 - w) * (w - l)) with (2 * ((w - l) * (w - l))) by field. assert (H := Rle_0_sqr (w - l)). unfold Rsqr in H. lra. }
    replace (6 * (w - (l + (6 * w - l * 4) / 2) / 2)) with (- ((6 * w - l * 4) / 2 - l)) by field.
    set (z := (6 * w - l * 4) / 2 - l). assert (H := Rle_0_sqr z). unfold Rsqr in H. lra.
  - split; [lra|]. lra.
Qed.

(** Edge values of PPM for a scalar: between the neighbours even before the clamp. *)
Lemma ppm_half_between nw W es i n : (nw <= n)%nat -> between (W (i - 1)%Z n) (W i n) (ppm_half nw W es i n).
Proof.
  intros H. unfold ppm_half. rewrite !chr_scalar_slope by exact H. unfold prim2_slope.
  replace (i - 1 + 1)%Z with i by lia. replace (i - 1 - 1)%Z with (i - 2)%Z by lia.
  set (a := W (i - 2)%Z n). set (b := W (i - 1)%Z n). set (c := W i n). set (d := W (i + 1)%Z n). clearbody a b c d.
  replace (d - b) with ((c - b) + (d - c)) by ring. replace (c - a) with ((b - a) + (c - b)) by ring.
  assert (L1 := limited_range (c - b) (d - c) (vl_diff (c - b) (d - c))). assert (L2 := limited_range (b - a) (c - b) (vl_diff (b - a) (c - b))).
  cbv zeta in *. set (s1 := limited (c - b) _ _ _) in *. set (s2 := limited (b - a) _ _ _) in *. clearbody s1 s2.
  unfold half. apply between_cases. lra.
Qed.
Lemma monotonize_between w a b l r : between w a l -> between w b r ->
  between w a (fst (monotonize w l r)) /\ between w b (snd (monotonize w l r)).
Proof.
  rewrite !between_cases. intros L X. unfold monotonize. cbv zeta.
  destruct (Rle_dec _ 0) as [A|A]; [cbn [fst snd]; lra|]. apply Rnot_le_lt in A.
  replace (6 * (w - half * (l + r))) with (sixth w l r) by (unfold sixth, half; field).
  assert (SG : (l < w /\ w < r) \/ (w < l /\ r < w)).
  { destruct (Rtotal_order w r) as [E|[E|E]]; [left; nra|subst; lra|right; nra]. }
  destruct (Rlt_dec _ _) as [B|B]; [|destruct (Rlt_dec _ _) as [C|C]]; cbn [fst snd]; unfold sixth in *.
  - split; [|exact X].
    assert (T : 0 < (r - l) * (6 * w - 4 * r - 2 * l)) by (apply (Rmult_lt_reg_l 1); [lra|]; clear - B; nra).
    destruct SG as [SG|SG]; [assert (0 < 6 * w - 4 * r - 2 * l) by (clear - T SG; nra)|assert (6 * w - 4 * r - 2 * l < 0) by (clear - T SG; nra)]; lra.
  - split; [exact L|].
    assert (T : (r - l) * (6 * w - 4 * l - 2 * r) < 0) by (clear - C; nra).
    destruct SG as [SG|SG]; [assert (6 * w - 4 * l - 2 * r < 0) by (clear - T SG; nra)|assert (0 < 6 * w - 4 * l - 2 * r) by (clear - T SG; nra)]; lra.
  - split; assumption.
Qed.

(** The configurations of the CTU integrator: [curved] and [strict] as in the source. *)
Inductive ctu_scheme := CtuPrim2 | CtuPlm | CtuPpm | CtuPrim3.
Definition ctu_ends (s : ctu_scheme) (nw : nat) (W : slice) (es : Z -> esystem) : edges :=
  match s with CtuPrim2 => prim2_ends W | CtuPlm => plm_ends nw W es | CtuPpm => ppm_ends nw W es | CtuPrim3 => prim3_ends W end.
Definition is_strict (s : ctu_scheme) : bool := match s with CtuPrim2 | CtuPrim3 => true | _ => false end.
Definition is_curved (s : ctu_scheme) : bool := match s with CtuPpm | CtuPrim3 => true | _ => false end.
(** lr_states_prim3.c:332,336 index with m, left at NWAVE by the loops above. *)
Definition scalar_source (s : ctu_scheme) (nw n : nat) : nat := match s with CtuPrim3 => nw | _ => n end.
Definition traced_left (s : ctu_scheme) (hll : bool) (nw : nat) (k : R) (W : slice) (vx : Z -> R) (es : Z -> esystem) : Z -> nat -> R :=
  ctu_l nw (is_strict s) hll (is_curved s) (scalar_source s nw) k W vx es (ctu_ends s nw W es).
Definition traced_right (s : ctu_scheme) (hll : bool) (nw : nat) (k : R) (W : slice) (vx : Z -> R) (es : Z -> esystem) : Z -> nat -> R :=
  ctu_r nw (is_strict s) hll (is_curved s) (scalar_source s nw) k W vx es (ctu_ends s nw W es).

Lemma ctu_cell s nw W es i n : s <> CtuPrim3 -> (nw <= n)%nat -> exists l r, ctu_ends s nw W es i n = (l, r) /\
  mono (W i n) l r /\ between (W i n) (W (i - 1)%Z n) l /\ between (W i n) (W (i + 1)%Z n) r /\
  W6 (is_curved s) W (ctu_ends s nw W es) i n = sixth (W i n) l r.
Proof.
  intros SN H. destruct s; [| | |congruence]; cbn [ctu_ends is_curved]; clear SN.
  - rewrite prim2_ends_eq. destruct (prim2_range W i n). eexists _, _. split; [reflexivity|]. split; [apply sym_mono|]. split; [assumption|]. split; [assumption|].
    unfold W6, sixth. field.
  - destruct (plm_shape nw W es i n) as (d & E & A & B). eexists _, _. split; [exact E|]. split; [apply sym_mono|]. split; [exact A|]. split; [exact B|].
    unfold W6, sixth. field.
  - exists (fst (ppm_ends nw W es i n)), (snd (ppm_ends nw W es i n)). split; [destruct (ppm_ends nw W es i n); reflexivity|].
    assert (E : ppm_ends nw W es i n = monotonize (W i n) (ppm_half nw W es i n) (ppm_half nw W es (i + 1)%Z n)).
    { destruct (monotonize_between (W i n) (W (i - 1)%Z n) (W (i + 1)%Z n) (ppm_half nw W es i n) (ppm_half nw W es (i + 1)%Z n)) as [A B].
      - apply between_sym, ppm_half_between. exact H.
      - assert (X := ppm_half_between nw W es (i + 1)%Z n H). replace (i + 1 - 1)%Z with i in X by lia. exact X.
      - unfold ppm_ends, clamped_ends. rewrite !clamp_id by assumption. destruct (monotonize _ _ _); reflexivity. }
    split; [rewrite E; apply monotonize_mono|]. split; [apply clamp_between|]. split; [apply clamp_between|].
    unfold W6, sixth, half. field.
Qed.

(** ** Passive scalars: with CTU the states at an interface still lie between the
    two adjacent cell values, if no characteristic crosses a cell in one step *)
Theorem C60_scalars_no_new_extrema : forall s hll nw k W vx es i n, s <> CtuPrim3 -> (nw <= n)%nat -> 0 <= k ->
  (forall j, k * ev_max nw es j <= 1 /\ - 1 <= k * ev_min es j /\ ev_min es j <= vx j <= ev_max nw es j) ->
  between (W (i - 1)%Z n) (W i n) (traced_left s hll nw k W vx es i n) /\
  between (W (i - 1)%Z n) (W i n) (traced_right s hll nw k W vx es i n).
Proof.
  intros s hll nw k W vx es i n SN N K C.
  assert (SS : scalar_source s nw n = n) by (destruct s; [reflexivity..|congruence]). unfold traced_left, traced_right, ctu_l, ctu_r. cbv zeta.
  replace (n <? nw)%nat with false by (symmetry; apply Nat.ltb_ge; exact N). split.
  - destruct (ctu_cell s nw W es (i - 1)%Z n SN N) as (l & r & E & M & _ & BR & SX). replace (i - 1 + 1)%Z with i in BR by lia.
    destruct (C (i - 1)%Z) as (C1 & C2 & C3). unfold base_l, scalar_l, dW. cbv zeta. rewrite SS, SX, E. cbn [fst snd].
    set (w := W (i - 1)%Z n) in *. set (vm := ev_max nw es (i - 1)%Z) in *. set (v := vx (i - 1)%Z) in *.
    assert (T : exists q, 0 <= q <= 1 / 2 /\
       r - half * MAX vm 0 * k * (r - l - (1 - four3 * (half * MAX vm 0 * k)) * sixth w l r) +
       (if Rlt_dec 0 v then (half * k * vm - half * k * v) * (r - l - sixth w l r) + four3 * (SQR (half * k * vm) - SQR (half * k * v)) * sixth w l r else 0)
       = r - q * ((r - l) - (1 - four3 * q) * sixth w l r)).
    { destruct (Rlt_dec 0 v).
      - exists (half * k * v). split; [unfold half; split; nra|]. rewrite MAX_l by lra. unfold SQR, half, four3. field.
      - exists (half * MAX vm 0 * k). split; [|ring]. unfold half, MAX. destruct (Rlt_dec 0 vm); split; nra. }
    destruct T as (q & Q & ->). assert (B := mono_mean w l r q M Q). apply between_cases in B, BR. apply between_cases. lra.
  - destruct (ctu_cell s nw W es i n SN N) as (l & r & E & M & BL & _ & SX).
    destruct (C i) as (C1 & C2 & C3). unfold base_r, scalar_r, dW. cbv zeta. rewrite SS, SX, E. cbn [fst snd].
    set (w := W i n) in *. set (vm := ev_min es i) in *. set (v := vx i) in *.
    assert (T : exists q, 0 <= q <= 1 / 2 /\
       l + - half * MIN vm 0 * k * (r - l + (1 - four3 * (- half * MIN vm 0 * k)) * sixth w l r) +
       (if Rlt_dec 0 v then 0 else if Rlt_dec v 0 then (half * k * vm - half * k * v) * (r - l + sixth w l r) + four3 * (SQR (half * k * vm) - SQR (half * k * v)) * sixth w l r else 0)
       = l + q * ((r - l) + (1 - four3 * q) * sixth w l r)).
    { destruct (Rlt_dec 0 v); [|destruct (Rlt_dec v 0)].
      - exists (- half * MIN vm 0 * k). split; [|ring]. unfold half, MIN. destruct (Rlt_dec vm 0); split; nra.
      - exists (- (half * k * v)). split; [unfold half; split; nra|]. rewrite MIN_l by lra. unfold SQR, half, four3. field.
      - exists (- half * MIN vm 0 * k). split; [|ring]. unfold half, MIN. destruct (Rlt_dec vm 0); split; nra. }
    destruct T as (q & Q & ->). assert (B := mono_mean_left w l r q M Q). apply between_cases in B, BL. apply between_cases. lra.
Qed.
Print Assumptions C60_scalars_no_new_extrema.

(** ** The waves: each is traced back along its own characteristic *)
Lemma along_plus nw e n f g : along nw e n f + along nw e n g = along nw e n (fun j => f j + g j).
Proof. unfold along. rewrite <- sum_plus. apply sum_ext. intros. ring. Qed.

Lemma ctu_sixth s nw W es i n : W6 (is_curved s) W (ctu_ends s nw W es) i n = sixth (W i n) (fst (ctu_ends s nw W es i n)) (snd (ctu_ends s nw W es i n)).
Proof.
  destruct s; cbn [ctu_ends is_curved]; unfold W6.
  - rewrite prim2_ends_eq. unfold sixth. cbn [fst snd]. field.
  - destruct (plm_shape nw W es i n) as (d & -> & _). unfold sixth. cbn [fst snd]. field.
  - unfold sixth, half. field.
  - unfold sixth, half. field.
Qed.

(** Amplitude of wave n in the profile of cell i averaged over the fraction of
    the cell next to its right (left) edge that a wave of speed c covers in dt. *)
Definition arriving_right (nw : nat) (k : R) (W : slice) (E : edges) (e : esystem) (i : Z) (n : nat) (c : R) : R :=
  along nw e n (fun j => mean_right (W i j) (fst (E i j)) (snd (E i j)) (k * c)).
Definition arriving_left (nw : nat) (k : R) (W : slice) (E : edges) (e : esystem) (i : Z) (n : nat) (c : R) : R :=
  along nw e n (fun j => mean_left (W i j) (fst (E i j)) (snd (E i j)) (- (k * c))).

(** The speed with which wave n is traced towards the right edge, by flux and scheme. *)
Definition speed_right (strict hll : bool) (top c : R) : R :=
  if Req_EM_T c 0 then if strict then top else if hll then - top else 0
  else if Rlt_dec 0 c then c else if hll then c else top.
Definition speed_left (strict hll : bool) (bot c : R) : R :=
  if Req_EM_T c 0 then if strict then bot else if hll then - bot else 0
  else if Rlt_dec c 0 then c else if hll then c else bot.

Lemma mr_k w l r k c : mean_right w l r (k * c) = r - (half * k * c) * ((r - l) - (1 - four3 * (half * k * c)) * sixth w l r).
Proof. rewrite <- mean_right_eq. f_equal. unfold half. field. Qed.
Lemma ml_k w l r k c : mean_left w l r (- (k * c)) = l - (half * k * c) * ((r - l) + (1 + four3 * (half * k * c)) * sixth w l r).
Proof. replace (- (k * c)) with (2 * (- (half * k * c))) by (unfold half; field). rewrite mean_left_eq. ring. Qed.

Theorem C60_tracing_right_edge : forall s hll nw k W vx es i m, (m < nw)%nat -> (is_curved s = true -> hll = false) ->
  complete nw (es i) -> 0 <= ev_max nw es i ->
  traced_left s hll nw k W vx es (i + 1)%Z m =
  sum nw (fun n => arriving_right nw k W (ctu_ends s nw W es) (es i) i n (speed_right (is_strict s) hll (ev_max nw es i) (ev (es i) n)) * rem (es i) m n).
Proof.
  intros s hll nw k W vx es i m M CV C P. unfold traced_left, ctu_l. cbv zeta. replace (i + 1 - 1)%Z with i by lia.
  replace (m <? nw)%nat with true by (symmetry; apply Nat.ltb_lt; exact M).
  set (E := ctu_ends s nw W es). set (cv := is_curved s). set (st := is_strict s).
  rewrite <- (project_back nw (es i) (fun j => base_l nw cv k W es E i j) m C M).
  unfold waves_l. rewrite <- sum_plus. apply sum_ext. intros n N.
  unfold arriving_right. set (c := ev (es i) n). set (top := ev_max nw es i) in *.
  assert (B : along nw (es i) n (fun j => base_l nw cv k W es E i j) =
              along nw (es i) n (fun j => mean_right (W i j) (fst (E i j)) (snd (E i j)) (k * top))).
  { apply along_ext. intros j J. rewrite mr_k. unfold base_l. cbv zeta. fold top. rewrite MAX_l by exact P.
    unfold cv, E. rewrite ctu_sixth. unfold dW. ring. }
  rewrite B. clear B.
  set (qx1 := half * k * top). set (qx2 := half * k * c).
  assert (FULL : along nw (es i) n (fun j => mean_right (W i j) (fst (E i j)) (snd (E i j)) (k * top)) * rem (es i) m n +
     along nw (es i) n (fun j => (qx1 - qx2) * (dW E i j - W6 cv W E i j) + four3 * (SQR qx1 - SQR qx2) * W6 cv W E i j) * rem (es i) m n =
     along nw (es i) n (fun j => mean_right (W i j) (fst (E i j)) (snd (E i j)) (k * c)) * rem (es i) m n).
  { rewrite <- Rmult_plus_distr_r, along_plus. f_equal. apply along_ext. intros j J. rewrite !mr_k. unfold cv, E. rewrite ctu_sixth. unfold dW, qx1, qx2, SQR. ring. }
  assert (HALF : hll = true -> along nw (es i) n (fun j => mean_right (W i j) (fst (E i j)) (snd (E i j)) (k * top)) * rem (es i) m n +
     along nw (es i) n (fun j => (qx1 - qx2) * dW E i j) * rem (es i) m n =
     along nw (es i) n (fun j => mean_right (W i j) (fst (E i j)) (snd (E i j)) (k * c)) * rem (es i) m n).
  { intros HH. rewrite <- Rmult_plus_distr_r, along_plus. f_equal. apply along_ext. intros j J. rewrite !mr_k.
    assert (Z : sixth (W i j) (fst (E i j)) (snd (E i j)) = 0).
    { unfold E. rewrite <- ctu_sixth. unfold W6. destruct (is_curved s) eqn:CC; [exfalso; rewrite (CV eq_refl) in HH; discriminate|reflexivity]. }
    rewrite Z. unfold dW, qx1, qx2. ring. }
  unfold speed_right, rightward, leftward. fold c.
  destruct (Req_EM_T c 0) as [Z|Z].
  - destruct st.
    + destruct (Rlt_dec 0 c); [lra|]. destruct (Rlt_dec c 0); [lra|]. destruct hll; ring.
    + destruct (Rle_dec 0 c); [|lra]. destruct (Rle_dec c 0); [|lra].
      destruct hll.
      * rewrite <- Rplus_assoc, FULL, <- Rmult_plus_distr_r, along_plus. f_equal. apply along_ext. intros j J. rewrite !mr_k.
        assert (ZZ : sixth (W i j) (fst (E i j)) (snd (E i j)) = 0).
        { unfold E. rewrite <- ctu_sixth. unfold W6. destruct (is_curved s) eqn:CC; [exfalso; discriminate (CV eq_refl)|reflexivity]. }
        rewrite ZZ. unfold dW, qx1, qx2. rewrite Z. ring.
      * rewrite Rplus_0_r, FULL, Z. reflexivity.
  - destruct (Rlt_dec 0 c) as [Q|Q].
    + assert (R1 : (if st then true else if Rle_dec 0 c then true else false) = true) by (destruct st; [|destruct (Rle_dec 0 c)]; [reflexivity|reflexivity|lra]).
      assert (R2 : (if st then if Rlt_dec c 0 then true else false else if Rle_dec c 0 then true else false) = false) by (destruct st; [destruct (Rlt_dec c 0)|destruct (Rle_dec c 0)]; lra || reflexivity).
      rewrite R1, R2. replace (if hll then _ else 0) with 0 by (destruct hll; reflexivity). rewrite Rplus_0_r. exact FULL.
    + assert (R1 : (if st then false else if Rle_dec 0 c then true else false) = false) by (destruct st; [|destruct (Rle_dec 0 c)]; lra || reflexivity).
      assert (R2 : (if st then if Rlt_dec c 0 then true else false else if Rle_dec c 0 then true else false) = true) by (destruct st; [destruct (Rlt_dec c 0)|destruct (Rle_dec c 0)]; lra || reflexivity).
      rewrite R1, R2, Rplus_0_l. destruct hll; [apply HALF; reflexivity|ring].
Qed.
Print Assumptions C60_tracing_right_edge.

Theorem C60_tracing_left_edge : forall s hll nw k W vx es i m, (m < nw)%nat -> (is_curved s = true -> hll = false) ->
  complete nw (es i) -> ev_min es i <= 0 ->
  traced_right s hll nw k W vx es i m =
  sum nw (fun n => arriving_left nw k W (ctu_ends s nw W es) (es i) i n (speed_left (is_strict s) hll (ev_min es i) (ev (es i) n)) * rem (es i) m n).
Proof.
  intros s hll nw k W vx es i m M CV C P. unfold traced_right, ctu_r. cbv zeta.
  replace (m <? nw)%nat with true by (symmetry; apply Nat.ltb_lt; exact M).
  set (E := ctu_ends s nw W es). set (cv := is_curved s). set (st := is_strict s).
  rewrite <- (project_back nw (es i) (fun j => base_r cv k W es E i j) m C M).
  unfold waves_r. rewrite <- sum_plus. apply sum_ext. intros n N.
  unfold arriving_left. set (c := ev (es i) n). set (bot := ev_min es i) in *.
  assert (B : along nw (es i) n (fun j => base_r cv k W es E i j) =
              along nw (es i) n (fun j => mean_left (W i j) (fst (E i j)) (snd (E i j)) (- (k * bot)))).
  { apply along_ext. intros j J. rewrite ml_k. unfold base_r. cbv zeta. fold bot. rewrite MIN_l by exact P.
    unfold cv, E. rewrite ctu_sixth. unfold dW. ring. }
  rewrite B. clear B.
  set (qx1 := half * k * bot). set (qx2 := half * k * c).
  assert (FULL : along nw (es i) n (fun j => mean_left (W i j) (fst (E i j)) (snd (E i j)) (- (k * bot))) * rem (es i) m n +
     along nw (es i) n (fun j => (qx1 - qx2) * (dW E i j + W6 cv W E i j) + four3 * (SQR qx1 - SQR qx2) * W6 cv W E i j) * rem (es i) m n =
     along nw (es i) n (fun j => mean_left (W i j) (fst (E i j)) (snd (E i j)) (- (k * c))) * rem (es i) m n).
  { rewrite <- Rmult_plus_distr_r, along_plus. f_equal. apply along_ext. intros j J. rewrite !ml_k. unfold cv, E. rewrite ctu_sixth. unfold dW, qx1, qx2, SQR. ring. }
  assert (HALF : hll = true -> along nw (es i) n (fun j => mean_left (W i j) (fst (E i j)) (snd (E i j)) (- (k * bot))) * rem (es i) m n +
     along nw (es i) n (fun j => (qx1 - qx2) * dW E i j) * rem (es i) m n =
     along nw (es i) n (fun j => mean_left (W i j) (fst (E i j)) (snd (E i j)) (- (k * c))) * rem (es i) m n).
  { intros HH. rewrite <- Rmult_plus_distr_r, along_plus. f_equal. apply along_ext. intros j J. rewrite !ml_k.
    assert (Z : sixth (W i j) (fst (E i j)) (snd (E i j)) = 0).
    { unfold E. rewrite <- ctu_sixth. unfold W6. destruct (is_curved s) eqn:CC; [exfalso; rewrite (CV eq_refl) in HH; discriminate|reflexivity]. }
    rewrite Z. unfold dW, qx1, qx2. ring. }
  unfold speed_left, rightward, leftward. fold c.
  destruct (Req_EM_T c 0) as [Z|Z].
  - destruct st.
    + destruct (Rlt_dec 0 c); [lra|]. destruct (Rlt_dec c 0); [lra|]. destruct hll; ring.
    + destruct (Rle_dec 0 c); [|lra]. destruct (Rle_dec c 0); [|lra].
      destruct hll.
      * rewrite <- Rplus_assoc, FULL, <- Rmult_plus_distr_r, along_plus. f_equal. apply along_ext. intros j J. rewrite !ml_k.
        assert (ZZ : sixth (W i j) (fst (E i j)) (snd (E i j)) = 0).
        { unfold E. rewrite <- ctu_sixth. unfold W6. destruct (is_curved s) eqn:CC; [exfalso; discriminate (CV eq_refl)|reflexivity]. }
        rewrite ZZ. unfold dW, qx1, qx2. rewrite Z. ring.
      * rewrite Rplus_0_r, FULL, Z. reflexivity.
  - destruct (Rlt_dec c 0) as [Q|Q].
    + assert (R1 : (if st then true else if Rle_dec c 0 then true else false) = true) by (destruct st; [|destruct (Rle_dec c 0)]; [reflexivity|reflexivity|lra]).
      assert (R2 : (if st then if Rlt_dec 0 c then true else false else if Rle_dec 0 c then true else false) = false) by (destruct st; [destruct (Rlt_dec 0 c)|destruct (Rle_dec 0 c)]; lra || reflexivity).
      rewrite R1, R2. replace (if hll then _ else 0) with 0 by (destruct hll; reflexivity). rewrite Rplus_0_r. exact FULL.
    + assert (R1 : (if st then false else if Rle_dec c 0 then true else false) = false) by (destruct st; [|destruct (Rle_dec c 0)]; lra || reflexivity).
      assert (R2 : (if st then if Rlt_dec 0 c then true else false else if Rle_dec 0 c then true else false) = true) by (destruct st; [destruct (Rlt_dec 0 c)|destruct (Rle_dec 0 c)]; lra || reflexivity).
      rewrite R1, R2, Rplus_0_l. destruct hll; [apply HALF; reflexivity|ring].
Qed.
Print Assumptions C60_tracing_left_edge.

(** ** A wave that stands still is traced wrongly with the HLL-type fluxes.
    A gas at rest with uniform pressure: the density at an interface leaves the
    range of the two adjacent cells. *)
Definition rest (i : Z) : state := fun n => match n with
  | O => if Z_le_dec i 0 then 1 else if Z.eq_dec i 1 then 2 else 5 / 2
  | 4%nat => 6 / 5 | _ => 0 end.
Definition rest_es (i : Z) : esystem := esys_prim_adb_hyd (rest i 0%nat) (rest i 1%nat) (5 / 3 * rest i 4%nat).

Lemma rest_ends n : (n < 5)%nat -> plm_ends 5 rest rest_es 1 n =
  match n with O => (5 / 3, 7 / 3) | _ => (rest 1 n, rest 1 n) end.
Proof.
  assert (D0 : rest 0 = fun n => match n with O => 1 | 4%nat => 6 / 5 | _ => 0 end) by (unfold rest; destruct (Z_le_dec 0 0); [reflexivity|lia]).
  assert (D1 : rest 1 = fun n => match n with O => 2 | 4%nat => 6 / 5 | _ => 0 end) by (unfold rest; destruct (Z_le_dec 1 0); [lia|]; reflexivity).
  assert (D2 : rest 2 = fun n => match n with O => 5 / 2 | 4%nat => 6 / 5 | _ => 0 end) by (unfold rest; destruct (Z_le_dec 2 0); [lia|]; reflexivity).
  assert (V1 : vl_diff (2 - 1) (5 / 2 - 2) = 2 / 3) by (unfold vl_diff; destruct (Rlt_dec _ _); [field|lra]).
  assert (V0 : forall x, vl_diff (x - x) (x - x) = 0) by (intros; unfold vl_diff; destruct (Rlt_dec _ _) as [q|q]; [exfalso; ring_simplify in q; lra|reflexivity]).
  assert (L0 : limited 0 0 0 0 = 0) by (unfold limited; destruct (Rlt_dec _ _) as [q|q]; [exfalso; lra|reflexivity]).
  assert (L1 : limited 1 (1 / 2) (3 / 2) (2 / 3) = 2 / 3).
  { unfold limited. destruct (Rlt_dec _ _); [|exfalso; lra]. rewrite !Rabs_right by lra. cbv zeta.
    rewrite (MIN_r 1 (1 / 2)) by lra. rewrite (MIN_r (half * (3 / 2)) (2 / 3)) by (unfold half; lra). rewrite MIN_r by lra. unfold SIGN. destruct (Rlt_dec _ _); lra. }
  assert (A : forall f, (forall j, (j < 5)%nat -> j <> O -> f j = 0) -> forall n, (n < 5)%nat ->
    along 5 (rest_es 1) n f = if Nat.eqb n 1 then f O else 0).
  { clear n. intros f F n N. assert (X1 := F 1%nat ltac:(lia) ltac:(lia)). assert (X2 := F 2%nat ltac:(lia) ltac:(lia)).
    assert (X3 := F 3%nat ltac:(lia) ltac:(lia)). assert (X4 := F 4%nat ltac:(lia) ltac:(lia)).
    unfold along, sum. cbn [seq fold_right]. rewrite X1, X2, X3, X4.
    destruct n as [|[|[|[|[|n]]]]]; [..|lia]; cbn; ring. }
  assert (DA : forall n, (n < 5)%nat -> chr_da 5 rest rest_es 1 n = if Nat.eqb n 1 then 2 / 3 else 0).
  { intros m M. unfold chr_da. cbv zeta. replace (m <? 5)%nat with true by (symmetry; apply Nat.ltb_lt; exact M).
    replace (1 + 1)%Z with 2%Z by lia. replace (1 - 1)%Z with 0%Z by lia. rewrite D0, D1, D2.
    rewrite !A by (exact M || (intros j J1 J2; destruct j as [|[|[|[|[|j]]]]]; try lia; rewrite ?V0; ring)).
    destruct (Nat.eqb m 1); [|exact L0]. rewrite V1, <- L1. f_equal; lra. }
  assert (SL : forall n, (n < 5)%nat -> chr_slope 5 rest rest_es 1 n = if Nat.eqb n 0 then 2 / 3 else 0).
  { intros m M. unfold chr_slope. replace (m <? 5)%nat with true by (symmetry; apply Nat.ltb_lt; exact M).
    unfold sum. cbn [seq fold_right]. rewrite !DA by lia. cbn [Nat.eqb].
    destruct m as [|[|[|[|[|m]]]]]; [..|lia]; cbn; ring. }
  intros N. unfold plm_ends. cbv zeta. rewrite (SL n N). replace (1 + 1)%Z with 2%Z by lia. replace (1 - 1)%Z with 0%Z by lia.
  rewrite D0, D1, D2.
  assert (BT : forall a b x, a <= x <= b -> clamp a b x = x) by (intros a b x HX; apply clamp_id, between_cases; left; lra).
  assert (BS : forall a b x, b <= x <= a -> clamp a b x = x) by (intros a b x HX; apply clamp_id, between_cases; right; lra).
  destruct n as [|[|[|[|[|n]]]]]; [..|lia]; cbn [Nat.eqb]; unfold half.
  - rewrite (BS 2 1) by lra. rewrite (BT 2 (5 / 2)) by lra. f_equal; lra.
  - match goal with |- context [clamp ?a ?a (?a - ?y)] => rewrite (BS a a (a - y)) by lra end. rewrite BT by lra. f_equal; lra.
  - match goal with |- context [clamp ?a ?a (?a - ?y)] => rewrite (BS a a (a - y)) by lra end. rewrite BT by lra. f_equal; lra.
  - match goal with |- context [clamp ?a ?a (?a - ?y)] => rewrite (BS a a (a - y)) by lra end. rewrite BT by lra. f_equal; lra.
  - match goal with |- context [clamp ?a ?a (?a - ?y)] => rewrite (BS a a (a - y)) by lra end. rewrite BT by lra. f_equal; lra.
Qed.

Lemma rest_complete i : complete 5 (rest_es i).
Proof.
  assert (P : 0 < rest i 0%nat) by (unfold rest; destruct (Z_le_dec i 0); [lra|]; destruct (Z.eq_dec i 1); lra).
  assert (Q : rest i 4%nat = 6 / 5) by reflexivity.
  apply C59_adb_hydro; [exact P|rewrite Q; lra].
Qed.

Theorem C60_static_wave_refuted : exists (W : slice) (es : Z -> esystem) (k : R) (i : Z),
  (forall j, es j = esys_prim_adb_hyd (W j 0%nat) (W j 1%nat) (5 / 3 * W j 4%nat)) /\ (forall j, 0 < W j 0%nat /\ W j 1%nat = 0 /\ W j 4%nat = 6 / 5) /\ 0 < k /\ (forall j, k * ev_max 5 es j <= 1 /\ -1 <= k * ev_min es j) /\ ~ between (W (i - 1)%Z 0%nat) (W i 0%nat) (traced_left CtuPlm true 5 k W (fun j => W j 1%nat) es i 0%nat).
Proof.
  assert (SQ : forall j, 0 < sqrt (5 / 3 * (6 / 5) / rest j 0%nat) <= 3 / 2).
  { intros j. assert (B : 1 <= rest j 0%nat <= 5 / 2) by (unfold rest; destruct (Z_le_dec j 0); [lra|]; destruct (Z.eq_dec j 1); lra).
    assert (C : 4 / 5 <= 5 / 3 * (6 / 5) / rest j 0%nat <= 2).
    { split; apply Rmult_le_reg_r with (rest j 0%nat); try lra; unfold Rdiv at 1 3 || idtac; unfold Rdiv; rewrite ?Rmult_assoc, ?(Rinv_l (rest j 0%nat)) by lra; lra. }
    split; [apply sqrt_lt_R0; lra|]. rewrite <- (sqrt_square (3 / 2)) by lra. apply sqrt_le_1; lra. }
  exists rest, rest_es, (2 / 3), 2%Z.
  split; [reflexivity|]. split.
  { intros j. split; [|split; reflexivity]. unfold rest; destruct (Z_le_dec j 0); [lra|]; destruct (Z.eq_dec j 1); lra. }
  split; [lra|]. split.
  { intros j. specialize (SQ j). unfold ev_max, ev_min, rest_es, esys_prim_adb_hyd. cbn [ev Nat.sub nth].
    change (rest j 1%nat) with 0. change (rest j 4%nat) with (6 / 5). lra. }
  change 2%Z with (1 + 1)%Z at 2. replace (1 + 1)%Z with 2%Z by lia.
  assert (D1 : rest 1 0%nat = 2) by (unfold rest; destruct (Z_le_dec 1 0); [lia|]; reflexivity).
  assert (D2 : rest 2 0%nat = 5 / 2) by (unfold rest; destruct (Z_le_dec 2 0); [lia|]; reflexivity).
  assert (AS : sqrt (5 / 3 * (6 / 5) / 2) = 1) by (replace (5 / 3 * (6 / 5) / 2) with 1 by field; apply sqrt_1).
  assert (EVM : ev_max 5 rest_es 1 = 1). { unfold ev_max, rest_es, esys_prim_adb_hyd. cbn [ev Nat.sub nth]. rewrite D1. change (rest 1 1%nat) with 0. change (rest 1 4%nat) with (6 / 5). rewrite AS. ring. }
  assert (EV : forall n, (n < 5)%nat -> ev (rest_es 1) n = match n with O => -1 | 4%nat => 1 | _ => 0 end).
  { intros n N. unfold rest_es, esys_prim_adb_hyd. cbn [ev]. rewrite D1. change (rest 1 1%nat) with 0. change (rest 1 4%nat) with (6 / 5). rewrite AS.
    destruct n as [|[|[|[|[|n]]]]]; [..|lia]; cbn [nth]; ring. }
  assert (T := C60_tracing_right_edge CtuPlm true 5 (2 / 3) rest (fun j => rest j 1%nat) rest_es 1 0 ltac:(lia) ltac:(discriminate) (rest_complete 1) ltac:(rewrite EVM; lra)).
  replace (1 + 1)%Z with 2%Z in T by lia. rewrite T. clear T.
  replace (2 - 1)%Z with 1%Z by lia. rewrite D1, D2.
  match goal with |- ~ between _ _ ?x => assert (V : x = 23 / 9) end.
  { unfold sum. cbn [seq fold_right]. unfold arriving_right, along, sum. cbn [seq fold_right ctu_ends is_strict].
    rewrite EVM, !EV by lia. rewrite !rest_ends by lia. cbn [fst snd].
    unfold speed_right. destruct (Req_EM_T (-1) 0); [lra|]. destruct (Req_EM_T 0 0); [|lra]. destruct (Req_EM_T 1 0); [lra|].
    destruct (Rlt_dec 0 (-1)); [lra|]. destruct (Rlt_dec 0 1); [|lra].
    rewrite !mr_k. unfold sixth, half, four3. rewrite D1. unfold rest_es, esys_prim_adb_hyd, mat. cbn [lem rem nth].
    rewrite D1. change (rest 1 1%nat) with 0. change (rest 1 2%nat) with 0. change (rest 1 3%nat) with 0. change (rest 1 4%nat) with (6 / 5). rewrite AS. unfold half. field. }
  rewrite V. unfold between. rewrite Rmin_left, Rmax_right by lra. lra.
Qed.
Print Assumptions C60_static_wave_refuted.

(** ** lr_states_prim3.c: a uniform second scalar does not stay uniform *)
Theorem C60_prim3_scalars_refuted : exists (W : slice) (vx : Z -> R) (es : Z -> esystem) (k : R),
  0 < k /\ (forall j, k * ev_max 4 es j <= 1 /\ -1 <= k * ev_min es j /\ ev_min es j <= vx j <= ev_max 4 es j /\ vx j = W j 1%nat) /\
  (forall j, es j = esys_prim_iso_hyd 1 (W j 0%nat) (W j 1%nat)) /\ (forall j, W j 5%nat = 1) /\
  exists i, traced_left CtuPrim3 false 4 k W vx es i 5%nat <> 1.
Proof.
  exists (fun j n => match n with O => 1 | 1%nat => / 2 | 4%nat => IZR j | 5%nat => 1 | _ => 0 end), (fun _ => / 2), (fun _ => esys_prim_iso_hyd 1 1 (/ 2)), (1 / 2).
  split; [lra|]. split; [intros j; unfold ev_max, ev_min, esys_prim_iso_hyd; cbn [ev nth Nat.sub]; lra|].
  split; [reflexivity|]. split; [reflexivity|]. exists 1%Z.
  set (W := fun (j : Z) (n : nat) => match n with O => 1 | 1%nat => / 2 | 4%nat => IZR j | 5%nat => 1 | _ => 0 end).
  assert (LW : linear W).
  { intros n. destruct n as [|[|[|[|[|[|n]]]]]]; [exists 1, 0|exists (/ 2), 0|exists 0, 0|exists 0, 0|exists 0, 1|exists 1, 0|exists 0, 0]; intros; unfold W; ring. }
  assert (EL : forall n, snd (prim3_ends W 0%Z n) = (W 0%Z n + W 1%Z n) / 2 /\ fst (prim3_ends W 0%Z n) = (W (-1)%Z n + W 0%Z n) / 2).
  { intros n. destruct (C58_linear_exact Prim3 W 1 n eq_refl I LW) as [A _]. destruct (C58_linear_exact Prim3 W 0 n eq_refl I LW) as [_ B].
    unfold left_state, right_state, vl_l, vl_r, ends in A, B. replace (1 - 1)%Z with 0%Z in A by lia. replace (0 - 1)%Z with (-1)%Z in B by lia. split; assumption. }
  unfold traced_left, ctu_l. cbv zeta. replace (1 - 1)%Z with 0%Z by lia. cbn [Nat.ltb Nat.leb].
  unfold base_l, scalar_l, dW, W6, ev_max. cbn [is_curved is_strict scalar_source ctu_ends]. cbv zeta.
  destruct (EL 4%nat) as [-> ->]. destruct (EL 5%nat) as [-> ->].
  unfold W, esys_prim_iso_hyd. cbn [ev nth Nat.sub]. rewrite MAX_l by lra. destruct (Rlt_dec 0 (/ 2)); [|lra].
  unfold half, four3, SQR. lra.
Qed.
Print Assumptions C60_prim3_scalars_refuted.

(** The hypotheses of the tracing theorems are met by a moving gas: d = 1, P = 3/5, v = 1/2, a = 1. *)
Example C60_witness : let e := esys_prim_adb_hyd 1 (/ 2) (5 / 3 * (3 / 5)) in
  complete 5 e /\ 0 <= ev_max 5 (fun _ => e) 0 /\ ev_min (fun _ => e) 0 <= 0 /\
  1 / 2 * ev_max 5 (fun _ => e) 0 <= 1 /\ -1 <= 1 / 2 * ev_min (fun _ => e) 0 /\ ev_min (fun _ => e) 0 <= / 2 <= ev_max 5 (fun _ => e) 0.
Proof.
  intros e. split; [apply C59_adb_hydro; lra|]. unfold ev_max, ev_min, e, esys_prim_adb_hyd. cbn [ev nth Nat.sub].
  replace (5 / 3 * (3 / 5) / 1) with 1 by field. rewrite sqrt_1. lra.
Qed.
