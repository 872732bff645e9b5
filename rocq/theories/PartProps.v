(** Property C51: particle interpolation. *)
From Coq Require Import ZArith Bool Reals Lra Lia ZifyBool List.
From Verif Require Import CStr MeshModel PosModel PosProps GasModel ConvProps IntegModel IntegSpec IntegFacts PartModel PartSort.
From Verif Require UtilModel MeshProps.
Import MeshProps (bind_ok).
Import UtilModel (upd, fori, for_up).
Import ListNotations.
Open Scope R_scope.

(** ** Vocabulary *)

(** Sum over the cells of the stencil, which starts at cell (is,js,ks), of weight times field. *)
Definition interpolate (m : interp) (W : weights) (F : cells R) : R :=
  let '(w, is, js, ks) := W in
  sumZ 0 (ncell m - 1) (fun k => sumZ 0 (ncell m - 1) (fun j => sumZ 0 (ncell m - 1) (fun i =>
    w k j i * F (ks + k)%Z (js + j)%Z (is + i)%Z))).
(** Degree of the polynomials each scheme reproduces. *)
Definition poly (m : interp) (p : R -> R) : Prop :=
  exists a b c, (forall x, p x = a + b * x + c * (x * x)) /\ (m <> QP -> c = 0).
Definition used (Nx : axis -> Z) (ax : axis) : Prop := (1 < Nx ax)%Z.
(** The position is not left of the array (element 0 is the first ghost zone). *)
Definition in_array (Nx : axis -> Z) (pG : pgrid) (x : v3) : Prop := forall ax, used Nx ax -> face pG ax 0 <= coord ax x.

(** ** One axis *)
Definition axis_w (m : interp) := match m with Linear => lin_axis | TSC => tsc_axis | QP => qp_axis end.
Lemma sum2 : forall f, sumZ 0 1 f = f 0%Z + f 1%Z.
Proof. intros. rewrite !sumZ_last, sumZ_empty by lia. cbn [Z.sub Z.add Z.opp Z.pos_sub Pos.pred_double]. ring. Qed.
Lemma sum3 : forall f, sumZ 0 2 f = f 0%Z + f 1%Z + f 2%Z.
Proof. intros. rewrite sumZ_last, <- sum2 by lia. reflexivity. Qed.

Lemma getweight_inv : forall m pG x c1 w0 W, getweight m pG x c1 w0 = Ok W ->
  exists w is js ks w1 w2 w3, W = (w, is, js, ks) /\
    axis_w m celli (p_s pG X1) pG (q1 x) (q1 c1) = Ok (is, w1) /\
    axis_w m cellj (p_s pG X2) pG (q2 x) (q2 c1) = Ok (js, w2) /\
    axis_w m cellk (p_s pG X3) pG (q3 x) (q3 c1) = Ok (ks, w3) /\
    (forall k j i, (0 <= k <= ncell m - 1)%Z -> (0 <= j <= ncell m - 1)%Z -> (0 <= i <= ncell m - 1)%Z -> w k j i = w1 i * w2 j * w3 k).
Proof.
  intros m pG x c1 w0 W H. destruct m; cbn [getweight] in H; unfold getwei_linear, getwei_TSC, getwei_QP in H;
  apply bind_ok in H; destruct H as ([is w1] & E1 & H); apply bind_ok in H; destruct H as ([js w2] & E2 & H);
  apply bind_ok in H; destruct H as ([ks w3] & E3 & H); injection H as <-;
  (eexists; exists is, js, ks, w1, w2, w3; split; [reflexivity|]; split; [exact E1|]; split; [exact E2|]; split; [exact E3|]);
  intros k j i Hk Hj Hi; cbn in Hk, Hj, Hi; unfold loop3, within;
  rewrite (proj2 (Z.leb_le 0 k)), (proj2 (Z.leb_le k _)), (proj2 (Z.leb_le 0 j)), (proj2 (Z.leb_le j _)), (proj2 (Z.leb_le 0 i)), (proj2 (Z.leb_le i _)) by lia; reflexivity.
Qed.
Lemma axis_sum : forall m cell s pG x c1 i0 w, axis_w m cell s pG x c1 = Ok (i0, w) -> sumZ 0 (ncell m - 1) w = 1.
Proof.
  intros m cell s pG x c1 i0 w H. destruct m; cbn [axis_w] in H; unfold lin_axis, tsc_axis, qp_axis in H;
  (destruct (Rlt_dec 0 c1); [apply bind_ok in H; destruct H as ([[a b] c] & _ & H)|]); injection H as <- <-; cbn [ncell];
  change (2 - 1)%Z with 1%Z; change (3 - 1)%Z with 2%Z; rewrite ?sum2, ?sum3; cbn [Z.eqb Pos.eqb]; unfold SQR; field.
Qed.
Lemma cell_coord : forall ax pG x c1 i a h, cell_of ax pG x c1 = Ok (i, a, h) ->
  a = (x - p_MinX pG ax) * c1 + IZR (p_s pG ax).
Proof.
  intros ax pG x c1 i a h H. destruct ax; cbn [cell_of] in H; unfold celli, cellj, cellk in H; apply bind_ok in H; destruct H as (z & _ & H);
  injection H as _ <- _; reflexivity.
Qed.
Lemma middle_eq : forall pG ax i, middle pG ax i = p_MinX pG ax + (IZR i - IZR (p_s pG ax) + 1/2) * p_dx pG ax.
Proof. intros. unfold middle, face. rewrite !minus_IZR, plus_IZR. field. Qed.
Lemma axis_exact : forall m ax pG x i0 w p, 0 < p_dx pG ax -> axis_w m (cell_of ax) (p_s pG ax) pG x (1 / p_dx pG ax) = Ok (i0, w) -> poly m p ->
  sumZ 0 (ncell m - 1) (fun n => w n * p (middle pG ax (i0 + n))) = p x.
Proof.
  intros m ax pG x i0 w p D H (a & b & c & P & C). rewrite P.
  assert (C1 : 0 < 1 / p_dx pG ax) by (apply Rdiv_lt_0_compat; lra).
  destruct m; cbn [axis_w] in H; unfold lin_axis, tsc_axis, qp_axis in H;
  (destruct (Rlt_dec 0 (1 / p_dx pG ax)); [|contradiction]; apply bind_ok in H; destruct H as ([[i g] h] & E & H)); injection H as <- <-; cbn [ncell];
  change (2 - 1)%Z with 1%Z; change (3 - 1)%Z with 2%Z; apply cell_coord in E;
  assert (X : x = p_MinX pG ax + (g - IZR (p_s pG ax)) * p_dx pG ax) by (rewrite E; field; lra); clear E; rewrite X; clear X;
  rewrite ?sum2, ?sum3; cbn [Z.eqb Pos.eqb]; rewrite !P, !middle_eq, !plus_IZR, ?minus_IZR, ?plus_IZR; unfold SQR.
  - rewrite (C ltac:(discriminate)). field.
  - rewrite (C ltac:(discriminate)). field.
  - field.
Qed.
Lemma axis_nonneg : forall m ax pG x i0 w n, m <> QP -> 0 < p_dx pG ax -> face pG ax 0 <= x ->
  axis_w m (cell_of ax) (p_s pG ax) pG x (1 / p_dx pG ax) = Ok (i0, w) -> (0 <= n <= ncell m - 1)%Z -> 0 <= w n.
Proof.
  intros m ax pG x i0 w n M D F H N.
  assert (C1 : 0 < 1 / p_dx pG ax) by (apply Rdiv_lt_0_compat; lra).
  destruct m; try congruence; cbn [axis_w] in H; unfold lin_axis, tsc_axis in H;
  (destruct (Rlt_dec 0 (1 / p_dx pG ax)); [|contradiction]; apply bind_ok in H; destruct H as ([[i g] h] & E & H)); injection H as <- <-; cbn [ncell] in N;
  destruct (C30_cell_contains_position pG ax x i g h D F E) as (B1 & B2 & B3 & B4 & B5).
  - assert (Hh : h = 0%Z \/ h = 1%Z).
    { destruct ax; cbn [cell_of] in E; unfold celli, cellj, cellk in E; apply bind_ok in E; destruct E as (z & _ & E); injection E as _ _ <-; destruct (Rlt_dec _ _); auto. }
    assert (HX : (h = 0%Z -> g - IZR i < 1/2) /\ (h = 1%Z -> 1/2 <= g - IZR i)).
    { destruct ax; cbn [cell_of] in E; unfold celli, cellj, cellk in E; apply bind_ok in E; destruct E as (z & _ & E); injection E as -> -> <-; destruct (Rlt_dec _ _); split; intros; try discriminate; lra. }
    rewrite minus_IZR, plus_IZR. assert (n = 0 \/ n = 1)%Z as [-> | ->] by lia; cbn [Z.eqb Pos.eqb]; destruct Hh as [-> | ->]; cbn [IZR IPR] in *; destruct HX as [HX1 HX2];
    try specialize (HX1 eq_refl); try specialize (HX2 eq_refl); lra.
  - assert (n = 0 \/ n = 1 \/ n = 2)%Z as [-> | [-> | ->]] by lia; cbn [Z.eqb Pos.eqb]; unfold SQR; nra.
Qed.
Lemma axis_collapsed : forall m cell s pG x i0 w, axis_w m cell s pG x 0 = Ok (i0, w) -> i0 = s /\ forall n, w n = if (n =? 0)%Z then 1 else 0.
Proof.
  intros m cell s pG x i0 w H. destruct m; cbn [axis_w] in H; unfold lin_axis, tsc_axis, qp_axis in H;
  (destruct (Rlt_dec 0 0); [lra|]); injection H as <- <-; auto.
Qed.
(** The stencil surrounds the position. *)
Lemma axis_stencil : forall m ax pG x i0 w, 0 < p_dx pG ax -> face pG ax 0 <= x ->
  axis_w m (cell_of ax) (p_s pG ax) pG x (1 / p_dx pG ax) = Ok (i0, w) ->
  match m with
  | Linear => middle pG ax i0 <= x < middle pG ax (i0 + 1)
  | _ => face pG ax (i0 + 1) <= x < face pG ax (i0 + 2)
  end.
Proof.
  intros m ax pG x i0 w D F H.
  assert (C1 : 0 < 1 / p_dx pG ax) by (apply Rdiv_lt_0_compat; lra).
  destruct m; cbn [axis_w] in H; unfold lin_axis, tsc_axis, qp_axis in H;
  (destruct (Rlt_dec 0 (1 / p_dx pG ax)); [|contradiction]; apply bind_ok in H; destruct H as ([[i g] h] & E & H)); injection H as <- <-;
  destruct (C30_cell_contains_position pG ax x i g h D F E) as (B1 & B2 & B3 & B4 & B5).
  - assert (Hh : h = 0%Z \/ h = 1%Z).
    { destruct ax; cbn [cell_of] in E; unfold celli, cellj, cellk in E; apply bind_ok in E; destruct E as (z & _ & E); injection E as _ _ <-; destruct (Rlt_dec _ _); auto. }
    rewrite face_step in B1. destruct Hh as [-> | ->].
    + assert (Q := proj1 B4 eq_refl). rewrite !middle_eq in *. unfold face in B1. rewrite minus_IZR in B1. rewrite !plus_IZR, minus_IZR, plus_IZR. lra.
    + assert (Q := proj1 B5 eq_refl). rewrite !middle_eq in *. unfold face in B1. rewrite minus_IZR in B1. rewrite !plus_IZR, minus_IZR, plus_IZR. lra.
  - replace (i - 1 + 1)%Z with i by lia. replace (i - 1 + 2)%Z with (i + 1)%Z by lia. auto.
  - replace (i - 1 + 1)%Z with i by lia. replace (i - 1 + 2)%Z with (i + 1)%Z by lia. auto.
Qed.

(** ** Three axes *)
Lemma sum_prod : forall u (f g h : Z -> R),
  sumZ 0 u (fun k => sumZ 0 u (fun j => sumZ 0 u (fun i => f i * g j * h k))) = sumZ 0 u f * sumZ 0 u g * sumZ 0 u h.
Proof.
  intros u f g h. transitivity (sumZ 0 u (fun k => sumZ 0 u f * sumZ 0 u g * h k)).
  - apply sumZ_ext. intros k _. transitivity (sumZ 0 u (fun j => (sumZ 0 u f * h k) * g j)).
    + apply sumZ_ext. intros j _. transitivity (sumZ 0 u (fun i => (g j * h k) * f i)); [apply sumZ_ext; intros; ring|]. rewrite sumZ_scal. ring.
    + rewrite sumZ_scal. ring.
  - rewrite sumZ_scal. ring.
Qed.
Lemma interpolate_prod : forall m w is js ks w1 w2 w3 F p1 p2 p3,
  (forall k j i, (0 <= k <= ncell m - 1)%Z -> (0 <= j <= ncell m - 1)%Z -> (0 <= i <= ncell m - 1)%Z -> w k j i = w1 i * w2 j * w3 k) ->
  (forall k j i, F k j i = p1 i * p2 j * p3 k) ->
  interpolate m (w, is, js, ks) F = sumZ 0 (ncell m - 1) (fun i => w1 i * p1 (is + i)%Z) * sumZ 0 (ncell m - 1) (fun j => w2 j * p2 (js + j)%Z) *
    sumZ 0 (ncell m - 1) (fun k => w3 k * p3 (ks + k)%Z).
Proof.
  intros. unfold interpolate. rewrite <- sum_prod. apply sumZ_ext; intros k Hk. apply sumZ_ext; intros j Hj. apply sumZ_ext; intros i Hi.
  rewrite H, H0 by auto. ring.
Qed.
Lemma cell1_axis : forall Nx pG ax, coord ax (cell1_of Nx pG) = if (Nx ax >? 1)%Z then 1 / p_dx pG ax else 0.
Proof. intros Nx pG []; reflexivity. Qed.

(** *** C51 *)
Theorem C51_sum_is_one : forall m pG x c1 w0 W, getweight m pG x c1 w0 = Ok W -> interpolate m W (fun _ _ _ => 1) = 1.
Proof.
  intros m pG x c1 w0 W H. apply getweight_inv in H. destruct H as (w & is & js & ks & w1 & w2 & w3 & -> & E1 & E2 & E3 & V).
  rewrite (interpolate_prod m w is js ks w1 w2 w3 _ (fun _ => 1) (fun _ => 1) (fun _ => 1) V) by (intros; ring).
  rewrite !(sumZ_ext _ _ (fun i => _ i * 1) _ (fun i _ => Rmult_1_r _)).
  rewrite (axis_sum _ _ _ _ _ _ _ _ E1), (axis_sum _ _ _ _ _ _ _ _ E2), (axis_sum _ _ _ _ _ _ _ _ E3). ring.
Qed.
Print Assumptions C51_sum_is_one.

Theorem C51_non_negative : forall m Nx pG x w0 w is js ks k j i, m <> QP -> (forall ax, 0 < p_dx pG ax) -> in_array Nx pG x ->
  getweight m pG x (cell1_of Nx pG) w0 = Ok (w, is, js, ks) ->
  (0 <= k < ncell m)%Z -> (0 <= j < ncell m)%Z -> (0 <= i < ncell m)%Z -> 0 <= w k j i.
Proof.
  intros m Nx pG x w0 w is js ks k j i M D A H K J I. apply getweight_inv in H. destruct H as (w' & is' & js' & ks' & w1 & w2 & w3 & E & E1 & E2 & E3 & V).
  injection E as <- <- <- <-. rewrite V by lia.
  assert (G : forall ax i0 ww n, axis_w m (cell_of ax) (p_s pG ax) pG (coord ax x) (coord ax (cell1_of Nx pG)) = Ok (i0, ww) -> (0 <= n <= ncell m - 1)%Z -> 0 <= ww n).
  { intros ax i0 ww n E N. rewrite cell1_axis in E. destruct (Nx ax >? 1)%Z eqn:U.
    - eapply axis_nonneg; eauto. apply A. unfold used. lia.
    - apply axis_collapsed in E. destruct E as [_ E]. rewrite E. destruct (n =? 0)%Z; lra. }
  apply Rmult_le_pos; [apply Rmult_le_pos|]; [apply (G X1 is w1)|apply (G X2 js w2)|apply (G X3 ks w3)]; auto; lia.
Qed.
Print Assumptions C51_non_negative.

(** Products of polynomials of the positions of the cell centres (constant along axes with one cell): linear ones are
    reproduced by every scheme, quadratic ones by QP. *)
Theorem C51_polynomials : forall m Nx pG x w0 W (p : axis -> R -> R), (forall ax, 0 < p_dx pG ax) ->
  (forall ax, used Nx ax -> poly m (p ax)) -> (forall ax, ~ used Nx ax -> forall y z, p ax y = p ax z) ->
  getweight m pG x (cell1_of Nx pG) w0 = Ok W ->
  interpolate m W (fun k j i => p X1 (middle pG X1 i) * p X2 (middle pG X2 j) * p X3 (middle pG X3 k)) =
  p X1 (q1 x) * p X2 (q2 x) * p X3 (q3 x).
Proof.
  intros m Nx pG x w0 W p D P Q H. apply getweight_inv in H. destruct H as (w & is & js & ks & w1 & w2 & w3 & -> & E1 & E2 & E3 & V).
  rewrite (interpolate_prod m w is js ks w1 w2 w3 _ (fun i => p X1 (middle pG X1 i)) (fun i => p X2 (middle pG X2 i)) (fun i => p X3 (middle pG X3 i)) V) by reflexivity.
  assert (G : forall ax i0 ww, axis_w m (cell_of ax) (p_s pG ax) pG (coord ax x) (coord ax (cell1_of Nx pG)) = Ok (i0, ww) ->
    sumZ 0 (ncell m - 1) (fun i => ww i * p ax (middle pG ax (i0 + i))) = p ax (coord ax x)).
  { intros ax i0 ww E. pose proof E as E0. rewrite cell1_axis in E. destruct (Nx ax >? 1)%Z eqn:U.
    - apply axis_exact; auto. apply P. unfold used. lia.
    - transitivity (p ax (coord ax x) * sumZ 0 (ncell m - 1) ww); [|rewrite (axis_sum _ _ _ _ _ _ _ _ E0); ring].
      rewrite <- sumZ_scal. apply sumZ_ext. intros n _. rewrite (Q ax ltac:(unfold used; lia) _ (coord ax x)). ring. }
  rewrite (G X1 is w1 E1), (G X2 js w2 E2), (G X3 ks w3 E3). reflexivity.
Qed.
Print Assumptions C51_polynomials.

(** The cells used surround the position. *)
Theorem C51_stencil : forall m Nx pG x w0 w is js ks ax, (forall ax, 0 < p_dx pG ax) -> in_array Nx pG x ->
  getweight m pG x (cell1_of Nx pG) w0 = Ok (w, is, js, ks) -> used Nx ax ->
  let i0 := match ax with X1 => is | X2 => js | X3 => ks end in
  match m with
  | Linear => middle pG ax i0 <= coord ax x < middle pG ax (i0 + 1)
  | _ => face pG ax (i0 + 1) <= coord ax x < face pG ax (i0 + 2)
  end.
Proof.
  intros m Nx pG x w0 w is js ks ax D A H U. apply getweight_inv in H. destruct H as (w' & is' & js' & ks' & w1 & w2 & w3 & E & E1 & E2 & E3 & V).
  injection E as <- <- <- <-. cbv zeta.
  assert (G : forall i0 ww, axis_w m (cell_of ax) (p_s pG ax) pG (coord ax x) (coord ax (cell1_of Nx pG)) = Ok (i0, ww) ->
    match m with Linear => middle pG ax i0 <= coord ax x < middle pG ax (i0 + 1) | _ => face pG ax (i0 + 1) <= coord ax x < face pG ax (i0 + 2) end).
  { intros i0 ww E. rewrite cell1_axis in E. unfold used in U. rewrite (proj2 (Z.gtb_lt _ _)) in E by lia. eapply axis_stencil; eauto. }
  destruct ax; eapply G; eauto.
Qed.
Print Assumptions C51_stencil.

(** *** getvalues *)
Lemma for_up_sum : forall {S} (pi : S -> R) body g, (forall i st, pi (body i st) = pi st + g i) ->
  forall n i st, pi (for_up i n body st) = pi st + sumZ i (i + Z.of_nat n - 1) g.
Proof.
  intros S pi body g H. induction n as [|n IH]; intros i st.
  - cbn [for_up]. rewrite sumZ_empty by lia. ring.
  - cbn [for_up]. rewrite IH, H. replace (i + 1 + Z.of_nat n - 1)%Z with (i + Z.of_nat (Datatypes.S n) - 1)%Z by lia.
    assert (F : sumZ i (i + Z.of_nat (Datatypes.S n) - 1) g = g i + sumZ (i + 1) (i + Z.of_nat (Datatypes.S n) - 1) g).
    { unfold sumZ. replace (Z.to_nat (i + Z.of_nat (Datatypes.S n) - 1 - i + 1)) with (Datatypes.S n) by lia.
      replace (Z.to_nat (i + Z.of_nat (Datatypes.S n) - 1 - (i + 1) + 1)) with n by lia. cbn [seq map fold_right]. f_equal; [rewrite Z.add_0_r; reflexivity|].
      f_equal. rewrite <- seq_shift, map_map. apply map_ext. intros. f_equal. lia. }
    rewrite F. ring.
Qed.
Lemma fori_sum : forall {S} (pi : S -> R) body g lo hi st, (forall i st, pi (body i st) = pi st + g i) ->
  pi (fori lo hi body st) = pi st + sumZ lo (hi - 1) g.
Proof.
  intros S pi body g lo hi st H. unfold fori. rewrite (for_up_sum pi body g H). destruct (Z_le_gt_dec lo hi).
  - f_equal. f_equal. lia.
  - rewrite !sumZ_empty by lia. auto.
Qed.
(** shift of the summation index *)
Lemma sumZ_shift : forall l u d f, sumZ (l + d) (u + d) f = sumZ l u (fun i => f (i + d)%Z).
Proof.
  intros. unfold sumZ. replace (u + d - (l + d) + 1)%Z with (u - l + 1)%Z by ring. f_equal. apply map_ext. intros. f_equal. lia.
Qed.
(** Weighted sum over the cells that are inside the limits; the array of weights is read from its first element
    at the first such cell. *)
Definition clipped (L : plim) (m : interp) (W : weights) (F : cells R) : R :=
  let '(w, is, js, ks) := W in
  let lo ax s := Z.max s (l_lo L ax) in let hi ax s := Z.min (s + (ncell m - 1)) (l_up L ax) in
  sumZ (lo X3 ks) (hi X3 ks) (fun k => sumZ (lo X2 js) (hi X2 js) (fun j => sumZ (lo X1 is) (hi X1 is) (fun i =>
    w (k - lo X3 ks)%Z (j - lo X2 js)%Z (i - lo X1 is)%Z * F k j i))).
Lemma getvalues_eq : forall iso L m Coup W,
  getvalues iso L m Coup W =
  let s F := clipped L m W (fun k j i => F (Coup k j i)) in
  let t := 1 / s (fun _ => 1) in
  if Rlt_dec (s (fun _ => 1)) TINY_NUMBER then None
  else Some (Vals (s gd * t) (V3 (s (fun q => q1 (gv q)) * t) (s (fun q => q2 (gv q)) * t) (s (fun q => q3 (gv q)) * t))
    (match iso with Some cs => cs | None => s gcs * t end) (s FBstiff * t)).
Proof.
  intros iso L m Coup [[[w is] js] ks]. unfold getvalues, clipped. cbv zeta.
  set (i1 := Z.max is (l_lo L X1)). set (j1 := Z.max js (l_lo L X2)). set (k1 := Z.max ks (l_lo L X3)).
  set (i2 := Z.min (is + (ncell m - 1)) (l_up L X1)). set (j2 := Z.min (js + (ncell m - 1)) (l_up L X2)). set (k2 := Z.min (ks + (ncell m - 1)) (l_up L X3)).
  match goal with |- context [fori k1 (k2 + 1) ?b acc0] => set (body := b) end.
  assert (G : forall (pi : acc -> R) (F : gpc -> R), (forall x q a, pi (acc_add x q a) = pi a + x * F q) -> pi acc0 = 0 ->
    pi (fori k1 (k2 + 1) body acc0) = sumZ k1 k2 (fun k => sumZ j1 j2 (fun j => sumZ i1 i2 (fun i => w (k - k1)%Z (j - j1)%Z (i - i1)%Z * F (Coup k j i))))).
  { intros pi F P0 P1. replace k2 with (k2 + 1 - 1)%Z at 2 by lia. rewrite <- (Rplus_0_l (sumZ _ _ _)), <- P1. apply fori_sum. intros k st. unfold body.
    replace j2 with (j2 + 1 - 1)%Z at 2 by lia. apply fori_sum. intros j st'. replace i2 with (i2 + 1 - 1)%Z at 2 by lia. apply fori_sum. intros i st''. apply P0. }
  assert (GW : aW (fori k1 (k2 + 1) body acc0) = sumZ k1 k2 (fun k => sumZ j1 j2 (fun j => sumZ i1 i2 (fun i => w (k - k1)%Z (j - j1)%Z (i - i1)%Z * 1))))
    by (apply (G aW (fun _ => 1)); intros; cbn; ring).
  rewrite (G aD gd), (G a1 (fun q => q1 (gv q))), (G a2 (fun q => q2 (gv q))), (G a3 (fun q => q3 (gv q))), (G aC gcs), (G aS FBstiff), GW by (intros; cbn; ring).
  reflexivity.
Qed.

(** The stencil lies within the Grid and its ghost zones (axes with one cell: the limits are that cell). *)
Definition inside (Nx : axis -> Z) (pG : pgrid) (L : plim) (m : interp) (W : weights) : Prop :=
  let '(_, is, js, ks) := W in
  forall ax, if (Nx ax >? 1)%Z then
      (l_lo L ax <= match ax with X1 => is | X2 => js | X3 => ks end /\ match ax with X1 => is | X2 => js | X3 => ks end + ncell m - 1 <= l_up L ax)%Z
    else (l_lo L ax = p_s pG ax /\ l_up L ax = p_s pG ax)%Z.
Lemma clipped_inside : forall m Nx pG x w0 W L F, getweight m pG x (cell1_of Nx pG) w0 = Ok W -> inside Nx pG L m W ->
  clipped L m W F = interpolate m W F.
Proof.
  intros m Nx pG x w0 W L F H IN. apply getweight_inv in H. destruct H as (w & is & js & ks & w1 & w2 & w3 & -> & E1 & E2 & E3 & V).
  unfold clipped, interpolate, inside in *. cbv zeta.
  assert (NC : (1 <= ncell m - 1)%Z) by (destruct m; cbn; lia).
  assert (G : forall ax i0 ww (f : Z -> Z -> R),
     axis_w m (cell_of ax) (p_s pG ax) pG (coord ax x) (coord ax (cell1_of Nx pG)) = Ok (i0, ww) ->
     (if (Nx ax >? 1)%Z then (l_lo L ax <= i0 /\ i0 + ncell m - 1 <= l_up L ax)%Z else (l_lo L ax = p_s pG ax /\ l_up L ax = p_s pG ax)%Z) ->
     (forall n, (0 <= n <= ncell m - 1)%Z -> ww n = 0 -> f n (i0 + n)%Z = 0) ->
     sumZ (Z.max i0 (l_lo L ax)) (Z.min (i0 + (ncell m - 1)) (l_up L ax)) (fun i => f (i - Z.max i0 (l_lo L ax))%Z i) = sumZ 0 (ncell m - 1) (fun n => f n (i0 + n)%Z)).
  { intros ax i0 ww f E B Z0. rewrite cell1_axis in E. destruct (Nx ax >? 1)%Z eqn:U.
    - rewrite Z.max_l, Z.min_l by lia. replace i0 with (0 + i0)%Z at 1 by lia. replace (i0 + (ncell m - 1))%Z with (ncell m - 1 + i0)%Z by lia.
      rewrite sumZ_shift. apply sumZ_ext. intros i _. f_equal; lia.
    - apply axis_collapsed in E. destruct E as [-> E]. rewrite (proj1 B), (proj2 B), Z.max_id, Z.min_r by lia.
      assert (S1 : sumZ (p_s pG ax) (p_s pG ax) (fun i => f (i - p_s pG ax)%Z i) = f 0%Z (p_s pG ax)).
      { rewrite sumZ_last, sumZ_empty by lia. rewrite Z.sub_diag. ring. }
      rewrite S1. assert (S2 : sumZ 0 (ncell m - 1) (fun n => f n (p_s pG ax + n)%Z) = f 0%Z (p_s pG ax + 0)%Z).
      { assert (Z1 : f 1%Z (p_s pG ax + 1)%Z = 0) by (apply Z0; [lia|rewrite E; reflexivity]).
        destruct m; cbn [ncell] in *; change (2 - 1)%Z with 1%Z; change (3 - 1)%Z with 2%Z.
        - rewrite sum2, Z1. ring.
        - assert (Z2 : f 2%Z (p_s pG ax + 2)%Z = 0) by (apply Z0; [lia|rewrite E; reflexivity]). rewrite sum3, Z1, Z2. ring.
        - assert (Z2 : f 2%Z (p_s pG ax + 2)%Z = 0) by (apply Z0; [lia|rewrite E; reflexivity]). rewrite sum3, Z1, Z2. ring. }
      rewrite S2, Z.add_0_r. reflexivity. }
  pose proof (G X1 is w1) as G1. pose proof (G X2 js w2) as G2. pose proof (G X3 ks w3) as G3. cbn [cell_of coord] in G1, G2, G3.
  pose proof (IN X1) as I1. pose proof (IN X2) as I2. pose proof (IN X3) as I3. clear G IN.
  set (k1 := Z.max ks (l_lo L X3)) in *. set (j1 := Z.max js (l_lo L X2)) in *. set (i1 := Z.max is (l_lo L X1)) in *.
  set (k2 := Z.min (ks + (ncell m - 1)) (l_up L X3)) in *. set (j2 := Z.min (js + (ncell m - 1)) (l_up L X2)) in *. set (i2 := Z.min (is + (ncell m - 1)) (l_up L X1)) in *.
  assert (RG : (k2 - k1 <= ncell m - 1)%Z /\ (j2 - j1 <= ncell m - 1)%Z /\ (i2 - i1 <= ncell m - 1)%Z) by (unfold k1, k2, j1, j2, i1, i2; lia).
  transitivity (sumZ k1 k2 (fun k => sumZ j1 j2 (fun j => sumZ i1 i2 (fun i => w1 (i - i1)%Z * w2 (j - j1)%Z * w3 (k - k1)%Z * F k j i)))).
  { apply sumZ_ext; intros k Hk. apply sumZ_ext; intros j Hj. apply sumZ_ext; intros i Hi. rewrite V by lia. reflexivity. }
  transitivity (sumZ 0 (ncell m - 1) (fun k => sumZ 0 (ncell m - 1) (fun j => sumZ 0 (ncell m - 1) (fun i => w1 i * w2 j * w3 k * F (ks + k)%Z (js + j)%Z (is + i)%Z)))).
  2:{ apply sumZ_ext; intros k Hk. apply sumZ_ext; intros j Hj. apply sumZ_ext; intros i Hi. rewrite V by lia. reflexivity. }
  rewrite (G3 (fun n k => sumZ j1 j2 (fun j => sumZ i1 i2 (fun i => w1 (i - i1)%Z * w2 (j - j1)%Z * w3 n * F k j i))) E3 I3).
  2:{ intros n _ Hn. transitivity (sumZ j1 j2 (fun _ => 0)); [|apply sumZ_zero]. apply sumZ_ext; intros j _. transitivity (sumZ i1 i2 (fun _ => 0)); [|apply sumZ_zero]. apply sumZ_ext; intros i _. rewrite Hn. ring. }
  apply sumZ_ext; intros k _.
  rewrite (G2 (fun n j => sumZ i1 i2 (fun i => w1 (i - i1)%Z * w2 n * w3 k * F (ks + k)%Z j i)) E2 I2).
  2:{ intros n _ Hn. transitivity (sumZ i1 i2 (fun _ => 0)); [|apply sumZ_zero]. apply sumZ_ext; intros i _. rewrite Hn. ring. }
  apply sumZ_ext; intros j _.
  apply (G1 (fun n i => w1 n * w2 j * w3 k * F (ks + k)%Z (js + j)%Z i) E1 I1). intros n _ Hn. rewrite Hn. ring.
Qed.
(** Inside the Grid the values returned are the weighted means. *)
Theorem C51_values : forall iso m Nx pG x w0 W L Coup, getweight m pG x (cell1_of Nx pG) w0 = Ok W -> inside Nx pG L m W ->
  exists V, getvalues iso L m Coup W = Some V /\
    let mean F := interpolate m W (fun k j i => F (Coup k j i)) in
    v_rho V = mean gd /\ v_u V = V3 (mean (fun q => q1 (gv q))) (mean (fun q => q2 (gv q))) (mean (fun q => q3 (gv q))) /\
    v_stiff V = mean FBstiff /\ v_cs V = match iso with Some c => c | None => mean gcs end.
Proof.
  intros iso m Nx pG x w0 W L Coup H IN. rewrite getvalues_eq. cbv beta zeta.
  assert (E : forall F, clipped L m W F = interpolate m W F) by (intros; eapply clipped_inside; eauto).
  rewrite !E. rewrite (C51_sum_is_one _ _ _ _ _ _ H). destruct (Rlt_dec 1 TINY_NUMBER) as [T|_].
  { exfalso. pose proof TINY_small. lra. }
  eexists. split; [reflexivity|]. cbn [v_rho v_u v_stiff v_cs]. unfold Rdiv. rewrite Rinv_1, !Rmult_1_r. auto.
Qed.
Print Assumptions C51_values.

Lemma clipped_scal : forall L m W F a, (forall k j i, (l_lo L X3 <= k <= l_up L X3)%Z -> (l_lo L X2 <= j <= l_up L X2)%Z -> (l_lo L X1 <= i <= l_up L X1)%Z -> F k j i = a) ->
  clipped L m W F = clipped L m W (fun _ _ _ => 1) * a.
Proof.
  intros L m [[[w is] js] ks] F a H. unfold clipped. cbv zeta. rewrite Rmult_comm, <- sumZ_scal. apply sumZ_ext; intros k Hk.
  rewrite <- sumZ_scal. apply sumZ_ext; intros j Hj. rewrite <- sumZ_scal. apply sumZ_ext; intros i Hi. rewrite H by lia. ring.
Qed.
(** Uniform gas is seen as such from anywhere, also at the edge of the ghost zones. *)
Theorem C51_uniform : forall iso m W L Coup V d u c s,
  (forall k j i, (l_lo L X3 <= k <= l_up L X3)%Z -> (l_lo L X2 <= j <= l_up L X2)%Z -> (l_lo L X1 <= i <= l_up L X1)%Z ->
     gd (Coup k j i) = d /\ gv (Coup k j i) = u /\ gcs (Coup k j i) = c /\ FBstiff (Coup k j i) = s) ->
  getvalues iso L m Coup W = Some V ->
  v_rho V = d /\ v_u V = u /\ v_stiff V = s /\ v_cs V = match iso with Some c' => c' | None => c end.
Proof.
  intros iso m W L Coup V d u c s H E. rewrite getvalues_eq in E. cbv beta zeta in E.
  set (t := clipped L m W (fun _ _ _ => 1)) in *. destruct (Rlt_dec t TINY_NUMBER) as [|T]; [discriminate|]. injection E as <-. cbn [v_rho v_u v_stiff v_cs].
  assert (TP : t <> 0) by (pose proof TINY_pos; lra).
  assert (G : forall F a, (forall k j i, (l_lo L X3 <= k <= l_up L X3)%Z -> (l_lo L X2 <= j <= l_up L X2)%Z -> (l_lo L X1 <= i <= l_up L X1)%Z -> F (Coup k j i) = a) ->
    clipped L m W (fun k j i => F (Coup k j i)) * (1 / t) = a).
  { intros F a HF. rewrite (clipped_scal L m W _ a HF). fold t. field. auto. }
  split; [apply G; intros; apply H; auto|]. split.
  { destruct u as [u1 u2 u3]. f_equal; apply (G (fun q => _ (gv q))); intros k j i Hk Hj Hi; destruct (H k j i Hk Hj Hi) as (_ & -> & _); reflexivity. }
  split; [apply G; intros; apply H; auto|]. destruct iso; [reflexivity|]. apply G; intros; apply H; auto.
Qed.
Print Assumptions C51_uniform.

Lemma sumZ_mono : forall l u f g, (forall i, (l <= i <= u)%Z -> f i <= g i) -> sumZ l u f <= sumZ l u g.
Proof.
  intros l u f g. unfold sumZ. intros H.
  assert (G : forall s n, (forall k, (s <= k < s + n)%nat -> f (l + Z.of_nat k)%Z <= g (l + Z.of_nat k)%Z) ->
    fold_right Rplus 0 (map (fun n => f (l + Z.of_nat n)%Z) (seq s n)) <= fold_right Rplus 0 (map (fun n => g (l + Z.of_nat n)%Z) (seq s n))).
  { intros s n. revert s. induction n as [|n IH]; intros s K; cbn; [lra|]. apply Rplus_le_compat; [apply K; lia|]. apply IH. intros. apply K. lia. }
  apply G. intros k Hk. apply H. lia.
Qed.
(** With linear or TSC weights the interpolated density lies between the extremes of the gas in the array. *)
Theorem C51_no_new_extrema : forall iso m Nx pG x w0 W L Coup V lo hi, m <> QP -> (forall ax, 0 < p_dx pG ax) -> in_array Nx pG x ->
  getweight m pG x (cell1_of Nx pG) w0 = Ok W ->
  (forall k j i, (l_lo L X3 <= k <= l_up L X3)%Z -> (l_lo L X2 <= j <= l_up L X2)%Z -> (l_lo L X1 <= i <= l_up L X1)%Z -> lo <= gd (Coup k j i) <= hi) ->
  getvalues iso L m Coup W = Some V -> lo <= v_rho V <= hi.
Proof.
  intros iso m Nx pG x w0 W L Coup V lo hi M D A HW H E. rewrite getvalues_eq in E. cbv beta zeta in E.
  set (t := clipped L m W (fun _ _ _ => 1)) in *. destruct (Rlt_dec t TINY_NUMBER) as [|T]; [discriminate|]. injection E as <-. cbn [v_rho].
  assert (TP : 0 < t) by (pose proof TINY_pos; lra).
  assert (B : t * lo <= clipped L m W (fun k j i => gd (Coup k j i)) <= t * hi).
  { unfold t. rewrite <- !(clipped_scal L m W (fun _ _ _ => _)) by reflexivity. destruct W as [[[w is] js] ks]. unfold clipped. cbv zeta.
    assert (PW : forall k j i, (0 <= k < ncell m)%Z -> (0 <= j < ncell m)%Z -> (0 <= i < ncell m)%Z -> 0 <= w k j i) by (intros; eapply C51_non_negative; eauto).
    split; apply sumZ_mono; intros k Hk; apply sumZ_mono; intros j Hj; apply sumZ_mono; intros i Hi;
    (apply Rmult_le_compat_l; [apply PW; lia|apply H; lia]). }
  assert (IT : 0 < 1 / t) by (apply Rdiv_lt_0_compat; lra).
  set (s := clipped L m W (fun k j i => gd (Coup k j i))) in *. clearbody s. clearbody t.
  replace lo with (t * lo * (1 / t)) by (field; lra). replace hi with (t * hi * (1 / t)) by (field; lra).
  split; apply Rmult_le_compat_r; lra.
Qed.
Print Assumptions C51_no_new_extrema.

(** ** At the lower edge of the array *)
Definition e_pg : pgrid := PG (fun _ => 4%Z) (fun _ => 0) (fun _ => 1).
Definition e_Nx (a : axis) : Z := match a with X1 => 8 | _ => 1 end.
Definition e_L : plim := grid_limit 4 e_Nx e_pg (fun a => match a with X1 => 11 | _ => 4 end)%Z (fun _ => 8) (fun _ => false) (fun _ => false).
Lemma c_int_mid : forall z d, (0 <= z < 2 ^ 31)%Z -> 0 <= d < 1 -> c_int (IZR z + d) = Ok z.
Proof.
  intros z d Z D. unfold c_int. assert (0 <= IZR z) by (apply (IZR_le 0); lia). destruct (Rle_dec 0 (IZR z + d)); [|lra].
  rewrite (int_part_unique (IZR z + d) z) by lra. cbv zeta. destruct ((INT_MIN <=? z) && (z <=? INT_MAX))%Z eqn:E; auto. unfold INT_MIN, INT_MAX in E. lia.
Qed.
(** A particle in the middle of the first ghost zone: the stencil would start left of the array, so the first cell gets the weight
    of the missing one: 1/7 for the particle's own cell instead of 6/7 (the first two weights are 1/8 and 3/4). *)
Theorem C51_edge_refuted : exists (Coup : cells gpc) x W V,
  getweight TSC e_pg x (cell1_of e_Nx e_pg) junk = Ok W /\ getvalues None e_L TSC Coup W = Some V /\
  face e_pg X1 0 <= q1 x < face e_pg X1 1 /\
  (forall k j i, gd (Coup k j i) = IZR i) /\ v_rho V = 6/7.
Proof.
  exists (fun k j i => Gpc (IZR i) (V3 0 0 0) 0 (V3 0 0 0) 0 0), (V3 (-(7/2)) 0 0).
  assert (C : c_int (1/2) = Ok 0%Z) by (replace (1/2) with (IZR 0 + 1/2) by (cbn; lra); apply c_int_mid; [lia|lra]).
  cbn [getweight]. unfold getwei_TSC, cell1_of. cbn [e_Nx q1 q2 q3 Z.gtb Z.compare Pos.compare Pos.compare_cont e_pg p_dx p_s p_MinX].
  unfold tsc_axis. destruct (Rlt_dec 0 (1 / 1)) as [|N]; [|exfalso; apply N; lra]. destruct (Rlt_dec 0 0) as [N|_]; [exfalso; lra|].
  unfold celli. cbn [e_pg p_dx p_s p_MinX]. replace ((-(7/2) - 0) * (1 / 1) + 4) with (1/2) by lra. rewrite C. cbn [bind].
  eexists. eexists. split; [reflexivity|]. split.
  - rewrite getvalues_eq. cbv beta zeta.
    assert (CL : forall F, clipped e_L TSC (loop3 0 2 0 2 0 2
       (fun k j i : Z => (if (i =? 0)%Z then 1 / 2 * SQR (1 - (1 / 2 - 0)) else if (i =? 1)%Z then 3 / 4 - SQR (1 / 2 - 0 - 1 / 2) else 1 / 2 * SQR (1 / 2 - 0)) *
         (if (j =? 0)%Z then 1 else 0) * (if (k =? 0)%Z then 1 else 0)) junk, (0 - 1)%Z, 4%Z, 4%Z) F = 1/8 * F 4%Z 4%Z 0%Z + 3/4 * F 4%Z 4%Z 1%Z).
    { intros F. unfold clipped, e_L, grid_limit. cbv zeta. cbn [l_lo l_up e_Nx ncell e_pg p_s].
      change (sumZ (Z.max 4 (4 - 0 * 4)) (Z.min (4 + (3 - 1)) (4 + 0 * 4))) with (sumZ 4 4).
      assert (S1 : forall f, sumZ 4 4 f = f 4%Z) by (intros; rewrite sumZ_last, sumZ_empty by lia; ring). rewrite !S1. unfold SQR.
      change (sumZ (Z.max (0 - 1) (4 - 1 * 4)) (Z.min (0 - 1 + (3 - 1)) (11 + 1 * 4))) with (sumZ 0 1). rewrite sum2.
      cbn. field. }
    rewrite !CL. cbn [gd]. destruct (Rlt_dec (1/8 * 1 + 3/4 * 1) TINY_NUMBER) as [T|_]; [exfalso; pose proof TINY_small; lra|]. reflexivity.
  - unfold face. cbn [e_pg p_dx p_s p_MinX]. cbn [v_rho gd q1]. repeat split; cbn; lra.
Qed.
Print Assumptions C51_edge_refuted.

(** ** The hypotheses are met *)
Example ex_weights : exists W, getweight TSC e_pg (V3 (9/4) 0 0) (cell1_of e_Nx e_pg) junk = Ok W /\ inside e_Nx e_pg e_L TSC W /\ in_array e_Nx e_pg (V3 (9/4) 0 0).
Proof.
  cbn [getweight]. unfold getwei_TSC, cell1_of. cbn [e_Nx q1 q2 q3 Z.gtb Z.compare Pos.compare Pos.compare_cont e_pg p_dx p_s p_MinX].
  unfold tsc_axis. destruct (Rlt_dec 0 (1 / 1)) as [|N]; [|exfalso; apply N; lra]. destruct (Rlt_dec 0 0) as [N|_]; [exfalso; lra|].
  unfold celli. cbn [e_pg p_dx p_s p_MinX]. replace ((9/4 - 0) * (1 / 1) + 4) with (IZR 6 + 1/4) by (cbn; lra). rewrite c_int_mid by (lia || lra). cbn [bind].
  eexists. split; [reflexivity|]. split; [intros []; cbn; lia|]. intros [] U; unfold used in U; cbn in *; try lia. unfold face. cbn. lra.
Qed.
