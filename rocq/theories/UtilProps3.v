(** Properties of the utility functions: qsimp and the cell averages (C66), fields from a vector potential (C49). *)
From Coq Require Import ZArith List Bool Reals Lia ZifyBool Lra Psatz.
From Verif Require Import CStr MeshModel PosModel GasModel ConvProps UtilModel UtilProps UtilProps2.
Import ListNotations.
Open Scope R_scope.

(** * C66: quadrature *)

(** Polynomials of degree at most three. *)
Definition cubic (c : nat -> R) (x : R) : R := c 0%nat + c 1%nat * x + c 2%nat * x^2 + c 3%nat * x^3.
Definition Fc (c : nat -> R) (x : R) : R := c 0%nat * x + c 1%nat * x^2 / 2 + c 2%nat * x^3 / 3 + c 3%nat * x^4 / 4.
Definition Dc (c : nat -> R) (x : R) : R := c 1%nat + 2 * c 2%nat * x + 3 * c 3%nat * x^2.

Lemma tz_sum_cubic : forall c dx n x sum,
  dx * tz_sum (cubic c) dx n x sum = dx * sum
    + (Fc c (x - dx / 2 + INR n * dx) - Fc c (x - dx / 2))
    - dx^2 / 24 * (Dc c (x - dx / 2 + INR n * dx) - Dc c (x - dx / 2)).
Proof.
  intros c dx. induction n as [|n IH]; intros x sum.
  - cbn [tz_sum INR]. rewrite Rmult_0_l, Rplus_0_r. lra.
  - cbn [tz_sum]. rewrite IH. rewrite S_INR. replace (x + dx - dx / 2 + INR n * dx) with (x - dx / 2 + (INR n + 1) * dx) by lra.
    set (e := x - dx / 2 + (INR n + 1) * dx). clearbody e. unfold Fc, Dc, cubic. field.
Qed.
(** The trapezoidal value with spacing h, in closed form. *)
Definition Tc (c : nat -> R) (a b h : R) : R := Fc c b - Fc c a + h^2 / 12 * (Dc c b - Dc c a).
Lemma INR_pow2 : forall k, INR (Nat.pow 2 k) = 2 ^ k.
Proof. induction k; [reflexivity|]. rewrite Nat.pow_succ_r', mult_INR, IHk. reflexivity. Qed.
Lemma trapzd_1 : forall c a b s, trapzd (cubic c) a b 1 s = Tc c a b (b - a).
Proof. intros. unfold trapzd, Tc. cbn [Nat.eqb]. unfold cubic, Fc, Dc. field. Qed.
Lemma trapzd_S : forall c a b n, trapzd (cubic c) a b (S (S n)) (Tc c a b ((b - a) / 2 ^ n)) = Tc c a b ((b - a) / 2 ^ (S n)).
Proof.
  intros. unfold trapzd. cbn [Nat.eqb Nat.sub]. rewrite Nat.sub_0_r, INR_pow2. set (p := 2 ^ n).
  assert (P : p <> 0) by (unfold p; apply pow_nonzero; lra).
  pose proof (tz_sum_cubic c ((b - a) / p) (Nat.pow 2 n) (a + 1/2 * ((b - a) / p)) 0) as T. rewrite INR_pow2 in T. fold p in T.
  replace (a + 1 / 2 * ((b - a) / p) - (b - a) / p / 2) with a in T by (field; auto).
  replace (a + p * ((b - a) / p)) with b in T by (field; auto).
  set (m := tz_sum _ _ _ _ _) in *. clearbody m.
  replace ((b - a) * m / p) with ((b - a) / p * m) by (field; auto). rewrite T. cbn [pow]. fold p. unfold Tc. field. auto.
Qed.
Lemma simpson_cubic : forall c a b h, (4 * Tc c a b (h / 2) - Tc c a b h) / 3 = Fc c b - Fc c a.
Proof. intros. unfold Tc. field. Qed.
Lemma EPS_pos : 0 < EPS.
Proof. unfold EPS. apply Rinv_0_lt_compat, pow_lt. lra. Qed.
Lemma qs_done_same : forall s, qs_done s s = true.
Proof.
  intros. unfold qs_done. destruct (Req_dec s 0) as [->|N].
  - unfold is0. destruct (Req_EM_T 0 0); [|congruence]. cbn. apply orb_true_r.
  - destruct (Rlt_dec (Rabs (s - s)) (EPS * Rabs s)) as [|L]; [reflexivity|]. exfalso. apply L.
    replace (s - s) with 0 by ring. rewrite Rabs_R0. apply Rmult_lt_0_compat; [apply EPS_pos|apply Rabs_pos_lt; auto].
Qed.
Lemma qs_loop_cubic : forall c a b m n k, (n + k + 2 = 6 + m)%nat ->
  qs_loop (cubic c) a b (S n) (k + 2) (Tc c a b ((b - a) / 2 ^ k)) (Fc c b - Fc c a) = Ok (Fc c b - Fc c a).
Proof.
  intros c a b m n. revert m. induction n as [|n IH]; intros m k H.
  - cbn [qs_loop]. replace (k + 2)%nat with (S (S k)) by lia. rewrite trapzd_S. cbn [pow].
    replace ((b - a) / (2 * 2 ^ k)) with ((b - a) / 2 ^ k / 2) by (field; apply pow_nonzero; lra).
    rewrite simpson_cubic, qs_done_same. destruct (Nat.ltb_spec 5 (S (S k))); [reflexivity|lia].
  - change (qs_loop (cubic c) a b (S (S n)) (k + 2) (Tc c a b ((b - a) / 2 ^ k)) (Fc c b - Fc c a)) with
      (let st := trapzd (cubic c) a b (k + 2) (Tc c a b ((b - a) / 2 ^ k)) in let s := (4 * st - Tc c a b ((b - a) / 2 ^ k)) / 3 in
       if (5 <? k + 2)%nat && qs_done s (Fc c b - Fc c a) then Ok s else qs_loop (cubic c) a b (S n) (S (k + 2)) st s).
    cbv zeta. replace (k + 2)%nat with (S (S k)) by lia. rewrite trapzd_S.
    replace ((4 * Tc c a b ((b - a) / 2 ^ S k) - Tc c a b ((b - a) / 2 ^ k)) / 3) with (Fc c b - Fc c a).
    2:{ rewrite <- (simpson_cubic c a b ((b - a) / 2 ^ k)). cbn [pow].
        replace ((b - a) / (2 * 2 ^ k)) with ((b - a) / 2 ^ k / 2) by (field; apply pow_nonzero; lra). reflexivity. }
    destruct ((5 <? S (S k))%nat && qs_done (Fc c b - Fc c a) (Fc c b - Fc c a)); [reflexivity|].
    replace (S (S (S k))) with (S k + 2)%nat by lia. apply (IH m). lia.
Qed.
Lemma qsimp_cubic : forall c a b, qsimp (cubic c) a b = Ok (Fc c b - Fc c a).
Proof.
  intros. unfold qsimp, JMAX.
  change (qs_loop (cubic c) a b 20 1 (- 10 ^ 30) (- 10 ^ 30)) with
    (let st := trapzd (cubic c) a b 1 (- 10 ^ 30) in let s := (4 * st - - 10 ^ 30) / 3 in
     (let st' := trapzd (cubic c) a b 2 st in let s' := (4 * st' - st) / 3 in qs_loop (cubic c) a b 18 3 st' s')).
  cbv zeta. rewrite trapzd_1. replace (Tc c a b (b - a)) with (Tc c a b ((b - a) / 2 ^ 0)) by (f_equal; cbn; field).
  rewrite (trapzd_S c a b 0).
  replace ((4 * Tc c a b ((b - a) / 2 ^ 1) - Tc c a b ((b - a) / 2 ^ 0)) / 3) with (Fc c b - Fc c a).
  2:{ rewrite <- (simpson_cubic c a b ((b - a) / 2 ^ 0)). cbn [pow]. do 3 f_equal. f_equal. field. }
  apply (qs_loop_cubic c a b 14 17 1). lia.
Qed.
Lemma Fc_derive : forall c x, derivable_pt_lim (Fc c) x (cubic c x).
Proof.
  intros. unfold Fc, cubic.
  replace (c 0%nat + c 1%nat * x + c 2%nat * x ^ 2 + c 3%nat * x ^ 3) with
    (c 0%nat * 1 + c 1%nat / 2 * (INR 2 * x ^ 1) + c 2%nat / 3 * (INR 3 * x ^ 2) + c 3%nat / 4 * (INR 4 * x ^ 3)) by (cbn; field).
  assert (E : forall y, c 0%nat * y + c 1%nat * y ^ 2 / 2 + c 2%nat * y ^ 3 / 3 + c 3%nat * y ^ 4 / 4 =
     (mult_real_fct (c 0%nat) id + mult_real_fct (c 1%nat / 2) (fun y => y ^ 2) + mult_real_fct (c 2%nat / 3) (fun y => y ^ 3)
      + mult_real_fct (c 3%nat / 4) (fun y => y ^ 4))%F y) by (intros; unfold plus_fct, mult_real_fct, id; field).
  intros eps He.
  assert (D : derivable_pt_lim (mult_real_fct (c 0%nat) id + mult_real_fct (c 1%nat / 2) (fun y => y ^ 2) + mult_real_fct (c 2%nat / 3) (fun y => y ^ 3)
      + mult_real_fct (c 3%nat / 4) (fun y => y ^ 4))%F x
      (c 0%nat * 1 + c 1%nat / 2 * (INR 2 * x ^ 1) + c 2%nat / 3 * (INR 3 * x ^ 2) + c 3%nat / 4 * (INR 4 * x ^ 3))).
  { repeat apply derivable_pt_lim_plus; apply derivable_pt_lim_scal;
      [apply derivable_pt_lim_id | apply (derivable_pt_lim_pow x 2) | apply (derivable_pt_lim_pow x 3) | apply (derivable_pt_lim_pow x 4)]. }
  destruct (D eps He) as (delta & HD). exists delta. intros h Hh Hd. rewrite !E. apply HD; auto.
Qed.
Lemma same_derivative : forall F G f, (forall x, derivable_pt_lim F x (f x)) -> (forall x, derivable_pt_lim G x (f x)) ->
  forall a b, F b - F a = G b - G a.
Proof.
  intros F G f HF HG a b.
  assert (DF : derivable (F - G)%F) by (intros x; exists (f x - f x); apply derivable_pt_lim_minus; auto).
  assert (C : constant (F - G)%F).
  { apply (null_derivative_1 _ DF). intros x. apply (derive_pt_eq_0 (F - G)%F x 0 (DF x)).
    replace 0 with (f x - f x) by ring. apply derivable_pt_lim_minus; auto. }
  specialize (C a b). unfold minus_fct in C. lra.
Qed.
(** qsimp returns the exact integral of every polynomial of degree at most three: the increment of any antiderivative. *)
Theorem C66_simpson_exact : forall c F a b, (forall x, derivable_pt_lim F x (cubic c x)) ->
  qsimp (cubic c) a b = Ok (F b - F a).
Proof.
  intros c F a b H. rewrite qsimp_cubic. f_equal. apply (same_derivative _ _ (cubic c)); auto. apply Fc_derive.
Qed.
Print Assumptions C66_simpson_exact.
Example ex_simpson : qsimp (fun x => x ^ 3) 0 2 = Ok 4.
Proof.
  assert (E : (fun x => x ^ 3) = cubic (fun n => if (n =? 3)%nat then 1 else 0)).
  { apply FunctionalExtensionality.functional_extensionality. intros x. unfold cubic. cbn [Nat.eqb]. ring. }
  rewrite E, qsimp_cubic. f_equal. unfold Fc. cbn [Nat.eqb]. field.
Qed.

Lemma tz_sumM_pure : forall f g dx n x sum, (forall y, f y = Ok (g y)) -> tz_sumM f dx n x sum = Ok (tz_sum g dx n x sum).
Proof. intros f g dx n. induction n as [|n IH]; intros x sum H; cbn [tz_sumM tz_sum]; [reflexivity|]. rewrite H. cbn [bind]. auto. Qed.
Lemma qsimpM_pure : forall f g a b, (forall y, f y = Ok (g y)) -> qsimpM f a b = qsimp g a b.
Proof.
  intros f g a b H. unfold qsimpM, qsimp.
  enough (G : forall n j ost os, qs_loopM f a b n j ost os = qs_loop g a b n j ost os) by apply G.
  induction n as [|n IH]; intros j ost os; [reflexivity|]. cbn [qs_loopM qs_loop].
  assert (E : trapzdM f a b j ost = Ok (trapzd g a b j ost)).
  { unfold trapzdM, trapzd. destruct (j =? 1)%nat; [rewrite !H; reflexivity|]. cbv zeta. rewrite (tz_sumM_pure f g); auto. }
  rewrite E. cbn [bind]. cbv zeta. destruct ((5 <? j)%nat && _); auto.
Qed.
Lemma qsimp_ext : forall f g a b, (forall x, f x = g x) -> qsimp f a b = qsimp g a b.
Proof. intros. assert (f = g) by (apply FunctionalExtensionality.functional_extensionality; auto). congruence. Qed.

(** A polynomial in three variables of degree at most three in each, and its mean over a box. *)
Definition poly3 (c : nat -> nat -> nat -> R) (x y z : R) : R :=
  cubic (fun l => cubic (fun m => cubic (fun n => c l m n) z) y) x.
(** mean of t^n over [a,b] *)
Definition mono_mean (a b : R) (n : nat) : R := (b ^ (S n) - a ^ (S n)) / (INR (S n) * (b - a)).
Definition sum4 (f : nat -> R) : R := f 0%nat + f 1%nat + f 2%nat + f 3%nat.
Definition box_mean (c : nat -> nat -> nat -> R) (x0 x1 y0 y1 z0 z1 : R) : R :=
  sum4 (fun l => sum4 (fun m => sum4 (fun n => c l m n * mono_mean x0 x1 l * mono_mean y0 y1 m * mono_mean z0 z1 n))).
Lemma Fc_mean : forall c a b, a <> b -> Fc c b - Fc c a = (b - a) * sum4 (fun l => c l * mono_mean a b l).
Proof. intros. unfold Fc, sum4, mono_mean. cbn. field. lra. Qed.
Definition inner (x0 x1 : R) (f : nat -> R) : R := (x1 - x0) * sum4 (fun l => f l * mono_mean x0 x1 l).
Lemma qsimp_cubic' : forall c a b, a <> b -> qsimp (cubic c) a b = Ok (inner a b c).
Proof. intros. rewrite qsimp_cubic, Fc_mean by auto. reflexivity. Qed.
Lemma inner_cubic : forall x0 x1 (d : nat -> nat -> R) y,
  inner x0 x1 (fun l => cubic (d l) y) = cubic (fun m => inner x0 x1 (fun l => d l m)) y.
Proof. intros. unfold inner, cubic, sum4. ring. Qed.

(** The cell averages of such polynomials are exact in Cartesian coordinates; [sv] is whatever the static
    variables held before. *)
Theorem C66_avg3d : forall c pG sv i j k, (forall a, 0 < p_dx pG a) ->
  let '(x1, x2, x3) := cc_pos pG i j k in
  avg3d false (poly3 c) pG sv i j k =
    Ok (box_mean c (x1 - p_dx pG X1 / 2) (x1 + p_dx pG X1 / 2) (x2 - p_dx pG X2 / 2) (x2 + p_dx pG X2 / 2)
                   (x3 - p_dx pG X3 / 2) (x3 + p_dx pG X3 / 2)).
Proof.
  intros c pG sv i j k H. unfold avg3d, cmin, cmax. destruct (cc_pos pG i j k) as [[x1 x2] x3].
  pose proof (H X1); pose proof (H X2); pose proof (H X3).
  replace (1 / 2 * p_dx pG X1) with (p_dx pG X1 / 2) by field. replace (1 / 2 * p_dx pG X2) with (p_dx pG X2 / 2) by field.
  replace (1 / 2 * p_dx pG X3) with (p_dx pG X3 / 2) by field.
  set (xa := x1 - p_dx pG X1 / 2). set (xb := x1 + p_dx pG X1 / 2).
  set (ya := x2 - p_dx pG X2 / 2). set (yb := x2 + p_dx pG X2 / 2).
  set (za := x3 - p_dx pG X3 / 2). set (zb := x3 + p_dx pG X3 / 2).
  assert (NX : xa <> xb) by (unfold xa, xb; lra). assert (NY : ya <> yb) by (unfold ya, yb; lra).
  assert (NZ : za <> zb) by (unfold za, zb; lra).
  assert (E1 : forall s y, fy false (poly3 c) xa xb s y =
     Ok (cubic (fun m => inner xa xb (fun l => cubic (fun n => c l m n) (zsav s))) y)).
  { intros s y. unfold fy, fx, poly3. cbn [ysav zsav]. rewrite qsimp_cubic' by auto. f_equal.
    rewrite (inner_cubic xa xb (fun l m => cubic (fun n => c l m n) (zsav s))). reflexivity. }
  assert (E2 : forall s z, fz false (poly3 c) xa xb ya yb s z =
     Ok (cubic (fun n => inner ya yb (fun m => inner xa xb (fun l => c l m n))) z)).
  { intros s z. unfold fz. cbn [ysav zsav].
    rewrite (qsimpM_pure _ (cubic (fun m => inner xa xb (fun l => cubic (fun n => c l m n) z)))) by (intros; rewrite E1; reflexivity).
    rewrite qsimp_cubic' by auto. f_equal. rewrite <- inner_cubic. unfold inner, sum4, cubic.
    generalize (mono_mean xa xb), (mono_mean ya yb). intros P Q. ring. }
  rewrite (qsimpM_pure _ (cubic (fun n => inner ya yb (fun m => inner xa xb (fun l => c l m n))))) by (intros; rewrite E2; reflexivity).
  rewrite qsimp_cubic' by auto. cbn [bind]. f_equal.
  replace (p_dx pG X1) with (xb - xa) by (unfold xa, xb; lra). replace (p_dx pG X2) with (yb - ya) by (unfold ya, yb; lra).
  replace (p_dx pG X3) with (zb - za) by (unfold za, zb; lra). unfold inner, box_mean, sum4.
  generalize (mono_mean xa xb), (mono_mean ya yb), (mono_mean za zb). intros P Q W. clearbody xa xb ya yb za zb. field. lra.
Qed.
Print Assumptions C66_avg3d.
(** In one and two dimensions the remaining coordinates are those of the cell centre. *)
Theorem C66_avg2d : forall c pG sv i j k, (forall a, 0 < p_dx pG a) ->
  let '(x1, x2, x3) := cc_pos pG i j k in
  avg2d false (poly3 c) pG sv i j k =
    Ok (sum4 (fun l => sum4 (fun m => sum4 (fun n => c l m n * mono_mean (x1 - p_dx pG X1 / 2) (x1 + p_dx pG X1 / 2) l
        * mono_mean (x2 - p_dx pG X2 / 2) (x2 + p_dx pG X2 / 2) m * x3 ^ n)))).
Proof.
  intros c pG sv i j k H. unfold avg2d, cmin, cmax. destruct (cc_pos pG i j k) as [[x1 x2] x3].
  pose proof (H X1); pose proof (H X2).
  replace (1 / 2 * p_dx pG X1) with (p_dx pG X1 / 2) by field. replace (1 / 2 * p_dx pG X2) with (p_dx pG X2 / 2) by field.
  set (xa := x1 - p_dx pG X1 / 2). set (xb := x1 + p_dx pG X1 / 2).
  set (ya := x2 - p_dx pG X2 / 2). set (yb := x2 + p_dx pG X2 / 2).
  assert (NX : xa <> xb) by (unfold xa, xb; lra). assert (NY : ya <> yb) by (unfold ya, yb; lra).
  assert (E1 : forall s y, fy false (poly3 c) xa xb s y =
     Ok (cubic (fun m => inner xa xb (fun l => cubic (fun n => c l m n) (zsav s))) y)).
  { intros s y. unfold fy, fx, poly3. cbn [ysav zsav]. rewrite qsimp_cubic' by auto. f_equal.
    rewrite (inner_cubic xa xb (fun l m => cubic (fun n => c l m n) (zsav s))). reflexivity. }
  rewrite (qsimpM_pure _ (cubic (fun m => inner xa xb (fun l => cubic (fun n => c l m n) x3)))) by (intros; rewrite E1; reflexivity).
  rewrite qsimp_cubic' by auto. cbn [bind]. f_equal.
  replace (p_dx pG X1) with (xb - xa) by (unfold xa, xb; lra). replace (p_dx pG X2) with (yb - ya) by (unfold ya, yb; lra).
  unfold inner, sum4, cubic.
  generalize (mono_mean xa xb), (mono_mean ya yb). intros P Q. clearbody xa xb ya yb. field. lra.
Qed.
Print Assumptions C66_avg2d.
Theorem C66_avg1d : forall c pG sv i j k, (forall a, 0 < p_dx pG a) ->
  let '(x1, x2, x3) := cc_pos pG i j k in
  avg1d false (poly3 c) pG sv i j k =
    Ok (sum4 (fun l => sum4 (fun m => sum4 (fun n => c l m n * mono_mean (x1 - p_dx pG X1 / 2) (x1 + p_dx pG X1 / 2) l
        * x2 ^ m * x3 ^ n)))).
Proof.
  intros c pG sv i j k H. unfold avg1d, cmin, cmax. destruct (cc_pos pG i j k) as [[x1 x2] x3].
  pose proof (H X1).
  replace (1 / 2 * p_dx pG X1) with (p_dx pG X1 / 2) by field.
  set (xa := x1 - p_dx pG X1 / 2). set (xb := x1 + p_dx pG X1 / 2).
  assert (NX : xa <> xb) by (unfold xa, xb; lra).
  unfold fx, poly3. cbn [ysav zsav]. rewrite qsimp_cubic' by auto. cbn [bind]. f_equal.
  replace (p_dx pG X1) with (xb - xa) by (unfold xa, xb; lra).
  unfold inner, sum4, cubic.
  generalize (mono_mean xa xb). intros P. clearbody xa xb. field. lra.
Qed.
Print Assumptions C66_avg1d.
(** In cylindrical coordinates the mean over the cell volume R dR dphi dz: exact for polynomials of degree at most two in R. *)
Definition cyl_mean (c : nat -> nat -> nat -> R) (r0 r1 y0 y1 z0 z1 : R) : R :=
  sum4 (fun l => sum4 (fun m => sum4 (fun n => c l m n *
     (mono_mean r0 r1 (S l) / mono_mean r0 r1 1) * mono_mean y0 y1 m * mono_mean z0 z1 n))).
Theorem C66_avg3d_cyl : forall c pG sv i j k, (forall a, 0 < p_dx pG a) -> (forall m n, c 3%nat m n = 0) ->
  let '(x1, x2, x3) := cc_pos pG i j k in 0 < x1 ->
  avg3d true (poly3 c) pG sv i j k =
    Ok (cyl_mean c (x1 - p_dx pG X1 / 2) (x1 + p_dx pG X1 / 2) (x2 - p_dx pG X2 / 2) (x2 + p_dx pG X2 / 2)
                   (x3 - p_dx pG X3 / 2) (x3 + p_dx pG X3 / 2)).
Proof.
  intros c pG sv i j k H H3. unfold avg3d, cmin, cmax. destruct (cc_pos pG i j k) as [[x1 x2] x3]. intros Hx.
  pose proof (H X1); pose proof (H X2); pose proof (H X3).
  replace (1 / 2 * p_dx pG X1) with (p_dx pG X1 / 2) by field. replace (1 / 2 * p_dx pG X2) with (p_dx pG X2 / 2) by field.
  replace (1 / 2 * p_dx pG X3) with (p_dx pG X3 / 2) by field.
  set (xa := x1 - p_dx pG X1 / 2). set (xb := x1 + p_dx pG X1 / 2).
  set (ya := x2 - p_dx pG X2 / 2). set (yb := x2 + p_dx pG X2 / 2).
  set (za := x3 - p_dx pG X3 / 2). set (zb := x3 + p_dx pG X3 / 2).
  assert (NX : xa <> xb) by (unfold xa, xb; lra). assert (NY : ya <> yb) by (unfold ya, yb; lra).
  assert (NZ : za <> zb) by (unfold za, zb; lra).
  set (c' := fun l m n => match l with O => 0 | S l => c l m n end).
  assert (E1 : forall s y, fy true (poly3 c) xa xb s y =
     Ok (cubic (fun m => inner xa xb (fun l => cubic (fun n => c' l m n) (zsav s))) y)).
  { intros s y. unfold fy, fx. cbn [ysav zsav].
    rewrite (qsimp_ext _ (cubic (fun l => cubic (fun m => cubic (fun n => c' l m n) (zsav s)) y))).
    2:{ intros x. unfold poly3, cubic, c'. rewrite !H3. ring. }
    rewrite qsimp_cubic' by auto. f_equal.
    rewrite (inner_cubic xa xb (fun l m => cubic (fun n => c' l m n) (zsav s))). reflexivity. }
  assert (E2 : forall s z, fz true (poly3 c) xa xb ya yb s z =
     Ok (cubic (fun n => inner ya yb (fun m => inner xa xb (fun l => c' l m n))) z)).
  { intros s z. unfold fz. cbn [ysav zsav].
    rewrite (qsimpM_pure _ (cubic (fun m => inner xa xb (fun l => cubic (fun n => c' l m n) z)))) by (intros; rewrite E1; reflexivity).
    rewrite qsimp_cubic' by auto. f_equal. rewrite <- inner_cubic. unfold inner, sum4, cubic.
    generalize (mono_mean xa xb), (mono_mean ya yb). intros P Q. ring. }
  rewrite (qsimpM_pure _ (cubic (fun n => inner ya yb (fun m => inner xa xb (fun l => c' l m n))))) by (intros; rewrite E2; reflexivity).
  rewrite qsimp_cubic' by auto. cbn [bind]. f_equal.
  assert (M1 : mono_mean xa xb 1 = x1) by (unfold mono_mean; cbn; unfold xa, xb; field; lra).
  unfold cyl_mean. rewrite M1.
  replace (p_dx pG X1) with (xb - xa) by (unfold xa, xb; lra). replace (p_dx pG X2) with (yb - ya) by (unfold ya, yb; lra).
  replace (p_dx pG X3) with (zb - za) by (unfold za, zb; lra). unfold inner, sum4.
  revert M1. generalize (mono_mean xa xb), (mono_mean ya yb), (mono_mean za zb). intros P Q W M1. unfold c'.
  rewrite !H3. clearbody xa xb ya yb za zb. clear H3 E1 E2. field. lra.
Qed.
Print Assumptions C66_avg3d_cyl.
Example ex_avg : exists pG, (forall a, 0 < p_dx pG a) /\ forall sv, avg3d false (fun x y z => x * y) pG sv 0 0 0 = Ok (1 / 4).
Proof.
  set (pG := PG (fun _ => 0%Z) (fun _ => 0) (fun _ => 1)). exists pG. split; [intros; cbn; lra|]. intros sv.
  pose proof (C66_avg3d (fun l m n => if ((l =? 1) && (m =? 1) && (n =? 0))%nat then 1 else 0) pG sv 0 0 0) as T.
  unfold cc_pos in T. cbn [pG p_MinX p_s p_dx Z.sub] in T.
  replace (fun x y _ : R => x * y) with (poly3 (fun l m n => if ((l =? 1) && (m =? 1) && (n =? 0))%nat then 1 else 0)).
  - rewrite T by (intros; lra). f_equal. unfold box_mean, sum4, mono_mean. cbn. field.
  - do 3 (apply FunctionalExtensionality.functional_extensionality; intros ?). unfold poly3, cubic. cbn. ring.
Qed.
