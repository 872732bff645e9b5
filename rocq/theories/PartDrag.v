(** Properties C68-C71: particle motion and feedback. *)
From Coq Require Import ZArith Bool Reals Lra Lia ZifyBool List Permutation.
From Verif Require Import CStr MeshModel PosModel PosProps GasModel ConvProps IntegModel IntegSpec IntegFacts PartModel PartSort PartProps.
From Verif Require UtilModel MeshProps.
Import MeshProps (bind_ok).
Import UtilModel (upd, fori, for_up).
Import ListNotations.
Open Scope R_scope.

(** ** Vocabulary *)
Definition vadd (a b : v3) : v3 := V3 (q1 a + q1 b) (q2 a + q2 b) (q3 a + q3 b).
Definition vscale (s : R) (a : v3) : v3 := V3 (s * q1 a) (s * q2 a) (s * q3 a).
Definition vsub (a b : v3) : v3 := vadd a (vscale (-1) b).
Definition cross (a b : v3) : v3 := V3 (q2 a * q3 b - q3 a * q2 b) (q3 a * q1 b - q1 a * q3 b) (q1 a * q2 b - q2 a * q1 b).
(** Unit vectors along the rotation axis and along the orbit (x2 or x3; the axes x1, orbit, rotation are right-handed). *)
Definition spin (s : shear) : v3 := if sh_xy s then V3 0 0 1 else V3 0 (-1) 0.
Definition orbit (s : shear) : v3 := if sh_xy s then V3 0 1 0 else V3 0 0 1.
(** Coriolis and tidal forces in the frame rotating with Omega. *)
Definition rotating (s : shear) (x v : v3) : v3 :=
  vadd (vscale (- 2 * Omega_0 s) (cross (spin s) v)) (V3 (2 * qshear s * (Omega_0 s * Omega_0 s) * q1 x) 0 0).
(** Mean orbital flow. *)
Definition flow (s : shear) (x : v3) : v3 := vscale (- qshear s * Omega_0 s * q1 x) (orbit s).

Lemma veq : forall a b : v3, q1 a = q1 b -> q2 a = q2 b -> q3 a = q3 b -> a = b.
Proof. intros [a1 a2 a3] [b1 b2 b3]; cbn; intros; subst; auto. Qed.

(** *** C70: forces of the rotating frame.  With FARGO velocities are relative to the mean flow: the force is that of the total velocity
    minus the change of the mean flow along the path. *)
Theorem C70_force : forall K x v,
  match k_sh K with
  | None => Get_Force K x v = k_user K x v
  | Some s =>
      if fargo s then Get_Force K x v = vadd (k_user K x v) (vsub (rotating s x (vadd v (flow s x))) (flow s v))
      else Get_Force K x v = vadd (k_user K x v) (rotating s x v)
  end.
Proof.
  intros K x v. unfold Get_Force. destruct (k_sh K) as [s|]; auto. unfold rotating, flow, spin, orbit, vsub, vadd, vscale, cross, SQR.
  destruct (fargo s), (sh_xy s); apply veq; cbn; ring.
Qed.
Print Assumptions C70_force.

(** ** Drag *)
(** The stopping time does not depend on the velocity, nor does the user's force. *)
Definition linear_drag (K : pcfg) : Prop := (match k_ts K with General _ => False | _ => True end) /\ forall x v w, k_user K x v = k_user K x w.
(** Acceleration of a particle of type [ty] at [x] with velocity [v]: drag plus other forces. *)
Definition accel (K : pcfg) (L : plim) (pG : pgrid) (dt : R) (Coup : cells gpc) (ty : Z) (x v a : v3) : Prop :=
  exists fd ts1, Get_Drag K L pG dt Coup ty x v = Ok (fd, ts1) /\ a = vadd fd (Get_Force K x v).

Lemma sq3 : forall a b c, 0 <= SQR a + SQR b + SQR c.
Proof. intros. unfold SQR. pose proof (Rle_0_sqr a). pose proof (Rle_0_sqr b). pose proof (Rle_0_sqr c). unfold Rsqr in *. lra. Qed.
Lemma drag_inv : forall K L pG dt Coup ty x v fd ts1, Get_Drag K L pG dt Coup ty x v = Ok (fd, ts1) ->
  exists u, fd = vscale (- ts1) (vsub v u) /\ (linear_drag K -> forall w, Get_Drag K L pG dt Coup ty x w = Ok (vscale (- ts1) (vsub w u), ts1)) /\
    (ts1 = 0 \/ exists W V, getweight (k_interp K) pG x (cell1_of (k_Nx K) pG) junk = Ok W /\ getvalues (k_iso K) L (k_interp K) Coup W = Some V /\ u = k_gasvshift K x (v_u V)).
Proof.
  intros K L pG dt Coup ty x v fd ts1 H. unfold Get_Drag in *. apply bind_ok in H. destruct H as (W & EW & H). rewrite EW. cbn [bind].
  destruct (getvalues (k_iso K) L (k_interp K) Coup W) as [a|] eqn:EV.
  - exists (k_gasvshift K x (v_u a)). apply bind_ok in H. destruct H as (vd & Ev & H). apply bind_ok in H. destruct H as (t & Et & H).
    apply bind_ok in H. destruct H as (t1 & Et1 & H). injection H as <- <-. split; [|split].
    + apply veq; cbn; ring.
    + intros [LD _] w. rewrite osqrt_ok by apply sq3. cbn [lift bind].
      assert (ET : lift (get_ts (k_ts K) dt (k_prop K ty) (v_rho a) (v_cs a) vd) = lift (get_ts (k_ts K) dt (k_prop K ty) (v_rho a) (v_cs a)
        (sqrt (SQR (q1 w - q1 (k_gasvshift K x (v_u a))) + SQR (q2 w - q2 (k_gasvshift K x (v_u a))) + SQR (q3 w - q3 (k_gasvshift K x (v_u a))))))).
      { destruct (k_ts K); [contradiction|reflexivity|reflexivity]. }
      rewrite <- ET, Et. cbn [bind]. cbv zeta. rewrite Et1. cbn [bind]. do 2 f_equal. apply veq; cbn; ring.
    + right. exists W, a. auto.
  - exists v. injection H as <- <-. split; [|split; auto]; [|intros _ w; do 2 f_equal]; apply veq; cbn; ring.
Qed.
Lemma force_user : forall K x v w, linear_drag K -> k_user K x v = k_user K x w.
Proof. intros K x v w [_ H]. auto. Qed.

Lemma odiv_inv : forall a b c, odiv a b = Some c -> b <> 0 /\ c = a / b.
Proof. intros a b c H. unfold odiv in H. destruct (Req_EM_T b 0); [discriminate|]. injection H as <-. auto. Qed.
Lemma lift_ok : forall {A} (o : option A) a, lift o = Ok a -> o = Some a.
Proof. intros A [] b H; cbn in H; congruence. Qed.
Ltac divs := repeat match goal with
  | H : lift _ = Ok _ |- _ => apply lift_ok in H
  | H : obind (odiv ?a ?b) _ = Some _ |- _ => let E := fresh "E" in let r := fresh "r" in let N := fresh "N" in
      destruct (odiv a b) as [r|] eqn:E; cbn [obind] in H; [apply odiv_inv in E; destruct E as [N E]|discriminate]
  | H : Some _ = Some _ |- _ => injection H as <-
  end.

(** Where a particle is after a time [t] at its old velocity: it moves only along directions that have more than one cell, and in
    a shearing box without FARGO its azimuthal velocity follows the local flow, whose shear rate is taken to be [qshear] (the code
    drops the factor Omega_0). *)
Definition drift (K : pcfg) (t : R) (g : grain) : v3 :=
  let go (a : axis) (r : R) := if (k_Nx K a >? 1)%Z then t * r else 0 in
  vadd (g_x g) (V3 (go X1 (q1 (g_v g)))
    (go X2 (q2 (g_v g)) + match k_sh K with
      | Some (Shear _ q false true) => - q * q1 (g_v g) * (t * t / 2) | _ => 0 end)
    (go X3 (q3 (g_v g)))).
Lemma predict_drift : forall K h adv dt g, adv = h * h / 2 -> predict K h adv dt g = drift K (h * dt) g.
Proof.
  intros K h adv dt [x v ? ? ?] ->. unfold predict, drift. cbv beta zeta. cbn [g_x g_v].
  destruct (k_sh K) as [[Om q [|] [|]]|]; cbn [fargo sh_xy negb andb qshear]; unfold vadd, SQR; apply veq; cbn [q1 q2 q3];
    try match goal with |- context [if ?b then _ else _] => destruct b end; field.
Qed.

(** *** C70: the semi-implicit integrator solves the implicit midpoint rule (midpoint position predicted with the old velocity). *)
Theorem C70_semi_implicit : forall K L pG dt Coup g dv ts, linear_drag K ->
  int_par_semimp K L pG dt Coup g = Ok (dv, ts) ->
  exists a, accel K L pG dt Coup (g_type g) (drift K (dt / 2) g) (vadd (g_v g) (vscale (1/2) dv)) a /\ dv = vscale dt a.
Proof.
  intros K L pG dt Coup g dv ts LD H. unfold int_par_semimp in H. cbv zeta in H.
  rewrite (predict_drift K (1/2) (1/8) dt g) in H by lra. replace (1 / 2 * dt) with (dt / 2) in H by lra.
  set (xn := drift K (dt / 2) g) in *. clearbody xn. set (v := g_v g) in *. clearbody v.
  apply bind_ok in H. destruct H as ([fd ts1] & ED & H). apply bind_ok in H. destruct H as (dv' & EV & H). injection H as <- <-.
  apply drag_inv in ED. destruct ED as (u & -> & ED & _). specialize (ED LD).
  eexists. split.
  - exists (vscale (- ts1) (vsub (vadd v (vscale (1/2) dv')) u)), ts1. split; [apply ED|]. reflexivity.
  - unfold Get_Force in *. rewrite (force_user K xn (vadd v (vscale (1/2) dv')) v LD) in *. set (fu := k_user K xn v) in *. clearbody fu. clear ED.
    destruct fu as [f1 f2 f3], v as [v1 v2 v3'], u as [u1 u2 u3], xn as [x1 x2 x3].
    destruct (k_sh K) as [s|].
    + destruct s as [Om q fg xy]; cbn [Omega_0 qshear fargo sh_xy] in *. unfold SQR in *.
      destruct fg, xy; divs; subst; apply veq; cbn; field; auto.
    + divs. subst. apply veq; cbn; field; auto.
Qed.
Print Assumptions C70_semi_implicit.

Lemma cramer : forall A B C f1 f2 dt d1 d2, A * A - B * C <> 0 -> dt * (1 / (A * A - B * C)) * (f1 * A - f2 * B) = d1 ->
  dt * (1 / (A * A - B * C)) * (- f1 * C + f2 * A) = d2 -> A * d1 + B * d2 = dt * f1 /\ C * d1 + A * d2 = dt * f2.
Proof. intros. subst. split; field; auto. Qed.
(** *** C70: the fully implicit integrator.  With v' = v + dv and x' the predicted end position,
    dv = dt/2 (a(x, v' - dt a(x', v')) + a(x', v')). *)
Theorem C70_fully_implicit : forall K L pG dt Coup g dv ts, linear_drag K ->
  int_par_fulimp K L pG dt Coup g = Ok (dv, ts) ->
  exists a a', accel K L pG dt Coup (g_type g) (drift K dt g) (vadd (g_v g) dv) a' /\
    accel K L pG dt Coup (g_type g) (g_x g) (vsub (vadd (g_v g) dv) (vscale dt a')) a /\
    dv = vscale (dt / 2) (vadd a a').
Proof.
  intros K L pG dt Coup g dv ts LD H. unfold int_par_fulimp in H. cbv zeta in H.
  rewrite (predict_drift K 1 (1/2) dt g) in H by lra. rewrite Rmult_1_l in H.
  set (xn := drift K dt g) in *. clearbody xn. set (v := g_v g) in *. clearbody v. set (x := g_x g) in *. clearbody x.
  apply bind_ok in H. destruct H as ([fd ts11] & ED & H). apply bind_ok in H. destruct H as ([fd2 ts12] & ED2 & H).
  apply bind_ok in H. destruct H as (dv' & EV & H). injection H as <- <-.
  apply drag_inv in ED. destruct ED as (u & -> & ED & _). specialize (ED LD).
  apply drag_inv in ED2. destruct ED2 as (u2 & -> & ED2 & _). specialize (ED2 LD).
  eexists. eexists. split; [|split].
  - exists (vscale (- ts12) (vsub (vadd v dv') u2)), ts12. split; [apply ED2|]. reflexivity.
  - eexists. exists ts11. split; [apply ED|]. reflexivity.
  - unfold Get_Force in *.
    assert (FU : exists f, forall w, k_user K xn w = f) by (exists (k_user K xn v); intros; apply force_user; auto). destruct FU as [fu FU].
    assert (FX : exists f, forall w, k_user K x w = f) by (exists (k_user K x v); intros; apply force_user; auto). destruct FX as [fx FX].
    rewrite !FU, !FX in *. clear ED ED2 FU FX.
    destruct fu as [f1 f2 f3], fx as [e1 e2 e3], v as [v1 v2 v3'], u as [u1 u2' u3], u2 as [y1 y2 y3], xn as [x1 x2 x3], x as [z1 z2 z3].
    destruct (k_sh K) as [s|].
    + destruct s as [Om q fg xy]; cbn [Omega_0 qshear fargo sh_xy] in *. unfold SQR in *.
      destruct dv' as [d1 d2 d3].
      destruct fg, xy; apply lift_ok in EV;
      (match type of EV with obind ?t _ = _ => destruct t as [r|] eqn:E end; cbn [obind] in EV; [apply odiv_inv in E; destruct E as [N ->]|discriminate]);
      (match type of EV with obind ?t _ = _ => destruct t as [r|] eqn:E end; cbn [obind] in EV; [apply odiv_inv in E; destruct E as [M ->]|discriminate]);
      injection EV as E1 E2 E3; [rename E3 into Ed|rename E2 into Ed; rename E3 into E2|rename E3 into Ed|rename E2 into Ed; rename E3 into E2];
      destruct (cramer _ _ _ _ _ _ _ _ N E1 E2) as [S1 S2]; apply (f_equal (fun z => z * (1 + 1 / 2 * dt * (ts11 + ts12 + dt * ts11 * ts12)))) in Ed;
      unfold Rdiv in Ed at 1; rewrite Rmult_assoc, Rinv_l, Rmult_1_r in Ed by exact M;
      clear E1 E2 N M; apply veq; cbn in *; lra.
    + divs. subst. apply veq; cbn in *; field; intros Z; apply N; lra.
Qed.
Print Assumptions C70_fully_implicit.

(** ** Damping *)
(** The gas has the same state in all cells, nothing but drag acts on the particles. *)
Definition only_drag (K : pcfg) (L : plim) (Coup : cells gpc) (u : v3) : Prop :=
  (exists d c s, forall k j i, (l_lo L X3 <= k <= l_up L X3)%Z -> (l_lo L X2 <= j <= l_up L X2)%Z -> (l_lo L X1 <= i <= l_up L X1)%Z ->
     gd (Coup k j i) = d /\ gv (Coup k j i) = u /\ gcs (Coup k j i) = c /\ FBstiff (Coup k j i) = s) /\
  (forall x, k_gasvshift K x u = u) /\ (forall x v, k_user K x v = V3 0 0 0) /\ k_sh K = None.
Lemma ts_pos : forall m dt p rho cs vd t, 0 < dt -> get_ts m dt p rho cs vd = Some t -> 0 < t.
Proof.
  intros m dt p rho cs vd t D H.
  assert (F : forall x, 0 < ts_floor dt x) by (intros x; unfold ts_floor; destruct (Rlt_dec x (1 / 100000000 * dt)); lra).
  destruct m; cbn [get_ts] in H; unfold get_ts_general, get_ts_epstein, get_ts_fixed in H.
  - match type of H with obind ?a _ = _ => destruct a as [x|]; [|discriminate] end. injection H as <-. apply F.
  - match type of H with obind ?a _ = _ => destruct a as [x|]; [|discriminate] end. injection H as <-. apply F.
  - injection H as <-. apply F.
Qed.
Lemma rate_nonneg : forall K L pG dt Coup ty x v fd ts1, 0 < dt -> Get_Drag K L pG dt Coup ty x v = Ok (fd, ts1) -> 0 <= ts1.
Proof.
  intros K L pG dt Coup ty x v fd ts1 D H. unfold Get_Drag in *. apply bind_ok in H. destruct H as (W & EW & H).
  destruct (getvalues (k_iso K) L (k_interp K) Coup W) as [a|]; [|injection H as _ <-; lra].
  apply bind_ok in H. destruct H as (vd & Ev & H). apply bind_ok in H. destruct H as (t & Et & H).
  apply bind_ok in H. destruct H as (t1 & Et1 & H). injection H as _ <-. apply lift_ok in Et, Et1. apply odiv_inv in Et1. destruct Et1 as [N ->].
  apply ts_pos in Et; auto. assert (P : 0 < (if k_feedback K then t * MAX 1 (v_stiff a) else t)).
  { destruct (k_feedback K); auto. apply Rmult_lt_0_compat; auto. unfold MAX. destruct (Rlt_dec (v_stiff a) 1); lra. }
  left. apply Rdiv_lt_0_compat; lra.
Qed.
Lemma uniform_drag : forall K L pG dt Coup u ty x v fd ts1, 0 < dt -> only_drag K L Coup u -> Get_Drag K L pG dt Coup ty x v = Ok (fd, ts1) ->
  0 <= ts1 /\ vadd fd (Get_Force K x v) = vscale (- ts1) (vsub v u).
Proof.
  intros K L pG dt Coup u ty x v fd ts1 D ((d & c & s & U) & G & F & SH) H. split; [eapply rate_nonneg; eauto|].
  unfold Get_Force. rewrite SH, F. apply drag_inv in H. destruct H as (u' & -> & _ & [-> | (W & V & EW & EV & ->)]).
  - apply veq; cbn; ring.
  - apply (C51_uniform (k_iso K) (k_interp K) W L Coup V d u c s U) in EV. destruct EV as (_ & -> & _). rewrite G. apply veq; cbn; ring.
Qed.

(** *** C70: in uniform gas both implicit schemes bring the particle closer to the gas for any time step and stopping time; the fully implicit one never
    overshoots. *)
Theorem C70_damping : forall K L pG dt Coup u g dv ts, 0 < dt -> only_drag K L Coup u ->
  (int_par_semimp K L pG dt Coup g = Ok (dv, ts) -> exists c, -1 < c <= 1 /\ vsub (vadd (g_v g) dv) u = vscale c (vsub (g_v g) u)) /\
  (int_par_fulimp K L pG dt Coup g = Ok (dv, ts) -> exists c, 0 < c <= 1 /\ vsub (vadd (g_v g) dv) u = vscale c (vsub (g_v g) u)).
Proof.
  intros K L pG dt Coup u g dv ts D OD. assert (SH : k_sh K = None) by apply OD. split; intros H.
  - unfold int_par_semimp in H. cbv zeta in H. apply bind_ok in H. destruct H as ([fd t1] & ED & H). apply (uniform_drag _ _ _ _ _ _ _ _ _ _ _ D OD) in ED. destruct ED as [T ED].
    apply bind_ok in H. destruct H as (dv' & EV & H). injection H as <- _. rewrite SH in EV. change plus3 with vadd in EV. rewrite ED in EV. divs. subst.
    assert (HP : 0 <= dt * t1) by nra. exists ((2 - dt * t1) / (dt * t1 + 2)). split.
    + set (h := dt * t1) in *. clearbody h. split.
      * apply Rmult_lt_reg_r with (h + 2); [lra|]. unfold Rdiv. rewrite Rmult_assoc, Rinv_l by lra. lra.
      * apply Rmult_le_reg_r with (h + 2); [lra|]. unfold Rdiv. rewrite Rmult_assoc, Rinv_l by lra. lra.
    + apply veq; cbn; field; lra.
  - unfold int_par_fulimp in H. cbv zeta in H. apply bind_ok in H. destruct H as ([fd t1] & ED & H). apply (uniform_drag _ _ _ _ _ _ _ _ _ _ _ D OD) in ED. destruct ED as [T ED].
    apply bind_ok in H. destruct H as ([fd2 t2] & ED2 & H). apply (uniform_drag _ _ _ _ _ _ _ _ _ _ _ D OD) in ED2. destruct ED2 as [T2 ED2].
    apply bind_ok in H. destruct H as (dv' & EV & H). injection H as <- _. rewrite SH in EV. change plus3 with vadd in EV. rewrite ED, ED2 in EV. divs. subst.
    assert (HP : 0 <= dt * (t1 + t2 + dt * t1 * t2)). { apply Rmult_le_pos; [lra|]. assert (0 <= dt * t1 * t2) by (apply Rmult_le_pos; [apply Rmult_le_pos; lra|lra]). lra. }
    exists (1 / (1 + 1/2 * (dt * (t1 + t2 + dt * t1 * t2)))). split.
    + set (h := dt * (t1 + t2 + dt * t1 * t2)) in *. clearbody h. split; [apply Rdiv_lt_0_compat; lra|].
      apply Rmult_le_reg_r with (1 + 1/2 * h); [lra|]. unfold Rdiv. rewrite Rmult_assoc, Rinv_l by lra. lra.
    + apply veq; cbn; field; lra.
Qed.
Print Assumptions C70_damping.

(** ** Feedback *)
(** Sum over all cells of the Grid and its ghost zones. *)
Definition total (L : plim) (F : cells R) : R :=
  sumZ (l_lo L X3) (l_up L X3) (fun k => sumZ (l_lo L X2) (l_up L X2) (fun j => sumZ (l_lo L X1) (l_up L X1) (fun i => F k j i))).
Lemma sumZ_within : forall lo up a b f, (lo <= a)%Z -> (b <= up)%Z -> sumZ lo up (fun i => if within a b i then f i else 0) = sumZ a b f.
Proof.
  intros lo up a b f HA. revert up. destruct (Z_le_gt_dec a b) as [AB|AB].
  2:{ intros up _. rewrite (sumZ_empty a b) by lia. transitivity (sumZ lo up (fun _ => 0)); [|apply sumZ_zero]. apply sumZ_ext. intros. unfold within.
      destruct ((a <=? i)%Z && (i <=? b)%Z) eqn:E; [exfalso; lia|reflexivity]. }
  assert (B0 : sumZ lo (a - 1) (fun i => if within a b i then f i else 0) = 0).
  { transitivity (sumZ lo (a - 1) (fun _ => 0)); [|apply sumZ_zero]. apply sumZ_ext. intros. rewrite within_out by lia. reflexivity. }
  assert (B1 : forall u, (a - 1 <= u)%Z -> (u <= b)%Z -> sumZ lo u (fun i => if within a b i then f i else 0) = sumZ a u f).
  { intros u HU. pattern u. apply Zlt_lower_bound_ind with (z := (a - 1)%Z); auto. clear u HU. intros u IH HU HB. destruct (Z.eq_dec u (a - 1)) as [->|].
    - rewrite B0, sumZ_empty by lia. auto.
    - rewrite (sumZ_last lo u), (sumZ_last a u) by lia. rewrite IH by lia. rewrite within_in by lia. auto. }
  intros up HB. pattern up. apply Zlt_lower_bound_ind with (z := b); auto. clear up HB. intros up IH HU. destruct (Z.eq_dec up b) as [->|].
  - apply B1; lia.
  - rewrite (sumZ_last lo up) by lia. rewrite IH by lia. rewrite within_out by lia. ring.
Qed.
Lemma total_ext : forall L F G, (forall k j i, F k j i = G k j i) -> total L F = total L G.
Proof. intros. unfold total. apply sumZ_ext; intros. apply sumZ_ext; intros. apply sumZ_ext; intros. auto. Qed.
Lemma total_plus : forall L F G, total L (fun k j i => F k j i + G k j i) = total L F + total L G.
Proof.
  intros. unfold total. rewrite <- sumZ_plus. apply sumZ_ext; intros. rewrite <- sumZ_plus. apply sumZ_ext; intros. rewrite <- sumZ_plus. auto.
Qed.
Lemma total_loop3 : forall L a b c d e f G, (l_lo L X3 <= a)%Z -> (b <= l_up L X3)%Z -> (l_lo L X2 <= c)%Z -> (d <= l_up L X2)%Z -> (l_lo L X1 <= e)%Z -> (f <= l_up L X1)%Z ->
  total L (fun k j i => if within a b k && (within c d j && within e f i) then G k j i else 0) = sumZ a b (fun k => sumZ c d (fun j => sumZ e f (fun i => G k j i))).
Proof.
  intros. unfold total. rewrite <- (sumZ_within (l_lo L X3) (l_up L X3) a b) by auto. apply sumZ_ext; intros k _. destruct (within a b k); cbn [andb].
  - rewrite <- (sumZ_within (l_lo L X2) (l_up L X2) c d) by auto. apply sumZ_ext; intros j _. destruct (within c d j); cbn [andb]; [apply sumZ_within; auto|apply sumZ_zero].
  - transitivity (sumZ (l_lo L X2) (l_up L X2) (fun _ => 0)); [|apply sumZ_zero]. apply sumZ_ext; intros. apply sumZ_zero.
Qed.
(** A member [pi] of the cells that distrFB_corr increases by weight times [f]. *)
Lemma distr_total : forall L m W F El Coup (pi : gpc -> R) f,
  (forall q w, pi (Gpc (gd q) (gv q) (gcs q) (V3 (q1 (fb q) + w * q1 F) (q2 (fb q) + w * q2 F) (q3 (fb q) + w * q3 F)) (FBstiff q) (Eloss q + w * El)) = pi q + w * f) ->
  total L (fun k j i => pi (distrFB_corr L m W F El Coup k j i)) = total L (fun k j i => pi (Coup k j i)) + clipped L m W (fun _ _ _ => 1) * f.
Proof.
  intros L m [[[w is] js] ks] F El Coup pi f H. rewrite <- (clipped_scal L m _ (fun _ _ _ => f)) by auto. unfold clipped. cbv zeta.
  rewrite <- (total_loop3 L) by lia. rewrite <- total_plus. apply total_ext. intros k j i. unfold distrFB_corr. cbv zeta. unfold loop3.
  destruct (within _ _ k && _); [apply H|ring].
Qed.
(** Mass of a particle, and the impulse it received by forces other than drag: dt times the force at the middle of its path. *)
Definition mass (K : pcfg) (g : grain) : R := gp_m (k_prop K (g_type g)).
Definition halfway (a b : v3) : v3 := vscale (1/2) (vadd a b).
(** Momentum the particle took from the gas: change of its momentum less that of the other forces. *)
Definition taken (K : pcfg) (dt : R) (g g' : grain) : v3 :=
  vscale (mass K g) (vsub (vsub (g_v g') (g_v g)) (vscale dt (Get_Force K (halfway (g_x g) (g_x g')) (halfway (g_v g) (g_v g'))))).
(** The stencil at the middle of the path lies within the Grid and its ghost zones. *)
Definition deposits_inside (K : pcfg) (L : plim) (pG : pgrid) (g g' : grain) : Prop :=
  forall W, getweight (k_interp K) pG (halfway (g_x g) (g_x g')) (cell1_of (k_Nx K) pG) junk = Ok W -> inside (k_Nx K) pG L (k_interp K) W.
Definition fb_total (L : plim) (Coup : cells gpc) : v3 :=
  V3 (total L (fun k j i => q1 (fb (Coup k j i)))) (total L (fun k j i => q2 (fb (Coup k j i)))) (total L (fun k j i => q3 (fb (Coup k j i)))).

Lemma corrector_total : forall K L pG dt g g' dv ts Coup Coup', feedback_corrector K L pG dt g g' dv ts Coup = Ok Coup' ->
  dv = vsub (g_v g') (g_v g) -> deposits_inside K L pG g g' -> fb_total L Coup' = vadd (fb_total L Coup) (taken K dt g g').
Proof.
  intros K L pG dt g g' dv ts Coup Coup' H DV IN. unfold feedback_corrector in H. cbv zeta in H.
  apply bind_ok in H. destruct H as (t & _ & H). apply bind_ok in H. destruct H as (r & _ & H). apply bind_ok in H. destruct H as (W & EW & H). injection H as <-.
  assert (EX : forall a b, V3 (1 / 2 * (q1 a + q1 b)) (1 / 2 * (q2 a + q2 b)) (1 / 2 * (q3 a + q3 b)) = halfway a b) by reflexivity. rewrite !EX in *.
  assert (ONE : clipped L (k_interp K) W (fun _ _ _ => 1) = 1).
  { rewrite (clipped_inside _ _ _ _ _ _ _ _ EW (IN W EW)). eapply C51_sum_is_one; eauto. }
  unfold fb_total, taken, mass. subst dv. set (f := Get_Force K (halfway (g_x g) (g_x g')) (halfway (g_v g) (g_v g'))).
  match goal with |- context [distrFB_corr L _ W ?y _ Coup] => set (f' := y) end. apply veq; cbn [q1 q2 q3 vadd vscale vsub].
  - rewrite (distr_total L _ W f' _ Coup (fun q => q1 (fb q)) (q1 f')) by reflexivity. rewrite ONE. unfold f'. cbn. ring.
  - rewrite (distr_total L _ W f' _ Coup (fun q => q2 (fb q)) (q2 f')) by reflexivity. rewrite ONE. unfold f'. cbn. ring.
  - rewrite (distr_total L _ W f' _ Coup (fun q => q3 (fb q)) (q3 f')) by reflexivity. rewrite ONE. unfold f'. cbn. ring.
Qed.

(** ** The integration step *)
Definition same_gas (A B : cells gpc) : Prop := forall k j i,
  gd (A k j i) = gd (B k j i) /\ gv (A k j i) = gv (B k j i) /\ gcs (A k j i) = gcs (B k j i) /\ FBstiff (A k j i) = FBstiff (B k j i).
Lemma clipped_ext : forall L m W F G, (forall k j i, F k j i = G k j i) -> clipped L m W F = clipped L m W G.
Proof.
  intros L m [[[w is] js] ks] F G H. unfold clipped. cbv zeta. apply sumZ_ext; intros. apply sumZ_ext; intros. apply sumZ_ext; intros. rewrite H. auto.
Qed.
Lemma getvalues_same : forall iso L m A B W, same_gas A B -> getvalues iso L m A W = getvalues iso L m B W.
Proof.
  intros iso L m A B W H. rewrite !getvalues_eq. cbv beta zeta.
  assert (E1 : clipped L m W (fun k j i => gd (A k j i)) = clipped L m W (fun k j i => gd (B k j i))) by (apply clipped_ext; intros; apply H).
  assert (E2 : clipped L m W (fun k j i => gcs (A k j i)) = clipped L m W (fun k j i => gcs (B k j i))) by (apply clipped_ext; intros; apply H).
  assert (E3 : clipped L m W (fun k j i => FBstiff (A k j i)) = clipped L m W (fun k j i => FBstiff (B k j i))) by (apply clipped_ext; intros; apply H).
  assert (E4 : forall p : v3 -> R, clipped L m W (fun k j i => p (gv (A k j i))) = clipped L m W (fun k j i => p (gv (B k j i)))).
  { intros p. apply clipped_ext. intros k j i. destruct (H k j i) as (_ & -> & _). auto. }
  rewrite E1, E2, E3, !E4. reflexivity.
Qed.
Lemma drag_same : forall K L pG dt A B ty x v, same_gas A B -> Get_Drag K L pG dt A ty x v = Get_Drag K L pG dt B ty x v.
Proof.
  intros. unfold Get_Drag. destruct (getweight _ _ _ _ _); auto. cbn [bind]. rewrite (getvalues_same _ _ _ A B) by auto. auto.
Qed.
Lemma int_par_same : forall K L pG dt A B g, same_gas A B -> int_par K L pG dt A g = int_par K L pG dt B g.
Proof.
  intros K L pG dt A B g H. unfold int_par, int_par_exp, int_par_semimp, int_par_fulimp. cbv zeta.
  rewrite !(drag_same K L pG dt A B _ _ _ H).
  destruct (_ =? 1)%Z. { destruct (Get_Drag K L pG dt B _ (g_x g) _) as [[fd t]| |]; cbn [bind]; auto. rewrite (drag_same K L pG dt A B _ _ _ H). auto. }
  destruct (_ =? 2)%Z; auto.
Qed.
Lemma same_refl : forall A, same_gas A A.
Proof. unfold same_gas; auto. Qed.
Lemma same_trans : forall A B C, same_gas A B -> same_gas B C -> same_gas A C.
Proof. intros A B C H1 H2 k j i. specialize (H1 k j i). specialize (H2 k j i). destruct H1 as (-> & -> & -> & ->). auto. Qed.
Lemma distr_same : forall L m W f e A, same_gas (distrFB_corr L m W f e A) A.
Proof. intros L m [[[w is] js] ks] f e A k j i. unfold distrFB_corr. cbv zeta. unfold loop3. destruct (within _ _ k && _); auto. Qed.
Lemma clear_same : forall L A, same_gas (feedback_clear L A) A.
Proof. intros L A k j i. unfold feedback_clear, loop3. destruct (within _ _ k && _); auto. Qed.

(** A particle before and after a step in the gas [Coup]: the velocity changes by the integrator's increment, the position by the mean of the old and new
    velocities (not along axes with one cell), the type and the identity stay. *)
Definition moved (K : pcfg) (L : plim) (pG : pgrid) (dt : R) (Coup : cells gpc) (g g' : grain) : Prop :=
  (exists ts, int_par K L pG dt Coup g = Ok (vsub (g_v g') (g_v g), ts)) /\
  (forall ax, coord ax (g_x g') = if (k_Nx K ax >? 1)%Z then coord ax (g_x g) + dt * coord ax (halfway (g_v g) (g_v g')) else coord ax (g_x g)) /\
  g_type g' = g_type g /\ g_id g' = g_id g /\ g_pos g' = JudgeCrossing K L (g_x g') (g_pos g).
Lemma int_one_ok : forall K L pG dt g Coup Coup0 g' Coup', same_gas Coup Coup0 -> int_one K L pG dt g Coup = Ok (g', Coup') ->
  moved K L pG dt Coup0 g g' /\ same_gas Coup' Coup0 /\
  (k_feedback K = true -> deposits_inside K L pG g g' -> fb_total L Coup' = vadd (fb_total L Coup) (taken K dt g g')).
Proof.
  intros K L pG dt g Coup Coup0 g' Coup' SG H. unfold int_one in H. apply bind_ok in H. destruct H as ([dv ts] & EP & H). cbv zeta in H.
  apply bind_ok in H. destruct H as (C & EC & H). injection H as <- <-.
  rewrite (int_par_same _ _ _ _ _ _ _ SG) in EP.
  assert (DV : vsub (plus3 (g_v g) dv) (g_v g) = dv) by (apply veq; cbn; ring).
  split; [|split].
  - split; [exists ts; cbn [g_v]; rewrite DV; auto|]. split; [|auto]. intros ax. cbn [g_x g_v]. destruct ax; cbn [coord q1 q2 q3 halfway vscale vadd plus3]; match goal with |- context [(?n >? 1)%Z] => destruct (n >? 1)%Z end; auto; field.
  - destruct (k_feedback K).
    + unfold feedback_corrector in EC. cbv zeta in EC. apply bind_ok in EC. destruct EC as (t & _ & EC). apply bind_ok in EC. destruct EC as (r & _ & EC). apply bind_ok in EC. destruct EC as (W & _ & EC).
      injection EC as <-. eapply same_trans; [apply distr_same|auto].
    + injection EC as <-. auto.
  - intros FB IN. rewrite FB in EC. eapply corrector_total in EC; [exact EC| |exact IN]. cbn [g_v]. auto.
Qed.
Definition vsum (l : list v3) : v3 := fold_right vadd (V3 0 0 0) l.
Lemma int_all_ok : forall K L pG dt Coup0 m p a Coup a' Coup', (0 <= p)%Z -> same_gas Coup Coup0 -> int_all K L pG dt m p a Coup = Ok (a', Coup') ->
  (forall t, (t < p \/ p + Z.of_nat m <= t)%Z -> a' t = a t) /\ same_gas Coup' Coup0 /\
  Forall2 (moved K L pG dt Coup0) (seg p (p + Z.of_nat m) a) (seg p (p + Z.of_nat m) a') /\
  (k_feedback K = true -> Forall2 (deposits_inside K L pG) (seg p (p + Z.of_nat m) a) (seg p (p + Z.of_nat m) a') ->
    fb_total L Coup' = vadd (fb_total L Coup) (vsum (map (fun gg => taken K dt (fst gg) (snd gg)) (combine (seg p (p + Z.of_nat m) a) (seg p (p + Z.of_nat m) a'))))).
Proof.
  intros K L pG dt Coup0. induction m as [|m IH]; intros p a Coup a' Coup' HP SG H.
  - cbn in H. injection H as <- <-. split; auto. split; auto. unfold seg. rewrite Z.add_0_r, Z.sub_diag. cbn. split; auto. intros. apply veq; cbn; ring.
  - cbn [int_all] in H. apply bind_ok in H. destruct H as ([g C] & E1 & H).
    destruct (int_one_ok _ _ _ _ _ _ _ _ _ SG E1) as (M1 & M2 & M3).
    destruct (IH (p + 1)%Z (upd a p g) C a' Coup' ltac:(lia) M2 H) as (K1 & K2 & K3 & K4).
    replace (p + 1 + Z.of_nat m)%Z with (p + Z.of_nat (S m))%Z in * by lia.
    assert (AP : a' p = g). { rewrite K1 by lia. unfold upd. rewrite Z.eqb_refl. auto. }
    assert (SE : seg (p + 1) (p + Z.of_nat (S m)) (upd a p g) = seg (p + 1) (p + Z.of_nat (S m)) a).
    { apply seg_ext. intros t Ht. unfold upd. replace (t =? p)%Z with false by lia. auto. }
    rewrite SE in *. rewrite (seg_step p _ a), (seg_step p _ a') by lia. rewrite AP.
    split. { intros t Ht. rewrite K1 by lia. unfold upd. replace (t =? p)%Z with false by lia. auto. }
    split; auto. split; [constructor; auto|]. intros FB IN. inversion IN; subst. rewrite K4, M3 by auto. cbn [combine map vsum fold_right fst snd].
    fold (vsum (map (fun gg : grain * grain => taken K dt (fst gg) (snd gg)) (combine (seg (p + 1) (p + Z.of_nat (S m)) a) (seg (p + 1) (p + Z.of_nat (S m)) a')))).
    apply veq; cbn; ring.
Qed.

(** *** C69: a step keeps exactly the particles that are not ghosts, each moved in the gas of the start of the step (so the order of the particles in memory does not matter). *)
Theorem C69_integrate : forall K L pG dt n a num Coup a' n' num' Coup', (0 <= n)%Z ->
  Integrate_Particles K L pG dt n a num Coup = Ok (a', n', num', Coup') ->
  exists l, Permutation l (filter (fun g => negb (ghost g)) (first n a)) /\ Forall2 (moved K L pG dt Coup) l (first n' a') /\ same_gas Coup' Coup /\
    (forall ty, num' ty = (num ty - how_many ty (filter ghost (first n a)))%Z).
Proof.
  intros K L pG dt n a num Coup a' n' num' Coup' HN H. unfold Integrate_Particles in H. cbv zeta in H. apply bind_ok in H. destruct H as ([[b m] nu] & ED & H).
  apply bind_ok in H. destruct H as ([b' C] & EI & H). injection H as <- <- <- <-.
  destruct (C69_delete_ghost n a num HN) as (b0 & m0 & nu0 & D1 & D2 & D3 & D4). rewrite ED in D1. injection D1 as <- <- <-.
  assert (SG : same_gas (if k_feedback K then feedback_clear L Coup else Coup) Coup) by (destruct (k_feedback K); [apply clear_same|apply same_refl]).
  destruct (int_all_ok K L pG dt Coup (Z.to_nat m) 0 b _ b' C ltac:(lia) SG EI) as (_ & S & F & _).
  exists (first m b). rewrite !first_seg. replace (0 + Z.of_nat (Z.to_nat m))%Z with m in F by lia. rewrite !first_seg in D3. rewrite first_seg in D4. auto.
Qed.
Print Assumptions C69_integrate.

Lemma cleared : forall L Coup, fb_total L (feedback_clear L Coup) = V3 0 0 0.
Proof.
  intros L Coup. assert (Z0 : total L (fun _ _ _ => 0) = 0).
  { unfold total. transitivity (sumZ (l_lo L X3) (l_up L X3) (fun _ => 0)); [|apply sumZ_zero]. apply sumZ_ext; intros.
    transitivity (sumZ (l_lo L X2) (l_up L X2) (fun _ => 0)); [|apply sumZ_zero]. apply sumZ_ext; intros. apply sumZ_zero. }
  apply veq; cbn [q1 q2 q3 fb_total]; (transitivity (total L (fun _ _ _ => 0)); [|exact Z0]);
  unfold total; apply sumZ_ext; intros; apply sumZ_ext; intros; apply sumZ_ext; intros; unfold feedback_clear; rewrite loop3_in by auto; reflexivity.
Qed.
(** *** C68: the feedback of a step is the momentum the particles took from the gas. *)
Theorem C68_momentum : forall K L pG dt n a num Coup a' n' num' Coup', (0 <= n)%Z -> k_feedback K = true ->
  Integrate_Particles K L pG dt n a num Coup = Ok (a', n', num', Coup') ->
  exists l, Permutation l (filter (fun g => negb (ghost g)) (first n a)) /\ Forall2 (moved K L pG dt Coup) l (first n' a') /\
    (Forall2 (deposits_inside K L pG) l (first n' a') ->
     fb_total L Coup' = vsum (map (fun gg => taken K dt (fst gg) (snd gg)) (combine l (first n' a')))).
Proof.
  intros K L pG dt n a num Coup a' n' num' Coup' HN FB H. unfold Integrate_Particles in H. cbv zeta in H. rewrite FB in H. apply bind_ok in H. destruct H as ([[b m] nu] & ED & H).
  apply bind_ok in H. destruct H as ([b' C] & EI & H). injection H as <- <- <- <-.
  destruct (C69_delete_ghost n a num HN) as (b0 & m0 & nu0 & D1 & D2 & D3 & D4). rewrite ED in D1. injection D1 as <- <- <-.
  destruct (int_all_ok K L pG dt Coup (Z.to_nat m) 0 b _ b' C ltac:(lia) (clear_same L Coup) EI) as (_ & S & F & T).
  exists (first m b). rewrite !first_seg in *. replace (0 + Z.of_nat (Z.to_nat m))%Z with m in F, T by lia. split; auto. split; auto. intros IN.
  rewrite (T FB IN), cleared. apply veq; cbn; ring.
Qed.
Print Assumptions C68_momentum.

(** *** C68: the energy dissipated by drag is deposited with it: it is never negative for the schemes with non-negative weights. *)
Theorem C68_dissipation : forall K L pG dt g g' dv ts Coup Coup' k j i, k_interp K <> QP -> (forall ax, 0 < p_dx pG ax) ->
  in_array (k_Nx K) pG (halfway (g_x g) (g_x g')) -> 0 <= mass K g -> 0 < dt -> (forall t, ts = Some t -> 0 <= t) ->
  feedback_corrector K L pG dt g g' dv ts Coup = Ok Coup' -> Eloss (Coup k j i) <= Eloss (Coup' k j i).
Proof.
  intros K L pG dt g g' dv ts Coup Coup' k j i NQ D A M DT TS H. unfold feedback_corrector in H. cbv zeta in H.
  apply bind_ok in H. destruct H as (t & Et & H). apply bind_ok in H. destruct H as (r & Er & H). apply bind_ok in H. destruct H as (W & EW & H). injection H as <-.
  apply lift_ok in Et, Er. apply odiv_inv in Er. destruct Er as [_ ->]. specialize (TS t Et).
  destruct W as [[[w is] js] ks]. unfold distrFB_corr. cbv zeta. unfold loop3.
  match goal with |- context [if ?b then _ else _] => destruct b eqn:E end; [|lra]. cbn [Eloss].
  match goal with |- _ <= _ + w ?a ?b ?c * ?e => assert (0 <= w a b c * e) end; [|lra].
  apply Rmult_le_pos.
  - unfold within in E. eapply C51_non_negative; [exact NQ|exact D|exact A|exact EW| | |]; lia.
  - apply Rmult_le_pos; [apply Rmult_le_pos; [exact M|apply sq3]|]. unfold Rdiv. apply Rmult_le_pos; auto. left. apply Rinv_0_lt_compat. auto.
Qed.
Print Assumptions C68_dissipation.

(** ** C71: particles that leave *)
Definition outside (L : plim) (ax : axis) (x : v3) : Prop := coord ax x < l_xlo L ax \/ l_xup L ax <= coord ax x.
(** Axes along which particles that leave are marked: all but x2 with FARGO in the xy plane (FARGO brings those back). *)
Definition watched (K : pcfg) (ax : axis) : Prop :=
  match k_sh K with Some s => ~ (fargo s = true /\ sh_xy s = true /\ ax = X2) | None => True end.
Lemma judge : forall K L x pos, (exists ax, watched K ax /\ outside L ax x) /\ JudgeCrossing K L x pos = 10%Z \/
  ~ (exists ax, watched K ax /\ outside L ax x) /\ JudgeCrossing K L x pos = pos.
Proof.
  intros K L x pos. unfold JudgeCrossing, ge, lt, outside, watched. cbv zeta.
  destruct (Rle_dec (l_xup L X1) (q1 x)) as [A|A], (Rlt_dec (q1 x) (l_xlo L X1)) as [A'|A'], (Rle_dec (l_xup L X2) (q2 x)) as [B|B], (Rlt_dec (q2 x) (l_xlo L X2)) as [B'|B'],
    (Rle_dec (l_xup L X3) (q3 x)) as [C|C], (Rlt_dec (q3 x) (l_xlo L X3)) as [C'|C']; cbn [orb];
  destruct (k_sh K) as [s|]; try destruct (fargo s), (sh_xy s); cbn [orb negb andb];
  first [ left; split; [|reflexivity]; first [ exists X1; split; [solve [auto|intros (?&?&?); congruence]|cbn [coord]; auto; fail]
                                            | exists X3; split; [solve [auto|intros (?&?&?); congruence]|cbn [coord]; auto; fail]
                                            | exists X2; split; [solve [auto|intros (?&?&?); congruence]|cbn [coord]; auto; fail] ]
        | right; split; [|reflexivity]; intros ([| |] & W & [O|O]); cbn [coord] in O; solve [contradiction|apply W; auto] ].
Qed.
(** Exactly the particles outside the limits are marked as crossing. *)
Theorem C71_marked : forall K L x pos, pos <> 10%Z ->
  (JudgeCrossing K L x pos = 10%Z <-> exists ax, watched K ax /\ outside L ax x) /\ (JudgeCrossing K L x pos <> 10%Z -> JudgeCrossing K L x pos = pos).
Proof. intros K L x pos HP. destruct (judge K L x pos) as [[E ->]|[E ->]]; split; try tauto. Qed.
Print Assumptions C71_marked.
(** Without outflow boundaries the limits are the edges of the Grid (for an axis with one cell the upper edge is moved by one). *)
Theorem C71_limits : forall nghost Nx pG e MaxX ax, (1 <= Nx ax)%Z ->
  let L := grid_limit nghost Nx pG e MaxX (fun _ => false) (fun _ => false) in
  l_xlo L ax = p_MinX pG ax /\ l_xup L ax = if (Nx ax >? 1)%Z then MaxX ax else MaxX ax + 1.
Proof.
  intros nghost Nx pG e MaxX ax HN L. unfold L, grid_limit. cbn [l_xlo l_xup]. destruct ax; (split; [reflexivity|]).
  all: match goal with |- context [(?n =? 1)%Z] => destruct (Z.eqb_spec n 1), (Z.gtb_spec n 1); try lia end; ring.
Qed.
Print Assumptions C71_limits.
(** With outflow boundaries along x1 and x2 particles may go nghost-1 cells beyond the edges. *)
Theorem C71_outflow : forall nghost Nx pG e MaxX bci bco ax, ax <> X3 -> (1 < Nx ax)%Z ->
  let L := grid_limit nghost Nx pG e MaxX bci bco in
  l_xlo L ax = (if bci ax then p_MinX pG ax - IZR (nghost - 1) * p_dx pG ax else p_MinX pG ax) /\
  l_xup L ax = (if bco ax then MaxX ax + IZR (nghost - 1) * p_dx pG ax else MaxX ax).
Proof.
  intros nghost Nx pG e MaxX bci bco ax A HN L. unfold L, grid_limit. cbn [l_xlo l_xup]. destruct ax; try congruence;
  match goal with |- context [(?n =? 1)%Z] => destruct (Z.eqb_spec n 1), (Z.gtb_spec n 1); try lia end; rewrite Z.mul_1_r; split; auto; ring.
Qed.
Print Assumptions C71_outflow.
(** Along x3 the sign is wrong: particles in the three lowest active layers are removed. *)
Theorem C71_x3_outflow_refuted : exists K Nx pG e MaxX x,
  let L := grid_limit 4 Nx pG e MaxX (fun a => match a with X3 => true | _ => false end) (fun _ => false) in
  (forall ax, 1 < Nx ax)%Z /\ (forall ax, 0 < p_dx pG ax) /\ (forall ax, p_MinX pG ax <= coord ax x < MaxX ax) /\ k_sh K = None /\
  JudgeCrossing K L x 1 = 10%Z.
Proof.
  exists (Pcfg TSC Fixed None false None (fun _ u => u) (fun _ _ => V3 0 0 0) (fun _ => Gprop 1 1 1 1 2) (fun _ => 8%Z)), (fun _ => 8%Z), (PG (fun _ => 4%Z) (fun _ => 0) (fun _ => 1)),
    (fun _ => 11%Z), (fun _ => 8), (V3 4 4 2). cbv zeta. split; [intros; cbn; lia|]. split; [intros; cbn; lra|].
  split; [intros []; cbn; lra|]. split; [reflexivity|].
  match goal with |- JudgeCrossing ?K ?L ?x 1 = _ => destruct (C71_marked K L x 1 ltac:(lia)) as [[_ H] _]; apply H end.
  exists X3. split; [exact I|]. left. cbn. lra.
Qed.
Print Assumptions C71_x3_outflow_refuted.

(** ** The explicit integrator is not stable *)
Definition s_Kf (f : bool) : pcfg := Pcfg TSC Fixed None f None (fun _ u => u) (fun _ _ => V3 0 0 0) (fun _ => Gprop 1 1 1 1 1) e_Nx.
Definition s_K : pcfg := s_Kf false.
Definition s_gas : cells gpc := fun _ _ _ => Gpc 1 (V3 0 0 0) 1 (V3 0 0 0) 0 0.
Definition s_g : grain := Grain (V3 (9/4) 0 0) (V3 (1/12) 0 0) 0 1 7.
Lemma ex_only_drag : only_drag s_K e_L s_gas (V3 0 0 0).
Proof. split; [exists 1, 1, 0; auto|]. split; auto. Qed.
Lemma s_weights : forall x1, 9/4 <= x1 < 3 -> exists W, getweight TSC e_pg (V3 x1 0 0) (cell1_of e_Nx e_pg) junk = Ok W /\ inside e_Nx e_pg e_L TSC W.
Proof.
  intros x1 HX. cbn [getweight]. unfold getwei_TSC, cell1_of. cbn [e_Nx q1 q2 q3 Z.gtb Z.compare Pos.compare Pos.compare_cont e_pg p_dx p_s p_MinX].
    unfold tsc_axis. destruct (Rlt_dec 0 (1 / 1)) as [|N]; [|exfalso; apply N; lra]. destruct (Rlt_dec 0 0) as [N|_]; [exfalso; lra|].
    unfold celli. cbn [e_pg p_dx p_s p_MinX]. replace ((x1 - 0) * (1 / 1) + 4) with (IZR 6 + (x1 - 2)) by (cbn; lra). rewrite c_int_mid by (lia || lra). cbn [bind].
    eexists. split; [reflexivity|]. intros []; cbn; lia.
Qed.
Lemma s_drag : forall f x1 v, 9/4 <= x1 < 3 -> Get_Drag (s_Kf f) e_L e_pg 3 s_gas 0 (V3 x1 0 0) v = Ok (vscale (-1) v, 1).
Proof.
  intros f x1 v HX. destruct (s_weights x1 HX) as (W & EW & IN). destruct (C51_values None TSC e_Nx e_pg (V3 x1 0 0) junk W e_L s_gas EW IN) as (V & EV & _).
  pose proof (C51_uniform None TSC W e_L s_gas V 1 (V3 0 0 0) 1 0 ltac:(auto) EV) as (R1 & R2 & R3 & R4).
  unfold Get_Drag. cbn [s_Kf k_interp k_iso k_ts k_feedback k_gasvshift k_Nx k_prop]. rewrite EW. cbn [bind]. rewrite EV, R2. rewrite osqrt_ok by apply sq3. cbn [lift bind get_ts].
  unfold get_ts_fixed, ts_floor. cbn [gp_tstop0]. destruct (Rlt_dec 1 (1 / 100000000 * 3)) as [X|_]; [lra|]. cbn [lift bind]. rewrite R3, MAX_l by lra. assert (E : (if f then 1 * 1 else 1) = 1) by (destruct f; lra). rewrite E. rewrite odiv_ok by lra. cbn [lift bind].
  f_equal. f_equal; [apply veq; cbn; lra|lra].
Qed.
Theorem C70_explicit_refuted : exists dv ts, int_par s_K e_L e_pg 3 s_gas s_g = Ok (dv, ts) /\ only_drag s_K e_L s_gas (V3 0 0 0) /\
  vadd (g_v s_g) dv = vscale (5/2) (g_v s_g).
Proof.
  unfold int_par. cbn [s_K s_Kf k_prop gp_int s_g g_type]. change (1 =? 1)%Z with true. cbv iota. unfold int_par_exp. cbv zeta. cbn [g_type g_x g_v s_g].
  rewrite ?(s_drag false) by lra. cbn [bind]. unfold predict. cbn [k_Nx s_K s_Kf e_Nx k_sh g_x g_v q1 q2 q3 s_g Z.gtb Z.compare Pos.compare Pos.compare_cont].
  rewrite ?(s_drag false) by lra. cbn [bind]. eexists. eexists. split; [reflexivity|]. split; [apply ex_only_drag|]. apply veq; cbn; field.
Qed.
Print Assumptions C70_explicit_refuted.

(** ** The hypotheses are met *)
Example ex_linear : linear_drag s_K.
Proof. split; cbn; auto. Qed.
Example ex_semi : exists dv ts, int_par_semimp s_K e_L e_pg 3 s_gas s_g = Ok (dv, ts).
Proof.
  unfold int_par_semimp, predict. cbn [k_Nx s_K s_Kf e_Nx k_sh g_x g_v q1 q2 q3 s_g Z.gtb Z.compare Pos.compare Pos.compare_cont g_type]. cbv zeta.
  rewrite ?(s_drag false) by lra. cbn [bind]. rewrite odiv_ok by lra. cbn [obind lift bind]. eauto.
Qed.
Example ex_full : exists dv ts, int_par_fulimp s_K e_L e_pg 3 s_gas s_g = Ok (dv, ts).
Proof.
  unfold int_par_fulimp, predict. cbn [k_Nx s_K s_Kf e_Nx k_sh g_x g_v q1 q2 q3 s_g Z.gtb Z.compare Pos.compare Pos.compare_cont g_type]. cbv zeta.
  rewrite ?(s_drag false) by lra. cbn [bind]. rewrite ?(s_drag false) by lra. cbn [bind]. rewrite odiv_ok by lra. cbn [obind lift bind]. eauto.
Qed.
(** With feedback: one particle, all hypotheses of C68 hold. *)
Example ex_step : exists a' C', Integrate_Particles (s_Kf true) e_L e_pg 3 1 (fun _ => s_g) (fun _ => 1%Z) s_gas = Ok (a', 1%Z, fun _ => 1%Z, C') /\
  deposits_inside (s_Kf true) e_L e_pg s_g (a' 0%Z).
Proof.
  assert (SD : forall x1 v, 9/4 <= x1 < 3 -> Get_Drag (s_Kf true) e_L e_pg 3 (feedback_clear e_L s_gas) 0 (V3 x1 0 0) v = Ok (vscale (-1) v, 1)).
  { intros. rewrite (drag_same _ _ _ _ _ s_gas) by apply clear_same. apply s_drag. auto. }
  unfold Integrate_Particles. cbn [k_feedback s_Kf]. cbv zeta. unfold Delete_Ghost. change (Z.to_nat 1) with 1%nat.
  change (delete_from 1 0 1 (fun _ => s_g) (fun _ => 1%Z)) with (Ok (fun _ : Z => s_g, 1%Z, fun _ : Z => 1%Z)). cbn [bind int_all]. change (Z.to_nat 1) with 1%nat. cbn [int_all].
  unfold int_one, int_par. fold (s_Kf true). cbn [k_prop s_Kf gp_int]. change (1 =? 1)%Z with true. cbv iota. fold (s_Kf true). unfold int_par_exp. cbv zeta. cbn [g_type g_x g_v s_g].
  rewrite SD by lra. cbn [bind]. unfold predict. cbn [k_Nx s_Kf e_Nx k_sh g_x g_v q1 q2 q3 s_g Z.gtb Z.compare Pos.compare Pos.compare_cont]. fold (s_Kf true).
  rewrite SD by lra. cbn [bind]. cbn [k_feedback s_Kf]. fold (s_Kf true). unfold feedback_corrector. rewrite (odiv_ok 1 1) by lra. cbn [lift bind]. rewrite odiv_ok by lra. cbn [lift bind].
  cbn [g_x g_v g_type q1 q2 q3]. cbv zeta. cbn [k_interp k_Nx s_Kf]. fold (s_Kf true).
  match goal with |- context [getweight TSC e_pg (V3 ?x ?y ?z) _ _] => destruct (s_weights (79/32)) as (W & EW & IN); [lra|]; replace (V3 x y z) with (V3 (79/32) 0 0) by (apply veq; cbn; lra) end.
  rewrite EW. cbn [bind]. eexists. eexists. split; [reflexivity|]. intros W' EW'. unfold upd in EW'. rewrite Z.eqb_refl in EW'. cbn [k_interp k_Nx s_Kf] in EW'. unfold halfway, vscale, vadd in EW'. cbn [g_x q1 q2 q3 s_g] in EW'.
  match type of EW' with getweight TSC e_pg (V3 ?x ?y ?z) _ _ = _ => replace (V3 x y z) with (V3 (79/32) 0 0) in EW' by (apply veq; cbn; lra) end.
  rewrite EW in EW'. injection EW' as <-. exact IN.
Qed.
