(** Property C59: the eigensystems used for characteristic reconstruction and
    tracing are those of the equations in primitive variables. *)
From Coq Require Import Reals ZArith Arith Lra Lia List.
From Verif Require Import GasModel ConvProps ReconModel ReconSpec ReconProps EsysPrimModel.
Import ListNotations.
Open Scope R_scope.

(** ** Specification: the equations W_t + A W_x = 0 in one dimension.
    Variables in the order of Prim1DS: d, Vx, Vy, Vz, [P], [By, Bz]. *)
Definition A_iso_hyd (a d v : R) := mat
  [[v; d; 0; 0];
   [a * a / d; v; 0; 0];
   [0; 0; v; 0];
   [0; 0; 0; v]].
Definition A_adb_hyd (d v rho_a2 : R) := mat
  [[v; d; 0; 0; 0];
   [0; v; 0; 0; / d];
   [0; 0; v; 0; 0];
   [0; 0; 0; v; 0];
   [0; rho_a2; 0; 0; v]].
Definition A_iso_mhd (a d v b1 b2 b3 : R) := mat
  [[v; d; 0; 0; 0; 0];
   [a * a / d; v; 0; 0; b2 / d; b3 / d];
   [0; 0; v; 0; - b1 / d; 0];
   [0; 0; 0; v; 0; - b1 / d];
   [0; b2; - b1; 0; v; 0];
   [0; b3; 0; - b1; 0; v]].
Definition A_adb_mhd (d v rho_a2 b1 b2 b3 : R) := mat
  [[v; d; 0; 0; 0; 0; 0];
   [0; v; 0; 0; / d; b2 / d; b3 / d];
   [0; 0; v; 0; 0; - b1 / d; 0];
   [0; 0; 0; v; 0; 0; - b1 / d];
   [0; rho_a2; 0; 0; v; 0; 0];
   [0; b2; - b1; 0; 0; v; 0];
   [0; b3; 0; - b1; 0; 0; v]].

(** Column n of [rem] is a right eigenvector of A for ev[n], row n of [lem] a
    left one, and the two matrices are inverse to each other. *)
Definition eigensystem_of (nw : nat) (A : nat -> nat -> R) (e : esystem) : Prop :=
  complete nw e /\
  (forall m k, (m < nw)%nat -> (k < nw)%nat -> sum nw (fun n => lem e m n * rem e n k) = if Nat.eqb m k then 1 else 0) /\
  (forall m n, (m < nw)%nat -> (n < nw)%nat -> sum nw (fun k => A m k * rem e k n) = ev e n * rem e m n) /\
  (forall m n, (m < nw)%nat -> (n < nw)%nat -> sum nw (fun k => lem e n k * A k m) = ev e n * lem e n m) /\
  (forall m n, (m <= n)%nat -> (n < nw)%nat -> ev e m <= ev e n).

Lemma upto4 (P : nat -> Prop) : P 0%nat -> P 1%nat -> P 2%nat -> P 3%nat -> forall m, (m < 4)%nat -> P m.
Proof. intros. destruct m as [|m]; [assumption|]. destruct m as [|m]; [assumption|]. destruct m as [|m]; [assumption|]. destruct m as [|m]; [assumption|].  lia. Qed.
Lemma upto4x (P : nat -> nat -> Prop) : P 0%nat 0%nat -> P 0%nat 1%nat -> P 0%nat 2%nat -> P 0%nat 3%nat -> P 1%nat 0%nat -> P 1%nat 1%nat -> P 1%nat 2%nat -> P 1%nat 3%nat -> P 2%nat 0%nat -> P 2%nat 1%nat -> P 2%nat 2%nat -> P 2%nat 3%nat -> P 3%nat 0%nat -> P 3%nat 1%nat -> P 3%nat 2%nat -> P 3%nat 3%nat -> forall m k, (m < 4)%nat -> (k < 4)%nat -> P m k.
Proof. intros until 16. intros m k M. revert k. pattern m. revert m M. apply upto4; apply upto4; assumption. Qed.
Ltac entries4 := match goal with |- forall m k, _ -> _ -> @?P m k => apply (upto4x P); cbv beta end.
Lemma upto5 (P : nat -> Prop) : P 0%nat -> P 1%nat -> P 2%nat -> P 3%nat -> P 4%nat -> forall m, (m < 5)%nat -> P m.
Proof. intros. destruct m as [|m]; [assumption|]. destruct m as [|m]; [assumption|]. destruct m as [|m]; [assumption|]. destruct m as [|m]; [assumption|]. destruct m as [|m]; [assumption|].  lia. Qed.
Lemma upto5x (P : nat -> nat -> Prop) : P 0%nat 0%nat -> P 0%nat 1%nat -> P 0%nat 2%nat -> P 0%nat 3%nat -> P 0%nat 4%nat -> P 1%nat 0%nat -> P 1%nat 1%nat -> P 1%nat 2%nat -> P 1%nat 3%nat -> P 1%nat 4%nat -> P 2%nat 0%nat -> P 2%nat 1%nat -> P 2%nat 2%nat -> P 2%nat 3%nat -> P 2%nat 4%nat -> P 3%nat 0%nat -> P 3%nat 1%nat -> P 3%nat 2%nat -> P 3%nat 3%nat -> P 3%nat 4%nat -> P 4%nat 0%nat -> P 4%nat 1%nat -> P 4%nat 2%nat -> P 4%nat 3%nat -> P 4%nat 4%nat -> forall m k, (m < 5)%nat -> (k < 5)%nat -> P m k.
Proof. intros until 25. intros m k M. revert k. pattern m. revert m M. apply upto5; apply upto5; assumption. Qed.
Ltac entries5 := match goal with |- forall m k, _ -> _ -> @?P m k => apply (upto5x P); cbv beta end.
Lemma upto6 (P : nat -> Prop) : P 0%nat -> P 1%nat -> P 2%nat -> P 3%nat -> P 4%nat -> P 5%nat -> forall m, (m < 6)%nat -> P m.
Proof. intros. destruct m as [|m]; [assumption|]. destruct m as [|m]; [assumption|]. destruct m as [|m]; [assumption|]. destruct m as [|m]; [assumption|]. destruct m as [|m]; [assumption|]. destruct m as [|m]; [assumption|].  lia. Qed.
Lemma upto6x (P : nat -> nat -> Prop) : P 0%nat 0%nat -> P 0%nat 1%nat -> P 0%nat 2%nat -> P 0%nat 3%nat -> P 0%nat 4%nat -> P 0%nat 5%nat -> P 1%nat 0%nat -> P 1%nat 1%nat -> P 1%nat 2%nat -> P 1%nat 3%nat -> P 1%nat 4%nat -> P 1%nat 5%nat -> P 2%nat 0%nat -> P 2%nat 1%nat -> P 2%nat 2%nat -> P 2%nat 3%nat -> P 2%nat 4%nat -> P 2%nat 5%nat -> P 3%nat 0%nat -> P 3%nat 1%nat -> P 3%nat 2%nat -> P 3%nat 3%nat -> P 3%nat 4%nat -> P 3%nat 5%nat -> P 4%nat 0%nat -> P 4%nat 1%nat -> P 4%nat 2%nat -> P 4%nat 3%nat -> P 4%nat 4%nat -> P 4%nat 5%nat -> P 5%nat 0%nat -> P 5%nat 1%nat -> P 5%nat 2%nat -> P 5%nat 3%nat -> P 5%nat 4%nat -> P 5%nat 5%nat -> forall m k, (m < 6)%nat -> (k < 6)%nat -> P m k.
Proof. intros until 36. intros m k M. revert k. pattern m. revert m M. apply upto6; apply upto6; assumption. Qed.
Ltac entries6 := match goal with |- forall m k, _ -> _ -> @?P m k => apply (upto6x P); cbv beta end.
Lemma upto7 (P : nat -> Prop) : P 0%nat -> P 1%nat -> P 2%nat -> P 3%nat -> P 4%nat -> P 5%nat -> P 6%nat -> forall m, (m < 7)%nat -> P m.
Proof. intros. destruct m as [|m]; [assumption|]. destruct m as [|m]; [assumption|]. destruct m as [|m]; [assumption|]. destruct m as [|m]; [assumption|]. destruct m as [|m]; [assumption|]. destruct m as [|m]; [assumption|]. destruct m as [|m]; [assumption|].  lia. Qed.
Lemma upto7x (P : nat -> nat -> Prop) : P 0%nat 0%nat -> P 0%nat 1%nat -> P 0%nat 2%nat -> P 0%nat 3%nat -> P 0%nat 4%nat -> P 0%nat 5%nat -> P 0%nat 6%nat -> P 1%nat 0%nat -> P 1%nat 1%nat -> P 1%nat 2%nat -> P 1%nat 3%nat -> P 1%nat 4%nat -> P 1%nat 5%nat -> P 1%nat 6%nat -> P 2%nat 0%nat -> P 2%nat 1%nat -> P 2%nat 2%nat -> P 2%nat 3%nat -> P 2%nat 4%nat -> P 2%nat 5%nat -> P 2%nat 6%nat -> P 3%nat 0%nat -> P 3%nat 1%nat -> P 3%nat 2%nat -> P 3%nat 3%nat -> P 3%nat 4%nat -> P 3%nat 5%nat -> P 3%nat 6%nat -> P 4%nat 0%nat -> P 4%nat 1%nat -> P 4%nat 2%nat -> P 4%nat 3%nat -> P 4%nat 4%nat -> P 4%nat 5%nat -> P 4%nat 6%nat -> P 5%nat 0%nat -> P 5%nat 1%nat -> P 5%nat 2%nat -> P 5%nat 3%nat -> P 5%nat 4%nat -> P 5%nat 5%nat -> P 5%nat 6%nat -> P 6%nat 0%nat -> P 6%nat 1%nat -> P 6%nat 2%nat -> P 6%nat 3%nat -> P 6%nat 4%nat -> P 6%nat 5%nat -> P 6%nat 6%nat -> forall m k, (m < 7)%nat -> (k < 7)%nat -> P m k.
Proof. intros until 49. intros m k M. revert k. pattern m. revert m M. apply upto7; apply upto7; assumption. Qed.
Ltac entries7 := match goal with |- forall m k, _ -> _ -> @?P m k => apply (upto7x P); cbv beta end.

Lemma sqrt_both x : 0 < x -> 0 < sqrt x /\ sqrt x * sqrt x = x.
Proof. intros H. split; [apply sqrt_lt_R0; exact H|apply sqrt_sqrt; lra]. Qed.

Theorem C59_iso_hydro : forall cs d v1, 0 < cs -> 0 < d ->
  eigensystem_of 4 (A_iso_hyd cs d v1) (esys_prim_iso_hyd cs d v1).
Proof.
  intros cs d v1 C D. set (E0 := esys_prim_iso_hyd cs d v1). unfold eigensystem_of, complete. repeat split.
  5:{ assert (S0 : forall m k, (m < 4)%nat -> (k < 4)%nat -> (m <= k)%nat -> ev E0 m <= ev E0 k). { apply (upto4x (fun m k => (m <= k)%nat -> ev E0 m <= ev E0 k)); intros L; try (exfalso; lia); cbn; lra. }
      intros m n L K. apply S0; lia. }
  all: subst E0; entries4; cbv [sum fold_right seq esys_prim_iso_hyd A_iso_hyd lem rem ev mat nth Nat.eqb]; unfold half; field; lra.
Qed.
Print Assumptions C59_iso_hydro.

Theorem C59_adb_hydro : forall d v1 rho_a2, 0 < d -> 0 < rho_a2 ->
  eigensystem_of 5 (A_adb_hyd d v1 rho_a2) (esys_prim_adb_hyd d v1 rho_a2).
Proof.
  intros d v1 q D Q. unfold eigensystem_of, complete, esys_prim_adb_hyd.
  assert (P : 0 < q / d) by (apply Rdiv_lt_0_compat; assumption).
  destruct (sqrt_both _ P) as [A A2]. cbv zeta. set (a := sqrt (q / d)) in *. assert (QE : q = a * a * d) by (rewrite A2; field; lra).
  rewrite <- A2. rewrite QE. clearbody a. clear QE A2 P Q. match goal with |- context [complete _ ?e] => set (E0 := e) | |- context [ev ?e] => set (E0 := e) end. assert (N : a <> 0) by lra. assert (M : d <> 0) by lra. repeat split.
  5:{ assert (S0 : forall m k, (m < 5)%nat -> (k < 5)%nat -> (m <= k)%nat -> ev E0 m <= ev E0 k). { apply (upto5x (fun m k => (m <= k)%nat -> ev E0 m <= ev E0 k)); intros L; try (exfalso; lia); cbn; lra. }
      intros m n L K. apply S0; lia. }
  all: subst E0; entries5; cbv [sum fold_right seq A_adb_hyd lem rem ev mat nth Nat.eqb]; unfold half; field; repeat split; assumption.
Qed.
Print Assumptions C59_adb_hydro.

(** ** The MHD wave speeds and normalisations *)
Lemma sq_eq x y : 0 <= x -> 0 <= y -> x * x = y * y -> x = y.
Proof. intros. apply Rsqr_inj; assumption. Qed.

Record pq_ok (asq d b1 b2 b3 : R) (q : pq) (a sd bt : R) : Prop := PqOk {
  o_a : 0 < a; o_a2 : a * a = asq; o_sd : 0 < sd; o_sd2 : sd * sd = d;
  o_cf : 0 < p_cf q; o_cs : 0 <= p_cs q; o_ord1 : p_cs q <= p_vax q; o_ord2 : p_vax q <= p_cf q;
  o_bet : p_bet2 q * p_bet2 q + p_bet3 q * p_bet3 q = 1;
  o_b2 : b2 = bt * p_bet2 q; o_b3 : b3 = bt * p_bet3 q;
  o_al : p_af q * p_af q + p_as q * p_as q = 1;
  o_wt : p_cf q * p_cf q * (p_af q * p_af q) + p_cs q * p_cs q * (p_as q * p_as q) = a * a;
  o_f : a * p_as q * bt = (p_cf q * p_cf q - a * a) * p_af q * sd;
  o_s : a * p_af q * bt = (a * a - p_cs q * p_cs q) * p_as q * sd;
  o_pr : p_cf q * p_cs q = a * p_vax q;
  o_vax : p_vax q * sd = b1 * SIGN b1 }.

Lemma prim_pq_ok iso asq d b1 b2 b3 : 0 < asq -> 0 < d ->
  pq_ok asq d b1 b2 b3 (prim_pq iso asq d b1 b2 b3) (sqrt asq) (sqrt d) (sqrt (b2 * b2 + b3 * b3)).
Proof.
  intros A D. unfold prim_pq. cbv zeta.
  set (btsq := b2 * b2 + b3 * b3). assert (BT0 : 0 <= btsq) by (unfold btsq; assert (X := Rle_0_sqr b2); assert (Y := Rle_0_sqr b3); unfold Rsqr in *; lra).
  set (vaxsq := b1 * b1 * (1 / d)). assert (DI : 0 < 1 / d) by (apply Rdiv_lt_0_compat; lra).
  assert (V0 : 0 <= vaxsq) by (apply Rmult_le_pos; [apply Rle_0_sqr|lra]).
  set (ct2 := btsq * (1 / d)). assert (C0 : 0 <= ct2) by (apply Rmult_le_pos; lra).
  set (tsum := vaxsq + ct2 + asq). set (tdif := vaxsq + ct2 - asq).
  assert (DD0 : 0 <= tdif * tdif + 4 * asq * ct2) by (assert (X := Rle_0_sqr tdif); unfold Rsqr in X; assert (0 <= asq * ct2) by (apply Rmult_le_pos; lra); lra).
  set (Df := sqrt (tdif * tdif + 4 * asq * ct2)).
  assert (Df0 : 0 <= Df) by apply sqrt_pos. assert (Df2 : Df * Df = tdif * tdif + 4 * asq * ct2) by (apply sqrt_sqrt; exact DD0).
  assert (DfL : Rabs tdif <= Df).
  { apply Rsqr_incr_0_var; [|exact Df0]. rewrite <- Rsqr_abs. unfold Rsqr. rewrite Df2. assert (0 <= asq * ct2) by (apply Rmult_le_pos; lra). lra. }
  assert (DfA : tdif <= Df /\ - tdif <= Df) by (unfold Rabs in DfL; destruct (Rcase_abs tdif); lra).
  set (cfsq := half * (tsum + Df)).
  assert (CF1 : asq <= cfsq) by (unfold cfsq, half, tsum, tdif in *; lra).
  assert (CF2 : vaxsq <= cfsq) by (unfold cfsq, half, tsum, tdif in *; lra).
  set (cssq := asq * vaxsq / cfsq).
  assert (CSE : cssq = half * (tsum - Df)).
  { unfold cssq. apply (Rmult_eq_reg_r cfsq); [|lra]. unfold Rdiv. rewrite Rmult_assoc, Rinv_l by lra.
    unfold cfsq. transitivity ((tsum * tsum - Df * Df) / 4); [rewrite Df2; unfold tsum, tdif; field|unfold half; field]. }
  assert (DIF : cfsq - cssq = Df) by (rewrite CSE; unfold cfsq, half; field).
  assert (PRD : cfsq * cssq = asq * vaxsq) by (unfold cssq; field; lra).
  assert (CS0 : 0 <= cssq) by (unfold cssq; apply Rmult_le_pos; [apply Rmult_le_pos; lra|apply Rlt_le, Rinv_0_lt_compat; lra]).
  assert (CS1 : cssq <= vaxsq).
  { apply (Rmult_le_reg_l cfsq); [lra|]. rewrite PRD. apply Rmult_le_compat_r; lra. }
  assert (CS2 : cssq <= asq).
  { apply (Rmult_le_reg_l cfsq); [lra|]. rewrite PRD, (Rmult_comm asq). apply Rmult_le_compat_r; lra. }
  assert (KEY : (cfsq - asq) * (asq - cssq) = asq * ct2).
  { transitivity (asq * (cfsq + cssq) - asq * asq - cfsq * cssq); [ring|]. rewrite PRD, CSE. unfold cfsq, half, tsum. field. }
  replace (if iso then cfsq - cssq else Df) with Df by (destruct iso; [symmetry; exact DIF|reflexivity]).
  assert (SUM : cfsq + cssq = vaxsq + ct2 + asq) by (rewrite CSE; unfold cfsq, half, tsum; field).
  clearbody cfsq cssq Df tsum tdif.
  set (a := sqrt asq). destruct (sqrt_both _ A) as [AP AA]. fold a in AP, AA.
  set (sd := sqrt d). destruct (sqrt_both _ D) as [SP SS]. fold sd in SP, SS.
  set (bt := sqrt btsq). assert (BTP : 0 <= bt) by apply sqrt_pos. assert (BTT : bt * bt = btsq) by (apply sqrt_sqrt; exact BT0).
  destruct (sqrt_both cfsq ltac:(lra)) as [CFP CFF]. set (cf := sqrt cfsq) in *.
  assert (CSP : 0 <= sqrt cssq) by apply sqrt_pos. assert (CSS : sqrt cssq * sqrt cssq = cssq) by (apply sqrt_sqrt; exact CS0). set (cs := sqrt cssq) in *.
  assert (VP : 0 <= sqrt vaxsq) by apply sqrt_pos. assert (VV : sqrt vaxsq * sqrt vaxsq = vaxsq) by (apply sqrt_sqrt; exact V0). set (vax := sqrt vaxsq) in *.
  clearbody a sd bt cf cs vax.
  (* the normalisations *)
  assert (AL : exists af as_, prim_alphas asq cfsq cssq Df = (af, as_) /\ 0 <= af /\ 0 <= as_ /\ af * af + as_ * as_ = 1 /\
                af * af * Df = asq - cssq /\ as_ * as_ * Df = cfsq - asq).
  { unfold prim_alphas. destruct (Req_EM_T Df 0) as [Z|Z].
    { exists 1, 0. repeat split; lra. }
    assert (DP : 0 < Df) by lra.
    destruct (Rle_dec (asq - cssq) 0); [exists 0, 1; repeat split; lra|].
    destruct (Rle_dec (cfsq - asq) 0); [exists 1, 0; repeat split; lra|].
    assert (P1 : 0 <= (asq - cssq) / Df) by (apply Rlt_le, Rdiv_lt_0_compat; lra).
    assert (P2 : 0 <= (cfsq - asq) / Df) by (apply Rlt_le, Rdiv_lt_0_compat; lra).
    eexists _, _. split; [reflexivity|]. split; [apply sqrt_pos|]. split; [apply sqrt_pos|]. rewrite !sqrt_sqrt by assumption.
    repeat split; field_simplify_eq; try lra. }
  destruct AL as (af & as_ & -> & AF & AS & AL1 & AL2 & AL3). cbn [fst snd].
  assert (CTT : ct2 * d = bt * bt) by (unfold ct2; rewrite BTT; field; lra).
  assert (F0 : a * as_ * bt = (cfsq - asq) * af * sd).
  { apply sq_eq. { apply Rmult_le_pos; [apply Rmult_le_pos; lra|lra]. } { apply Rmult_le_pos; [apply Rmult_le_pos; lra|lra]. }
    transitivity (asq * (as_ * as_) * (ct2 * d)); [rewrite CTT, <- AA; ring|].
    transitivity ((cfsq - asq) * (cfsq - asq) * (af * af) * d); [|rewrite <- SS; ring].
    destruct (Req_EM_T Df 0) as [Z|Z].
    { assert (cfsq = asq) by lra. assert (X : (cfsq - asq) * (asq - cssq) = 0) by (rewrite H; ring). rewrite KEY in X.
      assert (ct2 = 0) by (destruct (Rmult_integral _ _ X); lra). rewrite H0, H. ring. }
    apply (Rmult_eq_reg_r Df); [|exact Z].
    transitivity (asq * ct2 * d * (as_ * as_ * Df)); [ring|]. rewrite AL3, <- KEY.
    transitivity ((cfsq - asq) * (cfsq - asq) * (af * af * Df) * d); [rewrite AL2; ring|ring]. }
  assert (S0 : a * af * bt = (asq - cssq) * as_ * sd).
  { apply sq_eq. { apply Rmult_le_pos; [apply Rmult_le_pos; lra|lra]. } { apply Rmult_le_pos; [apply Rmult_le_pos; lra|lra]. }
    transitivity (asq * (af * af) * (ct2 * d)); [rewrite CTT, <- AA; ring|].
    transitivity ((asq - cssq) * (asq - cssq) * (as_ * as_) * d); [|rewrite <- SS; ring].
    destruct (Req_EM_T Df 0) as [Z|Z].
    { assert (cssq = asq) by lra. assert (X : (cfsq - asq) * (asq - cssq) = 0) by (rewrite H; ring). rewrite KEY in X.
      assert (ct2 = 0) by (destruct (Rmult_integral _ _ X); lra). rewrite H0, H. ring. }
    apply (Rmult_eq_reg_r Df); [|exact Z].
    transitivity (asq * ct2 * d * (af * af * Df)); [ring|]. rewrite AL2, <- KEY.
    transitivity ((asq - cssq) * (asq - cssq) * (as_ * as_ * Df) * d); [rewrite AL3; ring|ring]. }
  assert (BET : forall x y, x = (if Req_EM_T bt 0 then 1 else b2 / bt) -> y = (if Req_EM_T bt 0 then 0 else b3 / bt) -> x * x + y * y = 1 /\ b2 = bt * x /\ b3 = bt * y).
  { intros x y -> ->. destruct (Req_EM_T bt 0) as [Z|Z].
    - rewrite Z in *. assert (X := Rle_0_sqr b2). assert (Y := Rle_0_sqr b3). unfold Rsqr, btsq in *.
      assert (b2 * b2 = 0) by lra. assert (b3 * b3 = 0) by lra.
      assert (b2 = 0) by (destruct (Rmult_integral _ _ H); assumption). assert (b3 = 0) by (destruct (Rmult_integral _ _ H0); assumption). lra.
    - split; [|split; field; exact Z]. transitivity (btsq / (bt * bt)); [unfold btsq; field; exact Z|]. rewrite BTT. field. rewrite <- BTT. intros X. destruct (Rmult_integral _ _ X); auto. }
  destruct (BET _ _ eq_refl eq_refl) as (BE1 & BE2 & BE3).
  assert (SG : b1 * SIGN b1 = Rabs b1) by (unfold SIGN, Rabs; destruct (Rlt_dec b1 0), (Rcase_abs b1); lra).
  constructor; cbn [p_cf p_cs p_vax p_bet2 p_bet3 p_af p_as]; try assumption; rewrite ?CFF, ?CSS, ?AA; try assumption.
  - apply Rsqr_incr_0_var; unfold Rsqr; lra.
  - apply Rsqr_incr_0_var; unfold Rsqr; lra.
  - replace (as_ * as_) with (1 - af * af) by lra. rewrite <- DIF in *. lra.
  - apply sq_eq; [apply Rmult_le_pos; lra|apply Rmult_le_pos; lra|].
    transitivity ((cf * cf) * (cs * cs)); [ring|]. rewrite CFF, CSS, PRD, <- AA, <- VV. ring.
  - rewrite SG. apply sq_eq; [apply Rmult_le_pos; lra|apply Rabs_pos|].
    transitivity ((vax * vax) * (sd * sd)); [ring|]. rewrite VV, SS. unfold vaxsq. rewrite <- (Rsqr_abs b1 : Rsqr b1 = Rabs b1 * Rabs b1). unfold Rsqr. field. lra.
Qed.
