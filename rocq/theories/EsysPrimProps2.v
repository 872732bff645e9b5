(** Property C59, MHD: see EsysPrimProps.v. *)
From Coq Require Import Nsatz Reals ZArith Arith Lra Lia List.
From Verif Require Import GasModel ConvProps ReconModel ReconSpec ReconProps EsysPrimModel EsysPrimProps.
Import ListNotations.
Open Scope R_scope.

Theorem C59_iso_mhd : forall a d v1 b1 b2 b3, 0 < a -> 0 < d ->
  eigensystem_of 6 (A_iso_mhd a d v1 b1 b2 b3) (esys_prim_iso_mhd a d v1 b1 b2 b3).
Proof.
  intros a d v1 b1 b2 b3 A D. unfold eigensystem_of, complete, esys_prim_iso_mhd. cbv zeta.
  assert (AA : 0 < a * a) by (apply Rmult_lt_0_compat; assumption).
  destruct (prim_pq_ok true (a * a) d b1 b2 b3 AA D) as [OA OA2 OSD OSD2 OCF OCS O1 O2 OB OB2 OB3 OAL OWT OF OS OPR OV].
  assert (SA : sqrt (a * a) = a) by (apply sqrt_square; lra). rewrite SA in *. clear SA AA.
  set (q := prim_pq true (a * a) d b1 b2 b3) in *. clearbody q.
  set (sd := sqrt d) in *. clearbody sd. set (bt := sqrt (b2 * b2 + b3 * b3)) in *. clearbody bt.
  set (cf := p_cf q) in *. set (cs := p_cs q) in *. set (vax := p_vax q) in *. set (x := p_bet2 q) in *. set (y := p_bet3 q) in *.
  set (f := p_af q) in *. set (g := p_as q) in *. clearbody cf cs vax x y f g. clear q.
  assert (SG : SIGN b1 * SIGN b1 = 1) by (unfold SIGN; destruct (Rlt_dec b1 0); lra).
  assert (B1 : b1 = vax * sd * SIGN b1) by (rewrite OV, Rmult_assoc, SG; ring).
  clear OV. set (s := SIGN b1) in *. clearbody s. subst b1 b2 b3 d.
  clear OA2. assert (A0 : a <> 0) by lra. assert (S0 : sd <> 0) by lra.
  match goal with |- context [ev ?e] => set (E0 := e) end. repeat split.
  5:{ assert (SS : forall m k, (m < 6)%nat -> (k < 6)%nat -> (m <= k)%nat -> ev E0 m <= ev E0 k).
      { apply (upto6x (fun m k => (m <= k)%nat -> ev E0 m <= ev E0 k)); intros L; try (exfalso; lia); cbn; lra. }
      intros m n L K. apply SS; lia. }
  all: subst E0; clear A D OSD OCF OCS O1 O2; entries6; cbv [sum fold_right seq A_iso_mhd lem rem ev mat List.nth Nat.eqb]; unfold half.
  all: field_simplify_eq; [|repeat split; assumption..].
  all: try ring.
  all: assert (I1 : sd * (/ sd) = 1) by (field; assumption); assert (I2 : a * (/ a) = 1) by (field; assumption); set (si := / sd) in *; set (ai := / a) in *; clearbody si ai; clear A0 S0.
  all: cbn [pow]; rewrite ?Rmult_1_r.
  all: nsatz.
Qed.
Print Assumptions C59_iso_mhd.

Theorem C59_adb_mhd : forall d v1 rho_a2 b1 b2 b3, 0 < d -> 0 < rho_a2 ->
  eigensystem_of 7 (A_adb_mhd d v1 rho_a2 b1 b2 b3) (esys_prim_adb_mhd d v1 rho_a2 b1 b2 b3).
Proof.
  intros d v1 rho_a2 b1 b2 b3 D A. unfold eigensystem_of, complete, esys_prim_adb_mhd. cbv zeta.
  assert (AA : 0 < rho_a2 * (1 / d)) by (apply Rmult_lt_0_compat; [assumption|apply Rdiv_lt_0_compat; lra]).
  set (asq := rho_a2 * (1 / d)) in *. assert (RA : rho_a2 = asq * d) by (unfold asq; field; lra). clearbody asq.
  destruct (prim_pq_ok false asq d b1 b2 b3 AA D) as [OA OA2 OSD OSD2 OCF OCS O1 O2 OB OB2 OB3 OAL OWT OF OS OPR OV].
  set (a := sqrt asq) in *. clearbody a.
  set (q := prim_pq false asq d b1 b2 b3) in *. clearbody q.
  set (sd := sqrt d) in *. clearbody sd. set (bt := sqrt (b2 * b2 + b3 * b3)) in *. clearbody bt.
  set (cf := p_cf q) in *. set (cs := p_cs q) in *. set (vax := p_vax q) in *. set (x := p_bet2 q) in *. set (y := p_bet3 q) in *.
  set (f := p_af q) in *. set (g := p_as q) in *. clearbody cf cs vax x y f g. clear q.
  assert (SG : SIGN b1 * SIGN b1 = 1) by (unfold SIGN; destruct (Rlt_dec b1 0); lra).
  assert (B1 : b1 = vax * sd * SIGN b1) by (rewrite OV, Rmult_assoc, SG; ring).
  clear OV. set (s := SIGN b1) in *. clearbody s. subst rho_a2 b1 b2 b3 d asq. clear AA.
  assert (A0 : a <> 0) by lra. assert (S0 : sd <> 0) by lra.
  match goal with |- context [ev ?e] => set (E0 := e) end. repeat split.
  5:{ assert (SS : forall m k, (m < 7)%nat -> (k < 7)%nat -> (m <= k)%nat -> ev E0 m <= ev E0 k).
      { apply (upto7x (fun m k => (m <= k)%nat -> ev E0 m <= ev E0 k)); intros L; try (exfalso; lia); cbn; lra. }
      intros m n L K. apply SS; lia. }
  all: subst E0; clear A D OSD OCF OCS O1 O2; entries7; cbv [sum fold_right seq A_adb_mhd lem rem ev mat List.nth Nat.eqb]; unfold half.
  all: field_simplify_eq; [|repeat split; assumption..].
  all: try ring.
  all: assert (I1 : sd * (/ sd) = 1) by (field; assumption); assert (I2 : a * (/ a) = 1) by (field; assumption); set (si := / sd) in *; set (ai := / a) in *; clearbody si ai; clear A0 S0.
  all: cbn [pow]; rewrite ?Rmult_1_r.
  all: nsatz.
Qed.
Print Assumptions C59_adb_mhd.
