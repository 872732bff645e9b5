(** * Algebra of the magnetosonic and Alfven waves

    Identities between the quantities from which esystem_roe.c builds the
    eigenvectors of the MHD Roe matrices.  Used by RoeProps.v. *)
From Coq Require Import Reals Lra List.
From Verif Require Import GasModel.
Import ListNotations.
Open Scope R_scope.

Section Waves.
Variables af as_ cf cs a sd bs b1 sg ry bt bet2 bet3 : R.
Hypothesis A0 : a <> 0.
Hypothesis D0 : sd <> 0.
Hypothesis Y0 : ry <> 0.
Hypothesis R1 : af * af + as_ * as_ = 1.
Hypothesis R2 : af * af * (cf * cf) + as_ * as_ * (cs * cs) = a * a.
Hypothesis R3 : af * as_ * (cf * cf - cs * cs) * sd = a * bs.
Hypothesis R4 : cf * cs * sd = a * b1 * sg.
Hypothesis SG : sg * sg = 1.
Hypothesis BE : bet2 * bet2 + bet3 * bet3 = 1.
Hypothesis BS : bs = ry * bt.

(** The strengths of the six waves of a jump with pressure part [dp],
    momentum (m1, m2, m3) relative to the mean velocity and field (B2, B3). *)
Definition fm dp m1 m2 m3 B2 B3 := (af * dp - af * cf * m1 + cs * as_ * sg * (ry * (bet2 * m2 + bet3 * m3)) + a * as_ * sd * (ry * (bet2 * B2 + bet3 * B3))) / (2 * (a * a)).
Definition fp dp m1 m2 m3 B2 B3 := (af * dp + af * cf * m1 - cs * as_ * sg * (ry * (bet2 * m2 + bet3 * m3)) + a * as_ * sd * (ry * (bet2 * B2 + bet3 * B3))) / (2 * (a * a)).
Definition sm dp m1 m2 m3 B2 B3 := (as_ * dp - as_ * cs * m1 - cf * af * sg * (ry * (bet2 * m2 + bet3 * m3)) - a * af * sd * (ry * (bet2 * B2 + bet3 * B3))) / (2 * (a * a)).
Definition sp dp m1 m2 m3 B2 B3 := (as_ * dp + as_ * cs * m1 + cf * af * sg * (ry * (bet2 * m2 + bet3 * m3)) - a * af * sd * (ry * (bet2 * B2 + bet3 * B3))) / (2 * (a * a)).
Definition am (m2 m3 B2 B3 : R) := (- bet3 * m2 + bet2 * m3 + sd * sg * (- bet3 * B2 + bet2 * B3)) / 2.
Definition ap (m2 m3 B2 B3 : R) := (bet3 * m2 - bet2 * m3 + sd * sg * (- bet3 * B2 + bet2 * B3)) / 2.

Section Sums.
Variables dp m1 m2 m3 B2 B3 : R.
Let Fm := fm dp m1 m2 m3 B2 B3.
Let Fp := fp dp m1 m2 m3 B2 B3.
Let Sm := sm dp m1 m2 m3 B2 B3.
Let Sp := sp dp m1 m2 m3 B2 B3.
Let Am := am m2 m3 B2 B3.
Let Ap := ap m2 m3 B2 B3.

Lemma sum_d : af * (Fm + Fp) + as_ * (Sm + Sp) = dp / (a * a).
Proof.
  unfold Fm, Fp, Sm, Sp, fm, fp, sm, sp.
  transitivity ((af * af + as_ * as_) * dp / (a * a)); [field; exact A0|]. rewrite R1. field. exact A0.
Qed.
Lemma sum_m1 : af * cf * (Fp - Fm) + as_ * cs * (Sp - Sm) = m1.
Proof.
  unfold Fm, Fp, Sm, Sp, fm, fp, sm, sp.
  transitivity ((af * af * (cf * cf) + as_ * as_ * (cs * cs)) * m1 / (a * a)); [field; exact A0|]. rewrite R2. field. exact A0.
Qed.
Lemma sum_t : cs * as_ * sg * (Fm - Fp) - cf * af * sg * (Sm - Sp) = ry * (bet2 * m2 + bet3 * m3).
Proof.
  unfold Fm, Fp, Sm, Sp, fm, fp, sm, sp.
  transitivity ((af * af * (cf * cf) + as_ * as_ * (cs * cs)) * (sg * sg) * (ry * (bet2 * m2 + bet3 * m3)) / (a * a)); [field; exact A0|].
  rewrite R2, SG. field. exact A0.
Qed.
Lemma sum_b : a * as_ / sd * (Fm + Fp) - a * af / sd * (Sm + Sp) = ry * (bet2 * B2 + bet3 * B3).
Proof.
  unfold Fm, Fp, Sm, Sp, fm, fp, sm, sp.
  transitivity ((af * af + as_ * as_) * (ry * (bet2 * B2 + bet3 * B3))); [field; repeat split; assumption|].
  rewrite R1. ring.
Qed.
Lemma alf_m2 : bet2 / ry * (ry * (bet2 * m2 + bet3 * m3)) - bet3 * Am + bet3 * Ap = m2.
Proof.
  unfold Am, Ap, am, ap. transitivity ((bet2 * bet2 + bet3 * bet3) * m2); [field; exact Y0|]. rewrite BE. ring.
Qed.
Lemma alf_m3 : bet3 / ry * (ry * (bet2 * m2 + bet3 * m3)) + bet2 * Am - bet2 * Ap = m3.
Proof.
  unfold Am, Ap, am, ap. transitivity ((bet2 * bet2 + bet3 * bet3) * m3); [field; exact Y0|]. rewrite BE. ring.
Qed.
Lemma alf_b2 : bet2 / ry * (ry * (bet2 * B2 + bet3 * B3)) - bet3 * sg / sd * (Am + Ap) = B2.
Proof.
  unfold Am, Ap, am, ap.
  transitivity (bet2 * (bet2 * B2 + bet3 * B3) - bet3 * (sg * sg) * (- bet3 * B2 + bet2 * B3)); [field; repeat split; assumption|].
  rewrite SG. transitivity ((bet2 * bet2 + bet3 * bet3) * B2); [ring|]. rewrite BE. ring.
Qed.
Lemma alf_b3 : bet3 / ry * (ry * (bet2 * B2 + bet3 * B3)) + bet2 * sg / sd * (Am + Ap) = B3.
Proof.
  unfold Am, Ap, am, ap.
  transitivity (bet3 * (bet2 * B2 + bet3 * B3) + bet2 * (sg * sg) * (- bet3 * B2 + bet2 * B3)); [field; repeat split; assumption|].
  rewrite SG. transitivity ((bet2 * bet2 + bet3 * bet3) * B3); [ring|]. rewrite BE. ring.
Qed.
End Sums.

(** Two consequences of the relations. *)
Lemma rel_f : af * (cf * cf) - a * as_ / sd * bs = af * (a * a).
Proof.
  assert (E : a * as_ / sd * bs = as_ * (af * as_ * (cf * cf - cs * cs))).
  { transitivity (as_ / sd * (a * bs)); [field; exact D0|]. rewrite <- R3. field. exact D0. }
  rewrite E. transitivity (af * (cf * cf - (as_ * as_) * (cf * cf - cs * cs))); [ring|].
  replace (as_ * as_) with (1 - af * af) by lra.
  transitivity (af * (af * af * (cf * cf) + (1 - af * af) * (cs * cs))); [ring|].
  replace (1 - af * af) with (as_ * as_) by lra. rewrite R2. reflexivity.
Qed.
Lemma rel_s : as_ * (cs * cs) + a * af / sd * bs = as_ * (a * a).
Proof.
  assert (E : a * af / sd * bs = af * (af * as_ * (cf * cf - cs * cs))).
  { transitivity (af / sd * (a * bs)); [field; exact D0|]. rewrite <- R3. field. exact D0. }
  rewrite E. transitivity (as_ * (cs * cs + (af * af) * (cf * cf - cs * cs))); [ring|].
  replace (cs * cs) with ((af * af + as_ * as_) * (cs * cs)) at 1 by (rewrite R1; ring).
  transitivity (as_ * (af * af * (cf * cf) + as_ * as_ * (cs * cs))); [ring|]. rewrite R2. reflexivity.
Qed.
(** The same, divided by the sound speed. *)
Lemma rel_f' : as_ * bs = af * (cf * cf - a * a) * sd / a.
Proof.
  assert (E := rel_f). replace (af * (cf * cf - a * a) * sd / a) with ((af * (cf * cf) - af * (a * a)) * sd / a) by (unfold Rdiv; ring).
  rewrite <- E. field. repeat split; assumption.
Qed.
Lemma rel_s' : af * bs = as_ * (a * a - cs * cs) * sd / a.
Proof.
  assert (E := rel_s). replace (as_ * (a * a - cs * cs) * sd / a) with ((as_ * (a * a) - as_ * (cs * cs)) * sd / a) by (unfold Rdiv; ring).
  rewrite <- E. field. repeat split; assumption.
Qed.

(** One step of the linearised equations in the frame of the mean flow. *)
Section Step.
Variables dp m1 m2 m3 B2 B3 : R.
Let dp' := a * a * m1.
Let m1' := dp + ry * ry * (bt * bet2 * B2 + bt * bet3 * B3).
Let m2' := - b1 * B2.
Let m3' := - b1 * B3.
Let B2' := (bt * bet2 * m1 - b1 * m2) / (sd * sd).
Let B3' := (bt * bet3 * m1 - b1 * m3) / (sd * sd).

Let b1e : b1 = cf * cs * sd * sg / a.
Proof using A0 R4 SG. rewrite R4. transitivity (b1 * (sg * sg)); [rewrite SG; ring|]. field. exact A0. Qed.

Lemma step_fm : fm dp' m1' m2' m3' B2' B3' = - cf * fm dp m1 m2 m3 B2 B3.
Proof.
  unfold fm, dp', m1', m2', m3', B2', B3'.
  assert (F := rel_f'). assert (G := rel_s'). rewrite BS in F, G.
  apply (Rmult_eq_reg_l (2 * (a * a))); [|intros Z; apply A0; destruct (Rmult_integral _ _ Z) as [Z1|Z1]; [lra|]; destruct (Rmult_integral _ _ Z1); assumption].
  transitivity (af * (a * a) * m1 - af * cf * dp - cf * ry * (af * (ry * bt)) * (bet2 * B2 + bet3 * B3)
     - cs * as_ * sg * ry * b1 * (bet2 * B2 + bet3 * B3)
     + a / sd * ((as_ * (ry * bt)) * (bet2 * bet2 + bet3 * bet3) * m1 - as_ * ry * b1 * (bet2 * m2 + bet3 * m3))).
  { field. repeat split; assumption. }
  rewrite BE, F, G, b1e.
  transitivity (af * (cf * cf) * m1 - af * cf * dp - cf * ry * as_ * sd * (bet2 * B2 + bet3 * B3) * (a - cs * cs / a + cs * cs * (sg * sg) / a)
     - as_ * ry * cf * cs * sg * (bet2 * m2 + bet3 * m3)).
  { field. repeat split; assumption. }
  rewrite SG. field. exact A0.
Qed.
Lemma step_fp : fp dp' m1' m2' m3' B2' B3' = cf * fp dp m1 m2 m3 B2 B3.
Proof.
  unfold fp, dp', m1', m2', m3', B2', B3'.
  assert (F := rel_f'). assert (G := rel_s'). rewrite BS in F, G.
  apply (Rmult_eq_reg_l (2 * (a * a))); [|intros Z; apply A0; destruct (Rmult_integral _ _ Z) as [Z1|Z1]; [lra|]; destruct (Rmult_integral _ _ Z1); assumption].
  transitivity (af * (a * a) * m1 + af * cf * dp + cf * ry * (af * (ry * bt)) * (bet2 * B2 + bet3 * B3)
     + cs * as_ * sg * ry * b1 * (bet2 * B2 + bet3 * B3)
     + a / sd * ((as_ * (ry * bt)) * (bet2 * bet2 + bet3 * bet3) * m1 - as_ * ry * b1 * (bet2 * m2 + bet3 * m3))).
  { field. repeat split; assumption. }
  rewrite BE, F, G, b1e.
  transitivity (af * (cf * cf) * m1 + af * cf * dp + cf * ry * as_ * sd * (bet2 * B2 + bet3 * B3) * (a - cs * cs / a + cs * cs * (sg * sg) / a)
     - as_ * ry * cf * cs * sg * (bet2 * m2 + bet3 * m3)).
  { field. repeat split; assumption. }
  rewrite SG. field. exact A0.
Qed.
Lemma step_sm : sm dp' m1' m2' m3' B2' B3' = - cs * sm dp m1 m2 m3 B2 B3.
Proof.
  unfold sm, dp', m1', m2', m3', B2', B3'.
  assert (F := rel_f'). assert (G := rel_s'). rewrite BS in F, G.
  apply (Rmult_eq_reg_l (2 * (a * a))); [|intros Z; apply A0; destruct (Rmult_integral _ _ Z) as [Z1|Z1]; [lra|]; destruct (Rmult_integral _ _ Z1); assumption].
  transitivity (as_ * (a * a) * m1 - as_ * cs * dp - cs * ry * (as_ * (ry * bt)) * (bet2 * B2 + bet3 * B3)
     + cf * af * sg * ry * b1 * (bet2 * B2 + bet3 * B3)
     - a / sd * ((af * (ry * bt)) * (bet2 * bet2 + bet3 * bet3) * m1 - af * ry * b1 * (bet2 * m2 + bet3 * m3))).
  { field. repeat split; assumption. }
  rewrite BE, F, G, b1e.
  transitivity (as_ * (cs * cs) * m1 - as_ * cs * dp + cs * ry * af * sd * (bet2 * B2 + bet3 * B3) * (a - cf * cf / a + cf * cf * (sg * sg) / a)
     + af * ry * cf * cs * sg * (bet2 * m2 + bet3 * m3)).
  { field. repeat split; assumption. }
  rewrite SG. field. exact A0.
Qed.
Lemma step_sp : sp dp' m1' m2' m3' B2' B3' = cs * sp dp m1 m2 m3 B2 B3.
Proof.
  unfold sp, dp', m1', m2', m3', B2', B3'.
  assert (F := rel_f'). assert (G := rel_s'). rewrite BS in F, G.
  apply (Rmult_eq_reg_l (2 * (a * a))); [|intros Z; apply A0; destruct (Rmult_integral _ _ Z) as [Z1|Z1]; [lra|]; destruct (Rmult_integral _ _ Z1); assumption].
  transitivity (as_ * (a * a) * m1 + as_ * cs * dp + cs * ry * (as_ * (ry * bt)) * (bet2 * B2 + bet3 * B3)
     - cf * af * sg * ry * b1 * (bet2 * B2 + bet3 * B3)
     - a / sd * ((af * (ry * bt)) * (bet2 * bet2 + bet3 * bet3) * m1 - af * ry * b1 * (bet2 * m2 + bet3 * m3))).
  { field. repeat split; assumption. }
  rewrite BE, F, G, b1e.
  transitivity (as_ * (cs * cs) * m1 + as_ * cs * dp - cs * ry * af * sd * (bet2 * B2 + bet3 * B3) * (a - cf * cf / a + cf * cf * (sg * sg) / a)
     + af * ry * cf * cs * sg * (bet2 * m2 + bet3 * m3)).
  { field. repeat split; assumption. }
  rewrite SG. field. exact A0.
Qed.
(** Alfven speed: |b1|/sqrt(d). *)
Lemma step_am : am m2' m3' B2' B3' = - (b1 * sg / sd) * am m2 m3 B2 B3.
Proof.
  unfold am, m2', m3', B2', B3'.
  transitivity ((b1 * bet3 * B2 * (sg * sg) - b1 * bet2 * B3 * (sg * sg) + sg / sd * (bet3 * b1 * m2 - bet2 * b1 * m3)) / 2).
  { rewrite SG. field. exact D0. }
  field. exact D0.
Qed.
Lemma step_ap : ap m2' m3' B2' B3' = b1 * sg / sd * ap m2 m3 B2 B3.
Proof.
  unfold ap, m2', m3', B2', B3'.
  transitivity ((- b1 * bet3 * B2 * (sg * sg) + b1 * bet2 * B3 * (sg * sg) + sg / sd * (bet3 * b1 * m2 - bet2 * b1 * m3)) / 2).
  { rewrite SG. field. exact D0. }
  field. exact D0.
Qed.
End Step.
End Waves.
