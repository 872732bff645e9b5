(** * 2D integrators: the new value of a cell depends on the cells within [nghost] of it *)
From Coq Require Import Reals ZArith List Bool Lia Lra.
From Verif Require Import GasModel IntegModel IntegSpec IntegFacts SchemeModel Integ2Spec.
From Verif Require Ctu2Model Vl2Model.
Import Ctu2Model (grid2, scratch2, is, ie, js, je, dt, dx1, dx2, MinX1, MinX2, X3, U, B1i, B2i, B3i, Phi, x1c, x2c,
  q1, q2, hq1, hq2, hdt, dx1i, dx2i, src_x, src_y, src_xs, emf3_corner).
Open Scope R_scope.

Arguments n2_dt {sc g g' j i j' i' aj bj ai bi}. Arguments n2_dx1 {sc g g' j i j' i' aj bj ai bi}.
Arguments n2_dx2 {sc g g' j i j' i' aj bj ai bi}. Arguments n2_pot {sc g g' j i j' i' aj bj ai bi}.
Arguments n2_U {sc g g' j i j' i' aj bj ai bi}. Arguments n2_B1 {sc g g' j i j' i' aj bj ai bi}.
Arguments n2_B2 {sc g g' j i j' i' aj bj ai bi}. Arguments n2_Phi {sc g g' j i j' i' aj bj ai bi}.

Lemma x1c_off : forall g i d, x1c g (i + d) = x1c g i + IZR d * dx1 g.
Proof. intros. unfold x1c. replace (i + d - is g)%Z with ((i - is g) + d)%Z by lia. rewrite plus_IZR. ring. Qed.
Lemma x2c_off : forall g j d, x2c g (j + d) = x2c g j + IZR d * dx2 g.
Proof. intros. unfold x2c. replace (j + d - js g)%Z with ((j - js g) + d)%Z by lia. rewrite plus_IZR. ring. Qed.

(** j is within a below and b above the active rows, i likewise with c and d *)
Definition box (g : grid2) (j i a b c d : Z) : Prop :=
  (js g - a <= j <= je g + b)%Z /\ (is g - c <= i <= ie g + d)%Z.
Ltac bl := unfold box, nghost in *; lia.

Section Common.
Variables (sc : scheme) (g g' : grid2) (j i j' i' aj bj ai bi : Z).
Hypothesis N : near2 sc g g' j i j' i' aj bj ai bi.
Lemma pot_pp : forall phi, s_grav sc = Some phi -> forall dj di x y,
  phi (x1c g' (i' + di) + x) (x2c g' (j' + dj) + y) (X3 g') = phi (x1c g (i + di) + x) (x2c g (j + dj) + y) (X3 g).
Proof. intros. rewrite !x1c_off, !x2c_off, !Rplus_assoc, (n2_dx1 N), (n2_dx2 N). now apply (n2_pot N). Qed.
Lemma pot_pm : forall phi, s_grav sc = Some phi -> forall dj di x y,
  phi (x1c g' (i' + di) + x) (x2c g' (j' + dj) - y) (X3 g') = phi (x1c g (i + di) + x) (x2c g (j + dj) - y) (X3 g).
Proof. intros. unfold Rminus. now apply pot_pp. Qed.
Lemma pot_mp : forall phi, s_grav sc = Some phi -> forall dj di x y,
  phi (x1c g' (i' + di) - x) (x2c g' (j' + dj) + y) (X3 g') = phi (x1c g (i + di) - x) (x2c g (j + dj) + y) (X3 g).
Proof. intros. unfold Rminus. now apply pot_pp. Qed.
Lemma pot_mm : forall phi, s_grav sc = Some phi -> forall dj di x y,
  phi (x1c g' (i' + di) - x) (x2c g' (j' + dj) - y) (X3 g') = phi (x1c g (i + di) - x) (x2c g (j + dj) - y) (X3 g).
Proof. intros. unfold Rminus. now apply pot_pp. Qed.
Lemma pot_pc : forall phi, s_grav sc = Some phi -> forall dj di x,
  phi (x1c g' (i' + di) + x) (x2c g' (j' + dj)) (X3 g') = phi (x1c g (i + di) + x) (x2c g (j + dj)) (X3 g).
Proof. intros. rewrite <- (Rplus_0_r (x2c g' _)), <- (Rplus_0_r (x2c g _)). now apply pot_pp. Qed.
Lemma pot_mc : forall phi, s_grav sc = Some phi -> forall dj di x,
  phi (x1c g' (i' + di) - x) (x2c g' (j' + dj)) (X3 g') = phi (x1c g (i + di) - x) (x2c g (j + dj)) (X3 g).
Proof. intros. unfold Rminus. now apply pot_pc. Qed.
Lemma pot_cp : forall phi, s_grav sc = Some phi -> forall dj di y,
  phi (x1c g' (i' + di)) (x2c g' (j' + dj) + y) (X3 g') = phi (x1c g (i + di)) (x2c g (j + dj) + y) (X3 g).
Proof. intros. rewrite <- (Rplus_0_r (x1c g' _)), <- (Rplus_0_r (x1c g _)). now apply pot_pp. Qed.
Lemma pot_cm : forall phi, s_grav sc = Some phi -> forall dj di y,
  phi (x1c g' (i' + di)) (x2c g' (j' + dj) - y) (X3 g') = phi (x1c g (i + di)) (x2c g (j + dj) - y) (X3 g).
Proof. intros. unfold Rminus. now apply pot_cp. Qed.
Lemma pot_cc : forall phi, s_grav sc = Some phi -> forall dj di,
  phi (x1c g' (i' + di)) (x2c g' (j' + dj)) (X3 g') = phi (x1c g (i + di)) (x2c g (j + dj)) (X3 g).
Proof. intros. rewrite <- (Rplus_0_r (x1c g' _)), <- (Rplus_0_r (x1c g _)). now apply pot_pc. Qed.
Lemma eq_q1 : q1 g' = q1 g. Proof. unfold q1. now rewrite (n2_dt N), (n2_dx1 N). Qed.
Lemma eq_q2 : q2 g' = q2 g. Proof. unfold q2. now rewrite (n2_dt N), (n2_dx2 N). Qed.
Lemma eq_hq1 : hq1 g' = hq1 g. Proof. unfold hq1. now rewrite eq_q1. Qed.
Lemma eq_hq2 : hq2 g' = hq2 g. Proof. unfold hq2. now rewrite eq_q2. Qed.
Lemma eq_hdt : hdt g' = hdt g. Proof. unfold hdt. now rewrite (n2_dt N). Qed.
Lemma eq_dx1i : dx1i g' = dx1i g. Proof. unfold dx1i. now rewrite (n2_dx1 N). Qed.
Lemma eq_dx2i : dx2i g' = dx2i g. Proof. unfold dx2i. now rewrite (n2_dx2 N). Qed.
End Common.

Ltac base2 N := rewrite ?(eq_q1 _ _ _ _ _ _ _ _ _ _ _ N), ?(eq_q2 _ _ _ _ _ _ _ _ _ _ _ N),
  ?(eq_hq1 _ _ _ _ _ _ _ _ _ _ _ N), ?(eq_hq2 _ _ _ _ _ _ _ _ _ _ _ N), ?(eq_hdt _ _ _ _ _ _ _ _ _ _ _ N),
  ?(eq_dx1i _ _ _ _ _ _ _ _ _ _ _ N), ?(eq_dx2i _ _ _ _ _ _ _ _ _ _ _ N),
  ?(n2_dt N), ?(n2_dx1 N), ?(n2_dx2 N).
Ltac pot2 N Hg := rewrite ?(pot_pp _ _ _ _ _ _ _ _ _ _ _ N _ Hg), ?(pot_pm _ _ _ _ _ _ _ _ _ _ _ N _ Hg),
  ?(pot_mp _ _ _ _ _ _ _ _ _ _ _ N _ Hg), ?(pot_mm _ _ _ _ _ _ _ _ _ _ _ N _ Hg), ?(pot_pc _ _ _ _ _ _ _ _ _ _ _ N _ Hg),
  ?(pot_mc _ _ _ _ _ _ _ _ _ _ _ N _ Hg), ?(pot_cp _ _ _ _ _ _ _ _ _ _ _ N _ Hg), ?(pot_cm _ _ _ _ _ _ _ _ _ _ _ N _ Hg),
  ?(pot_cc _ _ _ _ _ _ _ _ _ _ _ N _ Hg).

Section Ctu.
Import Ctu2Model.
Variables (sc : scheme) (z z' : scratch2) (g g' : grid2) (j i j' i' aj bj ai bi : Z).
Hypothesis Hlr : nearby (s_lr sc).
Hypothesis N : near2 sc g g' j i j' i' aj bj ai bi.
Ltac st := unfold il, iu, jl, ju; rewrite !loop2_in by bl; cbv zeta; base2 N.
Ltac dat := rewrite ?(n2_U N) by lia; rewrite ?(n2_B1 N) by lia; rewrite ?(n2_B2 N) by lia; try rewrite !(n2_Phi N ltac:(congruence)) by lia.

Lemma c_W1 : forall dj di, (aj <= dj <= bj)%Z -> (ai <= di <= bi)%Z ->
  box g (j + dj) (i + di) 2 2 4 4 -> box g' (j' + dj) (i' + di) 2 2 4 4 -> W1 sc z' g' (j' + dj) (i' + di) = W1 sc z g (j + dj) (i + di).
Proof. intros. unfold W1. st. dat. reflexivity. Qed.
Lemma c_W2 : forall dj di, (aj <= dj <= bj)%Z -> (ai <= di <= bi)%Z ->
  box g (j + dj) (i + di) 4 4 2 2 -> box g' (j' + dj) (i' + di) 4 4 2 2 -> W2 sc z' g' (j' + dj) (i' + di) = W2 sc z g (j + dj) (i + di).
Proof. intros. unfold W2. st. dat. reflexivity. Qed.
Lemma c_B1f0 : forall dj di, (aj <= dj <= bj)%Z -> (ai < di <= bi)%Z ->
  box g (j + dj) (i + di) 2 2 4 4 -> box g' (j' + dj) (i' + di) 2 2 4 4 -> B1f0 z' g' (j' + dj) (i' + di) = B1f0 z g (j + dj) (i + di).
Proof. intros. unfold B1f0. st. dat. reflexivity. Qed.
Lemma c_B2f0 : forall dj di, (aj < dj <= bj)%Z -> (ai <= di <= bi)%Z ->
  box g (j + dj) (i + di) 4 4 2 2 -> box g' (j' + dj) (i' + di) 4 4 2 2 -> B2f0 z' g' (j' + dj) (i' + di) = B2f0 z g (j + dj) (i + di).
Proof. intros. unfold B2f0. st. dat. reflexivity. Qed.
Lemma c_lr1 : forall dj di, (aj <= dj <= bj)%Z -> (ai + 3 <= di <= bi - 2)%Z ->
  box g (j + dj) (i + di) 2 2 1 2 -> box g' (j' + dj) (i' + di) 2 2 1 2 -> lr1 sc z' g' (j' + dj) (i' + di) = lr1 sc z g (j + dj) (i + di).
Proof.
  intros dj di Hj Hi H H'.
  assert (Ea : lr1a sc z' g' (j' + dj) (i' + di) = lr1a sc z g (j + dj) (i + di)).
  { unfold lr1a. st. f_equal. apply Hlr. intros e He. offs. apply c_W1; bl. }
  assert (Eb : lr1b sc z' g' (j' + dj) (i' + di) = lr1b sc z g (j + dj) (i + di)).
  { unfold lr1b. destruct (s_mhd sc); [|exact Ea]. st. offs. dat. now rewrite Ea. }
  assert (Ec : lr1c sc z' g' (j' + dj) (i' + di) = lr1c sc z g (j + dj) (i + di)).
  { unfold lr1c. destruct (s_grav sc) eqn:Hg; [|exact Eb]. st. pot2 N Hg. now rewrite Eb. }
  assert (Ed : lr1d sc z' g' (j' + dj) (i' + di) = lr1d sc z g (j + dj) (i + di)).
  { unfold lr1d. destruct (s_selfg sc) eqn:Hsg; [|exact Ec]. st. offs. dat. now rewrite Ec. }
  unfold lr1. st. now rewrite Ed.
Qed.
Lemma c_lr2 : forall dj di, (aj + 3 <= dj <= bj - 2)%Z -> (ai <= di <= bi)%Z ->
  box g (j + dj) (i + di) 1 2 2 2 -> box g' (j' + dj) (i' + di) 1 2 2 2 -> lr2 sc z' g' (j' + dj) (i' + di) = lr2 sc z g (j + dj) (i + di).
Proof.
  intros dj di Hj Hi H H'.
  assert (Ea : lr2a sc z' g' (j' + dj) (i' + di) = lr2a sc z g (j + dj) (i + di)).
  { unfold lr2a. st. f_equal. apply Hlr. intros e He. offs. apply c_W2; bl. }
  assert (Eb : lr2b sc z' g' (j' + dj) (i' + di) = lr2b sc z g (j + dj) (i + di)).
  { unfold lr2b. destruct (s_mhd sc); [|exact Ea]. st. offs. dat. now rewrite Ea. }
  assert (Ec : lr2c sc z' g' (j' + dj) (i' + di) = lr2c sc z g (j + dj) (i + di)).
  { unfold lr2c. destruct (s_grav sc) eqn:Hg; [|exact Eb]. st. pot2 N Hg. now rewrite Eb. }
  assert (Ed : lr2d sc z' g' (j' + dj) (i' + di) = lr2d sc z g (j + dj) (i + di)).
  { unfold lr2d. destruct (s_selfg sc) eqn:Hsg; [|exact Ec]. st. offs. dat. now rewrite Ec. }
  unfold lr2. st. now rewrite Ed.
Qed.
Lemma c_Ulr1 : forall dj di, (aj <= dj <= bj)%Z -> (ai + 3 <= di <= bi - 2)%Z ->
  box g (j + dj) (i + di) 2 2 1 2 -> box g' (j' + dj) (i' + di) 2 2 1 2 -> Ulr1 sc z' g' (j' + dj) (i' + di) = Ulr1 sc z g (j + dj) (i + di).
Proof. intros. unfold Ulr1. st. rewrite c_lr1 by bl. dat. reflexivity. Qed.
Lemma c_Ulr2 : forall dj di, (aj + 3 <= dj <= bj - 2)%Z -> (ai <= di <= bi)%Z ->
  box g (j + dj) (i + di) 1 2 2 2 -> box g' (j' + dj) (i' + di) 1 2 2 2 -> Ulr2 sc z' g' (j' + dj) (i' + di) = Ulr2 sc z g (j + dj) (i + di).
Proof. intros. unfold Ulr2. st. rewrite c_lr2 by bl. dat. reflexivity. Qed.
Lemma c_F1 : forall dj di, (aj <= dj <= bj)%Z -> (ai + 3 <= di <= bi - 2)%Z ->
  box g (j + dj) (i + di) 2 2 1 2 -> box g' (j' + dj) (i' + di) 2 2 1 2 -> F1 sc z' g' (j' + dj) (i' + di) = F1 sc z g (j + dj) (i + di).
Proof. intros. unfold F1. st. rewrite c_lr1, c_Ulr1, c_B1f0 by bl. reflexivity. Qed.
Lemma c_F2 : forall dj di, (aj + 3 <= dj <= bj - 2)%Z -> (ai <= di <= bi)%Z ->
  box g (j + dj) (i + di) 1 2 2 2 -> box g' (j' + dj) (i' + di) 1 2 2 2 -> F2 sc z' g' (j' + dj) (i' + di) = F2 sc z g (j + dj) (i + di).
Proof. intros. unfold F2. st. rewrite c_lr2, c_Ulr2, c_B2f0 by bl. reflexivity. Qed.
Lemma c_cc0 : forall dj di, (aj <= dj <= bj)%Z -> (ai <= di <= bi)%Z ->
  box g (j + dj) (i + di) 2 2 2 2 -> box g' (j' + dj) (i' + di) 2 2 2 2 -> cc0 z' g' (j' + dj) (i' + di) = cc0 z g (j + dj) (i + di).
Proof. intros. unfold cc0. st. dat. reflexivity. Qed.
Lemma c_emf0 : forall dj di, (aj + 3 <= dj <= bj - 2)%Z -> (ai + 3 <= di <= bi - 2)%Z ->
  box g (j + dj) (i + di) 1 2 1 2 -> box g' (j' + dj) (i' + di) 1 2 1 2 -> emf0 sc z' g' (j' + dj) (i' + di) = emf0 sc z g (j + dj) (i + di).
Proof.
  intros. unfold emf0. st. unfold emf3_corner. cbv zeta. offs.
  rewrite !c_F1, !c_F2, !c_cc0 by bl. reflexivity.
Qed.
Lemma c_B1f : forall dj di, (aj + 3 <= dj <= bj - 3)%Z -> (ai + 3 <= di <= bi - 2)%Z ->
  box g (j + dj) (i + di) 1 1 1 2 -> box g' (j' + dj) (i' + di) 1 1 1 2 -> B1f sc z' g' (j' + dj) (i' + di) = B1f sc z g (j + dj) (i + di).
Proof.
  intros. unfold B1f. destruct (s_mhd sc); [|apply c_B1f0; bl]. st. offs. rewrite !c_emf0, c_B1f0 by bl. reflexivity.
Qed.
Lemma c_B2f : forall dj di, (aj + 3 <= dj <= bj - 2)%Z -> (ai + 3 <= di <= bi - 3)%Z ->
  box g (j + dj) (i + di) 1 2 1 1 -> box g' (j' + dj) (i' + di) 1 2 1 1 -> B2f sc z' g' (j' + dj) (i' + di) = B2f sc z g (j + dj) (i + di).
Proof.
  intros. unfold B2f. destruct (s_mhd sc); [|apply c_B2f0; bl]. st. offs. rewrite !c_emf0, c_B2f0 by bl. reflexivity.
Qed.
Lemma c_Ulr1e : forall dj di, (aj + 3 <= dj <= bj - 3)%Z -> (ai + 3 <= di <= bi - 2)%Z ->
  box g (j + dj) (i + di) 1 1 1 1 -> box g' (j' + dj) (i' + di) 1 1 1 1 -> Ulr1e sc z' g' (j' + dj) (i' + di) = Ulr1e sc z g (j + dj) (i + di).
Proof.
  intros dj di Hj Hi H H'.
  assert (Ea : Ulr1a sc z' g' (j' + dj) (i' + di) = Ulr1a sc z g (j + dj) (i + di)).
  { unfold Ulr1a. st. offs. rewrite !c_F2, c_Ulr1 by bl. reflexivity. }
  assert (Eb : Ulr1b sc z' g' (j' + dj) (i' + di) = Ulr1b sc z g (j + dj) (i + di)).
  { unfold Ulr1b. destruct (s_mhd sc); [|exact Ea]. st. offs. dat. now rewrite Ea. }
  assert (Ec : Ulr1c sc z' g' (j' + dj) (i' + di) = Ulr1c sc z g (j + dj) (i + di)).
  { unfold Ulr1c. destruct (s_grav sc) eqn:Hg; [|exact Eb]. st. unfold src_y. base2 N. pot2 N Hg. offs. rewrite !c_F2 by bl. dat. now rewrite Eb. }
  assert (Ed : Ulr1d sc z' g' (j' + dj) (i' + di) = Ulr1d sc z g (j + dj) (i + di)).
  { unfold Ulr1d. destruct (s_selfg sc) eqn:Hsg; [|exact Ec]. st. unfold src_y. base2 N. offs. rewrite !c_F2 by bl. dat. now rewrite Ec. }
  unfold Ulr1e. st. now rewrite Ed.
Qed.
Lemma c_Ulr2e : forall dj di, (aj + 3 <= dj <= bj - 2)%Z -> (ai + 3 <= di <= bi - 3)%Z ->
  box g (j + dj) (i + di) 1 1 1 1 -> box g' (j' + dj) (i' + di) 1 1 1 1 -> Ulr2e sc z' g' (j' + dj) (i' + di) = Ulr2e sc z g (j + dj) (i + di).
Proof.
  intros dj di Hj Hi H H'.
  assert (Ea : Ulr2a sc z' g' (j' + dj) (i' + di) = Ulr2a sc z g (j + dj) (i + di)).
  { unfold Ulr2a. st. offs. rewrite !c_F1, c_Ulr2 by bl. reflexivity. }
  assert (Eb : Ulr2b sc z' g' (j' + dj) (i' + di) = Ulr2b sc z g (j + dj) (i + di)).
  { unfold Ulr2b. destruct (s_mhd sc); [|exact Ea]. st. offs. dat. now rewrite Ea. }
  assert (Ec : Ulr2c sc z' g' (j' + dj) (i' + di) = Ulr2c sc z g (j + dj) (i + di)).
  { unfold Ulr2c. destruct (s_grav sc) eqn:Hg; [|exact Eb]. st. unfold src_x. base2 N. pot2 N Hg. offs. rewrite !c_F1 by bl. dat. now rewrite Eb. }
  assert (Ed : Ulr2d sc z' g' (j' + dj) (i' + di) = Ulr2d sc z g (j + dj) (i + di)).
  { unfold Ulr2d. destruct (s_selfg sc) eqn:Hsg; [|exact Ec]. st. unfold src_xs. base2 N. offs. rewrite !c_F1 by bl. dat. now rewrite Ec. }
  unfold Ulr2e. st. now rewrite Ed.
Qed.
Lemma c_dhalf : forall dj di, needs_dhalf sc = true -> (aj + 3 <= dj <= bj - 3)%Z -> (ai + 3 <= di <= bi - 3)%Z ->
  box g (j + dj) (i + di) 1 1 1 1 -> box g' (j' + dj) (i' + di) 1 1 1 1 -> dhalf sc z' g' (j' + dj) (i' + di) = dhalf sc z g (j + dj) (i + di).
Proof. intros dj di Hn **. unfold dhalf. rewrite Hn. st. offs. rewrite !c_F1, !c_F2 by bl. dat. reflexivity. Qed.
Lemma c_M1h : forall dj di, (aj + 3 <= dj <= bj - 3)%Z -> (ai + 3 <= di <= bi - 3)%Z ->
  box g (j + dj) (i + di) 1 1 1 1 -> box g' (j' + dj) (i' + di) 1 1 1 1 -> M1h sc z' g' (j' + dj) (i' + di) = M1h sc z g (j + dj) (i + di).
Proof.
  intros. unfold M1h. cbv zeta. base2 N.
  destruct (s_selfg sc) eqn:Hsg; (destruct (s_grav sc) eqn:Hg; [pot2 N Hg|]); offs; (rewrite !c_F1 by bl; rewrite !c_F2 by bl; dat; reflexivity).
Qed.
Lemma c_M2h : forall dj di, (aj + 3 <= dj <= bj - 3)%Z -> (ai + 3 <= di <= bi - 3)%Z ->
  box g (j + dj) (i + di) 1 1 1 1 -> box g' (j' + dj) (i' + di) 1 1 1 1 -> M2h sc z' g' (j' + dj) (i' + di) = M2h sc z g (j + dj) (i + di).
Proof.
  intros. unfold M2h. cbv zeta. base2 N.
  destruct (s_selfg sc) eqn:Hsg; (destruct (s_grav sc) eqn:Hg; [pot2 N Hg|]); offs; (rewrite !c_F1 by bl; rewrite !c_F2 by bl; dat; reflexivity).
Qed.
Lemma c_M3h : forall dj di, (aj + 3 <= dj <= bj - 3)%Z -> (ai + 3 <= di <= bi - 3)%Z ->
  box g (j + dj) (i + di) 1 1 1 1 -> box g' (j' + dj) (i' + di) 1 1 1 1 -> M3h sc z' g' (j' + dj) (i' + di) = M3h sc z g (j + dj) (i + di).
Proof. intros. unfold M3h. base2 N. offs. rewrite !c_F1, !c_F2 by bl. dat. reflexivity. Qed.
Lemma c_B1ch : forall dj di, (aj + 3 <= dj <= bj - 3)%Z -> (ai + 3 <= di <= bi - 3)%Z ->
  box g (j + dj) (i + di) 1 1 1 1 -> box g' (j' + dj) (i' + di) 1 1 1 1 -> B1ch sc z' g' (j' + dj) (i' + di) = B1ch sc z g (j + dj) (i + di).
Proof. intros. unfold B1ch. offs. rewrite !c_B1f by bl. reflexivity. Qed.
Lemma c_B2ch : forall dj di, (aj + 3 <= dj <= bj - 3)%Z -> (ai + 3 <= di <= bi - 3)%Z ->
  box g (j + dj) (i + di) 1 1 1 1 -> box g' (j' + dj) (i' + di) 1 1 1 1 -> B2ch sc z' g' (j' + dj) (i' + di) = B2ch sc z g (j + dj) (i + di).
Proof. intros. unfold B2ch. offs. rewrite !c_B2f by bl. reflexivity. Qed.
Lemma c_B3ch : forall dj di, (aj + 3 <= dj <= bj - 3)%Z -> (ai + 3 <= di <= bi - 3)%Z ->
  box g (j + dj) (i + di) 1 1 1 1 -> box g' (j' + dj) (i' + di) 1 1 1 1 -> B3ch sc z' g' (j' + dj) (i' + di) = B3ch sc z g (j + dj) (i + di).
Proof. intros. unfold B3ch. base2 N. offs. rewrite !c_F1, !c_F2 by bl. dat. reflexivity. Qed.
Lemma c_phalf : forall dj di, s_cool sc <> None -> (aj + 3 <= dj <= bj - 3)%Z -> (ai + 3 <= di <= bi - 3)%Z ->
  box g (j + dj) (i + di) 1 1 1 1 -> box g' (j' + dj) (i' + di) 1 1 1 1 -> phalf sc z' g' (j' + dj) (i' + di) = phalf sc z g (j + dj) (i + di).
Proof.
  intros dj di Hc **. assert (Hn : needs_dhalf sc = true).
  { unfold needs_dhalf. destruct (s_cool sc); [|now elim Hc]. apply orb_true_r. }
  unfold phalf. destruct (s_mhd sc) eqn:Hm, (s_cool sc) eqn:Hcc; try (now elim Hc);
  st; offs; rewrite !c_F1, !c_F2, !c_M1h, !c_M2h, !c_M3h, c_dhalf by (auto; bl); rewrite ?c_B1ch, ?c_B2ch, ?c_B3ch by bl; dat; reflexivity.
Qed.
Lemma c_cch : forall dj di, s_mhd sc = true -> (aj + 3 <= dj <= bj - 3)%Z -> (ai + 3 <= di <= bi - 3)%Z ->
  box g (j + dj) (i + di) 1 1 1 1 -> box g' (j' + dj) (i' + di) 1 1 1 1 -> cch sc z' g' (j' + dj) (i' + di) = cch sc z g (j + dj) (i + di).
Proof.
  intros dj di Hm **. assert (Hn : needs_dhalf sc = true) by (unfold needs_dhalf; now rewrite Hm).
  unfold cch. st. rewrite c_M1h, c_M2h, c_B1ch, c_B2ch, c_dhalf by (auto; bl). reflexivity.
Qed.
Lemma c_G1 : forall dj di, (aj + 3 <= dj <= bj - 3)%Z -> (ai + 3 <= di <= bi - 2)%Z ->
  box g (j + dj) (i + di) 1 1 0 1 -> box g' (j' + dj) (i' + di) 1 1 0 1 -> G1 sc z' g' (j' + dj) (i' + di) = G1 sc z g (j + dj) (i + di).
Proof. intros. unfold G1. st. rewrite c_Ulr1e, c_B1f by bl. reflexivity. Qed.
Lemma c_G2 : forall dj di, (aj + 3 <= dj <= bj - 2)%Z -> (ai + 3 <= di <= bi - 3)%Z ->
  box g (j + dj) (i + di) 0 1 1 1 -> box g' (j' + dj) (i' + di) 0 1 1 1 -> G2 sc z' g' (j' + dj) (i' + di) = G2 sc z g (j + dj) (i + di).
Proof. intros. unfold G2. st. rewrite c_Ulr2e, c_B2f by bl. reflexivity. Qed.
Lemma c_emf : forall dj di, s_mhd sc = true -> (aj + 4 <= dj <= bj - 3)%Z -> (ai + 4 <= di <= bi - 3)%Z ->
  box g (j + dj) (i + di) 0 1 0 1 -> box g' (j' + dj) (i' + di) 0 1 0 1 -> emf sc z' g' (j' + dj) (i' + di) = emf sc z g (j + dj) (i + di).
Proof.
  intros. unfold emf. st. unfold emf3_corner. cbv zeta. offs. rewrite !c_G1, !c_G2, !c_cch by (auto; bl). reflexivity.
Qed.
Lemma c_B1i' : forall dj di, (aj + 4 <= dj <= bj - 4)%Z -> (ai + 4 <= di <= bi - 3)%Z ->
  box g (j + dj) (i + di) 0 0 0 1 -> box g' (j' + dj) (i' + di) 0 0 0 1 -> B1i' sc z' g' (j' + dj) (i' + di) = B1i' sc z g (j + dj) (i + di).
Proof. intros. unfold B1i'. destruct (s_mhd sc) eqn:Hm; [|apply (n2_B1 N); lia]. st. offs. rewrite !c_emf by (auto; bl). dat. reflexivity. Qed.
Lemma c_B2i' : forall dj di, (aj + 4 <= dj <= bj - 3)%Z -> (ai + 4 <= di <= bi - 4)%Z ->
  box g (j + dj) (i + di) 0 1 0 0 -> box g' (j' + dj) (i' + di) 0 1 0 0 -> B2i' sc z' g' (j' + dj) (i' + di) = B2i' sc z g (j + dj) (i + di).
Proof. intros. unfold B2i'. destruct (s_mhd sc) eqn:Hm; [|apply (n2_B2 N); lia]. st. offs. rewrite !c_emf by (auto; bl). dat. reflexivity. Qed.
Lemma c_U12 : forall dj di, (aj + 4 <= dj <= bj - 4)%Z -> (ai + 4 <= di <= bi - 4)%Z ->
  box g (j + dj) (i + di) 0 0 0 0 -> box g' (j' + dj) (i' + di) 0 0 0 0 -> U12 sc z' g' (j' + dj) (i' + di) = U12 sc z g (j + dj) (i + di).
Proof.
  intros dj di Hj Hi H H'.
  assert (Ea : U11a sc z' g' (j' + dj) (i' + di) = U11a sc z g (j + dj) (i + di)).
  { unfold U11a. destruct (s_grav sc) eqn:Hg; [|apply (n2_U N); lia].
    assert (Hn : needs_dhalf sc = true) by (unfold needs_dhalf; rewrite Hg; now rewrite orb_true_r).
    st. pot2 N Hg. offs. rewrite !c_G1, !c_G2, c_dhalf by (auto; bl). dat. reflexivity. }
  assert (Eb : U11b1 sc z' g' (j' + dj) (i' + di) = U11b1 sc z g (j + dj) (i + di)).
  { unfold U11b1. destruct (s_selfg sc) as [[? ?]|] eqn:Hsg; [|exact Ea]. st. offs. rewrite !c_G1 by bl. dat. now rewrite Ea. }
  assert (Eb2 : U11b sc z' g' (j' + dj) (i' + di) = U11b sc z g (j + dj) (i + di)).
  { unfold U11b. destruct (s_selfg sc) as [[? ?]|] eqn:Hsg; [|exact Eb]. st. offs. rewrite !c_G2 by bl. dat. now rewrite Eb. }
  assert (Ec : U11c sc z' g' (j' + dj) (i' + di) = U11c sc z g (j + dj) (i + di)).
  { unfold U11c. destruct (s_cool sc) eqn:Hc; [|exact Eb2].
    assert (Hn : needs_dhalf sc = true) by (unfold needs_dhalf; rewrite Hc; apply orb_true_r).
    st. rewrite c_dhalf, c_phalf by (try bl; auto; congruence). now rewrite Eb2. }
  assert (Ed : U12b sc z' g' (j' + dj) (i' + di) = U12b sc z g (j + dj) (i + di)).
  { unfold U12b. st. unfold U12a. rewrite !loop2_in by bl. base2 N. offs. rewrite !c_G1, !c_G2 by bl. now rewrite Ec. }
  unfold U12. destruct (s_mhd sc); [|exact Ed]. st. offs. rewrite !c_B1i', !c_B2i' by bl. now rewrite Ed.
Qed.
End Ctu.

Section Vl.
Import Vl2Model.
Variables (sc : scheme) (z z' : scratch2) (g g' : grid2) (j i j' i' aj bj ai bi : Z).
Hypothesis Hlr : nearby (s_lr sc).
Hypothesis N : near2 sc g g' j i j' i' aj bj ai bi.
Ltac st := unfold il, iu, jl, ju, ia, ib, ja, jb; rewrite !loop2_in by bl; cbv zeta; base2 N.
Ltac dat := rewrite ?(n2_U N) by lia; rewrite ?(n2_B1 N) by lia; rewrite ?(n2_B2 N) by lia; try rewrite !(n2_Phi N ltac:(congruence)) by lia.

Lemma v_W1 : forall dj di, (aj <= dj <= bj)%Z -> (ai <= di <= bi)%Z ->
  box g (j + dj) (i + di) 4 4 4 4 -> box g' (j' + dj) (i' + di) 4 4 4 4 -> W1 sc z' g' (j' + dj) (i' + di) = W1 sc z g (j + dj) (i + di).
Proof. intros. unfold W1. st. dat. reflexivity. Qed.
Lemma v_W2 : forall dj di, (aj <= dj <= bj)%Z -> (ai <= di <= bi)%Z ->
  box g (j + dj) (i + di) 4 4 4 4 -> box g' (j' + dj) (i' + di) 4 4 4 4 -> W2 sc z' g' (j' + dj) (i' + di) = W2 sc z g (j + dj) (i + di).
Proof. intros. unfold W2. st. dat. reflexivity. Qed.
Lemma v_F1 : forall dj di, (aj <= dj <= bj)%Z -> (ai + 1 <= di <= bi)%Z ->
  box g (j + dj) (i + di) 4 4 3 4 -> box g' (j' + dj) (i' + di) 4 4 3 4 -> F1 sc z' g' (j' + dj) (i' + di) = F1 sc z g (j + dj) (i + di).
Proof. intros. unfold F1. st. offs. rewrite !v_W1 by bl. dat. reflexivity. Qed.
Lemma v_F2 : forall dj di, (aj + 1 <= dj <= bj)%Z -> (ai <= di <= bi)%Z ->
  box g (j + dj) (i + di) 3 4 4 4 -> box g' (j' + dj) (i' + di) 3 4 4 4 -> F2 sc z' g' (j' + dj) (i' + di) = F2 sc z g (j + dj) (i + di).
Proof. intros. unfold F2. st. offs. rewrite !v_W2 by bl. dat. reflexivity. Qed.
Lemma v_cc0 : forall dj di, (aj <= dj <= bj)%Z -> (ai <= di <= bi)%Z ->
  box g (j + dj) (i + di) 4 4 4 4 -> box g' (j' + dj) (i' + di) 4 4 4 4 -> cc0 sc z' g' (j' + dj) (i' + di) = cc0 sc z g (j + dj) (i + di).
Proof. intros. unfold cc0. st. dat. reflexivity. Qed.
Lemma v_emf0 : forall dj di, (aj + 1 <= dj <= bj)%Z -> (ai + 1 <= di <= bi)%Z ->
  box g (j + dj) (i + di) 3 4 3 4 -> box g' (j' + dj) (i' + di) 3 4 3 4 -> emf0 sc z' g' (j' + dj) (i' + di) = emf0 sc z g (j + dj) (i + di).
Proof.
  intros. unfold emf0. st. unfold emf3_corner. cbv zeta. offs. rewrite !v_F1, !v_F2, !v_cc0 by bl. reflexivity.
Qed.
Lemma v_B1f : forall dj di, (aj + 1 <= dj <= bj - 1)%Z -> (ai + 1 <= di <= bi)%Z ->
  box g (j + dj) (i + di) 3 3 3 4 -> box g' (j' + dj) (i' + di) 3 3 3 4 -> B1f sc z' g' (j' + dj) (i' + di) = B1f sc z g (j + dj) (i + di).
Proof.
  intros dj di Hj Hi H H'.
  assert (E : B1f0 z' g' (j' + dj) (i' + di) = B1f0 z g (j + dj) (i + di)) by (unfold B1f0; st; dat; reflexivity).
  unfold B1f. destruct (s_mhd sc); [|exact E]. st. offs. rewrite !v_emf0 by bl. now rewrite E.
Qed.
Lemma v_B2f : forall dj di, (aj + 1 <= dj <= bj)%Z -> (ai + 1 <= di <= bi - 1)%Z ->
  box g (j + dj) (i + di) 3 4 3 3 -> box g' (j' + dj) (i' + di) 3 4 3 3 -> B2f sc z' g' (j' + dj) (i' + di) = B2f sc z g (j + dj) (i + di).
Proof.
  intros dj di Hj Hi H H'.
  assert (E : B2f0 z' g' (j' + dj) (i' + di) = B2f0 z g (j + dj) (i + di)) by (unfold B2f0; st; dat; reflexivity).
  unfold B2f. destruct (s_mhd sc); [|exact E]. st. offs. rewrite !v_emf0 by bl. now rewrite E.
Qed.
Lemma v_Uh : forall dj di, (aj + 1 <= dj <= bj - 1)%Z -> (ai + 1 <= di <= bi - 1)%Z ->
  box g (j + dj) (i + di) 3 3 3 3 -> box g' (j' + dj) (i' + di) 3 3 3 3 -> Uh sc z' g' (j' + dj) (i' + di) = Uh sc z g (j + dj) (i + di).
Proof.
  intros dj di Hj Hi H H'.
  assert (E0 : Uh0 z' g' (j' + dj) (i' + di) = Uh0 z g (j + dj) (i + di)) by (unfold Uh0; st; dat; reflexivity).
  assert (E1 : Uh1 sc z' g' (j' + dj) (i' + di) = Uh1 sc z g (j + dj) (i + di)).
  { unfold Uh1. destruct (s_mhd sc); [|exact E0]. st. offs. rewrite !v_B1f, !v_B2f by bl. now rewrite E0. }
  assert (E2 : Uh2 sc z' g' (j' + dj) (i' + di) = Uh2 sc z g (j + dj) (i + di)).
  { unfold Uh2. st. offs. rewrite !v_F1 by bl. now rewrite E1. }
  assert (E3 : Uh3 sc z' g' (j' + dj) (i' + di) = Uh3 sc z g (j + dj) (i + di)).
  { unfold Uh3. st. offs. rewrite !v_F2 by bl. now rewrite E2. }
  assert (E4 : Uh4 sc z' g' (j' + dj) (i' + di) = Uh4 sc z g (j + dj) (i + di)).
  { unfold Uh4. destruct (s_grav sc) eqn:Hg; [|exact E3]. st. pot2 N Hg. offs. rewrite !v_F1, !v_F2 by bl. dat. now rewrite E3. }
  unfold Uh. destruct (s_selfg sc) eqn:Hsg; [|exact E4]. st. offs. rewrite !v_F1, !v_F2 by bl. dat. now rewrite E4.
Qed.
Lemma v_G1 : forall dj di, (aj + 1 <= dj <= bj - 1)%Z -> (ai + 4 <= di <= bi - 3)%Z ->
  box g (j + dj) (i + di) 1 1 0 1 -> box g' (j' + dj) (i' + di) 1 1 0 1 -> G1 sc z' g' (j' + dj) (i' + di) = G1 sc z g (j + dj) (i + di).
Proof.
  intros dj di Hj Hi H H'.
  assert (E : lr1 sc z' g' (j' + dj) (i' + di) = lr1 sc z g (j + dj) (i + di)).
  { unfold lr1. st. apply Hlr. intros e He. offs. unfold Wh1. st. rewrite v_Uh by bl. reflexivity. }
  unfold G1. st. rewrite E, v_B1f by bl. reflexivity.
Qed.
Lemma v_G2 : forall dj di, (aj + 4 <= dj <= bj - 3)%Z -> (ai + 1 <= di <= bi - 1)%Z ->
  box g (j + dj) (i + di) 0 1 1 1 -> box g' (j' + dj) (i' + di) 0 1 1 1 -> G2 sc z' g' (j' + dj) (i' + di) = G2 sc z g (j + dj) (i + di).
Proof.
  intros dj di Hj Hi H H'.
  assert (E : lr2 sc z' g' (j' + dj) (i' + di) = lr2 sc z g (j + dj) (i + di)).
  { unfold lr2. st. apply Hlr. intros e He. offs. unfold Wh2. st. rewrite v_Uh by bl. reflexivity. }
  unfold G2. st. rewrite E, v_B2f by bl. reflexivity.
Qed.
Lemma v_emf : forall dj di, (aj + 4 <= dj <= bj - 3)%Z -> (ai + 4 <= di <= bi - 3)%Z ->
  box g (j + dj) (i + di) 0 1 0 1 -> box g' (j' + dj) (i' + di) 0 1 0 1 -> emf sc z' g' (j' + dj) (i' + di) = emf sc z g (j + dj) (i + di).
Proof.
  intros dj di Hj Hi H H'. unfold emf. st. unfold emf3_corner. cbv zeta. offs. rewrite !v_G1, !v_G2 by bl.
  unfold cch. st. rewrite !v_Uh by bl. reflexivity.
Qed.
Lemma v_B1i' : forall dj di, (aj + 4 <= dj <= bj - 4)%Z -> (ai + 4 <= di <= bi - 3)%Z ->
  box g (j + dj) (i + di) 0 0 0 1 -> box g' (j' + dj) (i' + di) 0 0 0 1 -> B1i' sc z' g' (j' + dj) (i' + di) = B1i' sc z g (j + dj) (i + di).
Proof. intros. unfold B1i'. destruct (s_mhd sc) eqn:Hm; [|apply (n2_B1 N); lia]. st. offs. rewrite !v_emf by bl. dat. reflexivity. Qed.
Lemma v_B2i' : forall dj di, (aj + 4 <= dj <= bj - 3)%Z -> (ai + 4 <= di <= bi - 4)%Z ->
  box g (j + dj) (i + di) 0 1 0 0 -> box g' (j' + dj) (i' + di) 0 1 0 0 -> B2i' sc z' g' (j' + dj) (i' + di) = B2i' sc z g (j + dj) (i + di).
Proof. intros. unfold B2i'. destruct (s_mhd sc) eqn:Hm; [|apply (n2_B2 N); lia]. st. offs. rewrite !v_emf by bl. dat. reflexivity. Qed.
Lemma v_U13 : forall dj di, (aj + 4 <= dj <= bj - 4)%Z -> (ai + 4 <= di <= bi - 4)%Z ->
  box g (j + dj) (i + di) 0 0 0 0 -> box g' (j' + dj) (i' + di) 0 0 0 0 -> U13 sc z' g' (j' + dj) (i' + di) = U13 sc z g (j + dj) (i + di).
Proof.
  intros dj di Hj Hi H H'.
  assert (E0 : U11 sc z' g' (j' + dj) (i' + di) = U11 sc z g (j + dj) (i + di)).
  { unfold U11. destruct (s_mhd sc); [|apply (n2_U N); lia]. st. offs. rewrite !v_B1i', !v_B2i' by bl. dat. reflexivity. }
  assert (Ea : U12a sc z' g' (j' + dj) (i' + di) = U12a sc z g (j + dj) (i + di)).
  { unfold U12a. destruct (s_grav sc) eqn:Hg; [|exact E0]. st. pot2 N Hg. offs. rewrite !v_G1, !v_G2, v_Uh by bl. now rewrite E0. }
  assert (Eb : U12b1 sc z' g' (j' + dj) (i' + di) = U12b1 sc z g (j + dj) (i + di)).
  { unfold U12b1. destruct (s_selfg sc) as [[? ?]|] eqn:Hsg; [|exact Ea]. st. offs. rewrite !v_G1 by bl. dat. now rewrite Ea. }
  assert (Ec : U12b sc z' g' (j' + dj) (i' + di) = U12b sc z g (j + dj) (i + di)).
  { unfold U12b. destruct (s_selfg sc) as [[? ?]|] eqn:Hsg; [|exact Eb]. st. offs. rewrite !v_G2 by bl. dat. now rewrite Eb. }
  unfold U13. st. unfold U13a. rewrite !loop2_in by bl. base2 N. offs. rewrite !v_G1, !v_G2 by bl. now rewrite Ec.
Qed.
End Vl.
