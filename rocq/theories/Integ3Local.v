(** * 3D integrators: the new value of a cell depends on the cells within [nghost] of it *)
From Coq Require Import Reals ZArith List Bool Lia Lra.
From Verif Require Import GasModel IntegModel IntegSpec IntegFacts SchemeModel Integ3Spec.
From Verif Require Ctu3Model Vl3Model.
Import Ctu3Model (grid3, scratch3, is, ie, js, je, ks, ke, dt, dx1, dx2, dx3, MinX1, MinX2, MinX3, U, B1i, B2i, B3i, Phi, x1c, x2c, x3c, pot,
  q1, q2, q3, hq1, hq2, hq3, hdt, dx1i, dx2i, dx3i, emf1_corner, emf2_corner, emf3_corner, ph1r, ph1l, ph2r, ph2l, ph3r, ph3l,
  g11, g12, g13, g21, g22, g23, g31, g32, g33, sg1, sg2, sg3, centre).
Open Scope R_scope.

Arguments n3_dt {sc g g' k j i k' j' i' a b}.
Arguments n3_dx1 {sc g g' k j i k' j' i' a b}.
Arguments n3_dx2 {sc g g' k j i k' j' i' a b}.
Arguments n3_dx3 {sc g g' k j i k' j' i' a b}.
Arguments n3_pot {sc g g' k j i k' j' i' a b}.
Arguments n3_U {sc g g' k j i k' j' i' a b}.
Arguments n3_B1 {sc g g' k j i k' j' i' a b}.
Arguments n3_B2 {sc g g' k j i k' j' i' a b}.
Arguments n3_B3 {sc g g' k j i k' j' i' a b}.
Arguments n3_Phi {sc g g' k j i k' j' i' a b}.

Lemma x1c_off : forall g i d, x1c g (i + d) = x1c g i + IZR d * dx1 g.
Proof. intros. unfold x1c. replace (i + d - is g)%Z with ((i - is g) + d)%Z by lia. rewrite plus_IZR. ring. Qed.
Lemma x2c_off : forall g j d, x2c g (j + d) = x2c g j + IZR d * dx2 g.
Proof. intros. unfold x2c. replace (j + d - js g)%Z with ((j - js g) + d)%Z by lia. rewrite plus_IZR. ring. Qed.
Lemma x3c_off : forall g k d, x3c g (k + d) = x3c g k + IZR d * dx3 g.
Proof. intros. unfold x3c. replace (k + d - ks g)%Z with ((k - ks g) + d)%Z by lia. rewrite plus_IZR. ring. Qed.

(** (k,j,i) is within so many zones below and above the active ones, in every direction *)
Definition box (g : grid3) (k j i a3 b3 a2 b2 a1 b1 : Z) : Prop :=
  (ks g - a3 <= k <= ke g + b3)%Z /\ (js g - a2 <= j <= je g + b2)%Z /\ (is g - a1 <= i <= ie g + b1)%Z.
Ltac bl := unfold box, nghost in *; lia.

Section Common.
Variables (sc : scheme) (g g' : grid3) (k j i k' j' i' a b : Z).
Hypothesis N : near3 sc g g' k j i k' j' i' a b.
Lemma pot_eq : forall phi, s_grav sc = Some phi -> forall dk dj di x y w,
  pot g' phi (k' + dk) (j' + dj) (i' + di) x y w = pot g phi (k + dk) (j + dj) (i + di) x y w.
Proof.
  intros. unfold pot. rewrite !x1c_off, !x2c_off, !x3c_off, !Rplus_assoc, (n3_dx1 N), (n3_dx2 N), (n3_dx3 N). now apply (n3_pot N).
Qed.
Lemma eq_q1 : q1 g' = q1 g. Proof. unfold q1. now rewrite (n3_dt N), (n3_dx1 N). Qed.
Lemma eq_q2 : q2 g' = q2 g. Proof. unfold q2. now rewrite (n3_dt N), (n3_dx2 N). Qed.
Lemma eq_q3 : q3 g' = q3 g. Proof. unfold q3. now rewrite (n3_dt N), (n3_dx3 N). Qed.
Lemma eq_hq1 : hq1 g' = hq1 g. Proof. unfold hq1. now rewrite eq_q1. Qed.
Lemma eq_hq2 : hq2 g' = hq2 g. Proof. unfold hq2. now rewrite eq_q2. Qed.
Lemma eq_hq3 : hq3 g' = hq3 g. Proof. unfold hq3. now rewrite eq_q3. Qed.
Lemma eq_hdt : hdt g' = hdt g. Proof. unfold hdt. now rewrite (n3_dt N). Qed.
Lemma eq_dx1i : dx1i g' = dx1i g. Proof. unfold dx1i. now rewrite (n3_dx1 N). Qed.
Lemma eq_dx2i : dx2i g' = dx2i g. Proof. unfold dx2i. now rewrite (n3_dx2 N). Qed.
Lemma eq_dx3i : dx3i g' = dx3i g. Proof. unfold dx3i. now rewrite (n3_dx3 N). Qed.
Hypothesis Hsg : s_selfg sc <> None.
Lemma c_sg1 : forall c d (F F' : Z -> Z -> Z -> cons1) (V V' : Z -> Z -> Z -> cons) dk dj di,
  V' (k' + dk)%Z (j' + dj)%Z (i' + di)%Z = V (k + dk)%Z (j + dj)%Z (i + di)%Z ->
  F' (k' + dk)%Z (j' + dj)%Z (i' + di)%Z = F (k + dk)%Z (j + dj)%Z (i + di)%Z ->
  F' (k' + dk)%Z (j' + dj)%Z (i' + di + 1)%Z = F (k + dk)%Z (j + dj)%Z (i + di + 1)%Z ->
  (a + 1 <= dk <= b - 1)%Z -> (a + 1 <= dj <= b - 1)%Z -> (a + 1 <= di <= b - 1)%Z ->
  sg1 g' c d F' V' (k' + dk) (j' + dj) (i' + di) = sg1 g c d F V (k + dk) (j + dj) (i + di).
Proof.
  intros c d F F' V V' dk dj di EV EF EF1 Hk Hj Hi. unfold sg1. cbv zeta. rewrite EV, EF, EF1. clear EV EF EF1.
  unfold g11, g12, g13, g21, g22, g23, g31, g32, g33. rewrite eq_q1, eq_dx1i, eq_dx2i, eq_dx3i. offs.
  rewrite !(n3_Phi N Hsg) by lia. reflexivity.
Qed.
Lemma c_sg2 : forall c d (F F' : Z -> Z -> Z -> cons1) (V V' : Z -> Z -> Z -> cons) dk dj di,
  V' (k' + dk)%Z (j' + dj)%Z (i' + di)%Z = V (k + dk)%Z (j + dj)%Z (i + di)%Z ->
  F' (k' + dk)%Z (j' + dj)%Z (i' + di)%Z = F (k + dk)%Z (j + dj)%Z (i + di)%Z ->
  F' (k' + dk)%Z (j' + dj + 1)%Z (i' + di)%Z = F (k + dk)%Z (j + dj + 1)%Z (i + di)%Z ->
  (a + 1 <= dk <= b - 1)%Z -> (a + 1 <= dj <= b - 1)%Z -> (a + 1 <= di <= b - 1)%Z ->
  sg2 g' c d F' V' (k' + dk) (j' + dj) (i' + di) = sg2 g c d F V (k + dk) (j + dj) (i + di).
Proof.
  intros c d F F' V V' dk dj di EV EF EF1 Hk Hj Hi. unfold sg2. cbv zeta. rewrite EV, EF, EF1. clear EV EF EF1.
  unfold g11, g12, g13, g21, g22, g23, g31, g32, g33. rewrite eq_q2, eq_dx1i, eq_dx2i, eq_dx3i. offs.
  rewrite !(n3_Phi N Hsg) by lia. reflexivity.
Qed.
Lemma c_sg3 : forall c d (F F' : Z -> Z -> Z -> cons1) (V V' : Z -> Z -> Z -> cons) dk dj di,
  V' (k' + dk)%Z (j' + dj)%Z (i' + di)%Z = V (k + dk)%Z (j + dj)%Z (i + di)%Z ->
  F' (k' + dk)%Z (j' + dj)%Z (i' + di)%Z = F (k + dk)%Z (j + dj)%Z (i + di)%Z ->
  F' (k' + dk + 1)%Z (j' + dj)%Z (i' + di)%Z = F (k + dk + 1)%Z (j + dj)%Z (i + di)%Z ->
  (a + 1 <= dk <= b - 1)%Z -> (a + 1 <= dj <= b - 1)%Z -> (a + 1 <= di <= b - 1)%Z ->
  sg3 g' c d F' V' (k' + dk) (j' + dj) (i' + di) = sg3 g c d F V (k + dk) (j + dj) (i + di).
Proof.
  intros c d F F' V V' dk dj di EV EF EF1 Hk Hj Hi. unfold sg3. cbv zeta. rewrite EV, EF, EF1. clear EV EF EF1.
  unfold g11, g12, g13, g21, g22, g23, g31, g32, g33. rewrite eq_q3, eq_dx1i, eq_dx2i, eq_dx3i. offs.
  rewrite !(n3_Phi N Hsg) by lia. reflexivity.
Qed.
End Common.

Ltac base3 N := rewrite ?(eq_q1 _ _ _ _ _ _ _ _ _ _ _ N), ?(eq_q2 _ _ _ _ _ _ _ _ _ _ _ N), ?(eq_q3 _ _ _ _ _ _ _ _ _ _ _ N), ?(eq_hq1 _ _ _ _ _ _ _ _ _ _ _ N), ?(eq_hq2 _ _ _ _ _ _ _ _ _ _ _ N), ?(eq_hq3 _ _ _ _ _ _ _ _ _ _ _ N), ?(eq_hdt _ _ _ _ _ _ _ _ _ _ _ N), ?(eq_dx1i _ _ _ _ _ _ _ _ _ _ _ N), ?(eq_dx2i _ _ _ _ _ _ _ _ _ _ _ N), ?(eq_dx3i _ _ _ _ _ _ _ _ _ _ _ N),
  ?(n3_dt N), ?(n3_dx1 N), ?(n3_dx2 N), ?(n3_dx3 N).
Ltac pot3 N Hg := rewrite ?(pot_eq _ _ _ _ _ _ _ _ _ _ _ N _ Hg).

Section Ctu.
Import Ctu3Model.
Variables (sc : scheme) (z z' : scratch3) (g g' : grid3) (k j i k' j' i' a b : Z).
Hypothesis Hlr : nearby (s_lr sc).
Hypothesis N : near3 sc g g' k j i k' j' i' a b.
Ltac st := unfold il, iu, jl, ju, kl, ku; rewrite !loop3_in by bl; cbv zeta; base3 N.
Ltac dat := rewrite ?(n3_U N) by lia; rewrite ?(n3_B1 N) by lia; rewrite ?(n3_B2 N) by lia; rewrite ?(n3_B3 N) by lia; try rewrite !(n3_Phi N ltac:(congruence)) by lia.

Lemma c_W1 : forall dk dj di, (a <= dk <= b)%Z -> (a <= dj <= b)%Z -> (a <= di <= b)%Z ->
  box g (k + dk) (j + dj) (i + di) 2 2 2 2 4 4 -> box g' (k' + dk) (j' + dj) (i' + di) 2 2 2 2 4 4 ->
  W1 sc z' g' (k' + dk) (j' + dj) (i' + di) = W1 sc z g (k + dk) (j + dj) (i + di).
Proof. intros. unfold W1. st. dat. reflexivity. Qed.

Lemma c_W2 : forall dk dj di, (a <= dk <= b)%Z -> (a <= dj <= b)%Z -> (a <= di <= b)%Z ->
  box g (k + dk) (j + dj) (i + di) 2 2 4 4 2 2 -> box g' (k' + dk) (j' + dj) (i' + di) 2 2 4 4 2 2 ->
  W2 sc z' g' (k' + dk) (j' + dj) (i' + di) = W2 sc z g (k + dk) (j + dj) (i + di).
Proof. intros. unfold W2. st. dat. reflexivity. Qed.

Lemma c_W3 : forall dk dj di, (a <= dk <= b)%Z -> (a <= dj <= b)%Z -> (a <= di <= b)%Z ->
  box g (k + dk) (j + dj) (i + di) 4 4 2 2 2 2 -> box g' (k' + dk) (j' + dj) (i' + di) 4 4 2 2 2 2 ->
  W3 sc z' g' (k' + dk) (j' + dj) (i' + di) = W3 sc z g (k + dk) (j + dj) (i + di).
Proof. intros. unfold W3. st. dat. reflexivity. Qed.

Lemma c_B1f0 : forall dk dj di, (a <= dk <= b)%Z -> (a <= dj <= b)%Z -> (a + 1 <= di <= b)%Z ->
  box g (k + dk) (j + dj) (i + di) 2 2 2 2 4 4 -> box g' (k' + dk) (j' + dj) (i' + di) 2 2 2 2 4 4 ->
  B1f0 z' g' (k' + dk) (j' + dj) (i' + di) = B1f0 z g (k + dk) (j + dj) (i + di).
Proof. intros. unfold B1f0. st. dat. reflexivity. Qed.

Lemma c_B2f0 : forall dk dj di, (a <= dk <= b)%Z -> (a + 1 <= dj <= b)%Z -> (a <= di <= b)%Z ->
  box g (k + dk) (j + dj) (i + di) 2 2 4 4 2 2 -> box g' (k' + dk) (j' + dj) (i' + di) 2 2 4 4 2 2 ->
  B2f0 z' g' (k' + dk) (j' + dj) (i' + di) = B2f0 z g (k + dk) (j + dj) (i + di).
Proof. intros. unfold B2f0. st. dat. reflexivity. Qed.

Lemma c_B3f0 : forall dk dj di, (a + 1 <= dk <= b)%Z -> (a <= dj <= b)%Z -> (a <= di <= b)%Z ->
  box g (k + dk) (j + dj) (i + di) 4 4 2 2 2 2 -> box g' (k' + dk) (j' + dj) (i' + di) 4 4 2 2 2 2 ->
  B3f0 z' g' (k' + dk) (j' + dj) (i' + di) = B3f0 z g (k + dk) (j + dj) (i + di).
Proof. intros. unfold B3f0. st. dat. reflexivity. Qed.

Lemma c_lr1 : forall dk dj di, (a + 1 <= dk <= b - 1)%Z -> (a + 1 <= dj <= b - 1)%Z -> (a + 3 <= di <= b - 2)%Z ->
  box g (k + dk) (j + dj) (i + di) 2 2 2 2 1 2 -> box g' (k' + dk) (j' + dj) (i' + di) 2 2 2 2 1 2 ->
  lr1 sc z' g' (k' + dk) (j' + dj) (i' + di) = lr1 sc z g (k + dk) (j + dj) (i + di).
Proof. intros dk dj di Hk Hj Hi H H'.
  assert (Ea : lr1a sc z' g' (k' + dk) (j' + dj) (i' + di) = lr1a sc z g (k + dk) (j + dj) (i + di)).
  { unfold lr1a. st. f_equal. apply Hlr. intros e He. offs. apply c_W1; bl. }
  assert (Eb : lr1b sc z' g' (k' + dk) (j' + dj) (i' + di) = lr1b sc z g (k + dk) (j + dj) (i + di)).
  { unfold lr1b. destruct (s_mhd sc); [|exact Ea]. st. rewrite Ea. unfold wsrc1, db1, db2, db3. cbv zeta. base3 N. offs. dat. reflexivity. }
  assert (Ec : lr1c sc z' g' (k' + dk) (j' + dj) (i' + di) = lr1c sc z g (k + dk) (j + dj) (i + di)).
  { unfold lr1c. destruct (s_grav sc) eqn:Hg; [|exact Eb]. st. pot3 N Hg. now rewrite Eb. }
  assert (Ed : lr1d sc z' g' (k' + dk) (j' + dj) (i' + di) = lr1d sc z g (k + dk) (j + dj) (i + di)).
  { unfold lr1d. destruct (s_selfg sc) eqn:Hsg; [|exact Ec]. st. offs. dat. now rewrite Ec. }
  unfold lr1. st. now rewrite Ed.
 Qed.

Lemma c_lr2 : forall dk dj di, (a + 1 <= dk <= b - 1)%Z -> (a + 3 <= dj <= b - 2)%Z -> (a + 1 <= di <= b - 1)%Z ->
  box g (k + dk) (j + dj) (i + di) 2 2 1 2 2 2 -> box g' (k' + dk) (j' + dj) (i' + di) 2 2 1 2 2 2 ->
  lr2 sc z' g' (k' + dk) (j' + dj) (i' + di) = lr2 sc z g (k + dk) (j + dj) (i + di).
Proof. intros dk dj di Hk Hj Hi H H'.
  assert (Ea : lr2a sc z' g' (k' + dk) (j' + dj) (i' + di) = lr2a sc z g (k + dk) (j + dj) (i + di)).
  { unfold lr2a. st. f_equal. apply Hlr. intros e He. offs. apply c_W2; bl. }
  assert (Eb : lr2b sc z' g' (k' + dk) (j' + dj) (i' + di) = lr2b sc z g (k + dk) (j + dj) (i + di)).
  { unfold lr2b. destruct (s_mhd sc); [|exact Ea]. st. rewrite Ea. unfold wsrc2, db1, db2, db3. cbv zeta. base3 N. offs. dat. reflexivity. }
  assert (Ec : lr2c sc z' g' (k' + dk) (j' + dj) (i' + di) = lr2c sc z g (k + dk) (j + dj) (i + di)).
  { unfold lr2c. destruct (s_grav sc) eqn:Hg; [|exact Eb]. st. pot3 N Hg. now rewrite Eb. }
  assert (Ed : lr2d sc z' g' (k' + dk) (j' + dj) (i' + di) = lr2d sc z g (k + dk) (j + dj) (i + di)).
  { unfold lr2d. destruct (s_selfg sc) eqn:Hsg; [|exact Ec]. st. offs. dat. now rewrite Ec. }
  unfold lr2. st. now rewrite Ed.
 Qed.

Lemma c_lr3 : forall dk dj di, (a + 3 <= dk <= b - 2)%Z -> (a + 1 <= dj <= b - 1)%Z -> (a + 1 <= di <= b - 1)%Z ->
  box g (k + dk) (j + dj) (i + di) 1 2 2 2 2 2 -> box g' (k' + dk) (j' + dj) (i' + di) 1 2 2 2 2 2 ->
  lr3 sc z' g' (k' + dk) (j' + dj) (i' + di) = lr3 sc z g (k + dk) (j + dj) (i + di).
Proof. intros dk dj di Hk Hj Hi H H'.
  assert (Ea : lr3a sc z' g' (k' + dk) (j' + dj) (i' + di) = lr3a sc z g (k + dk) (j + dj) (i + di)).
  { unfold lr3a. st. f_equal. apply Hlr. intros e He. offs. apply c_W3; bl. }
  assert (Eb : lr3b sc z' g' (k' + dk) (j' + dj) (i' + di) = lr3b sc z g (k + dk) (j + dj) (i + di)).
  { unfold lr3b. destruct (s_mhd sc); [|exact Ea]. st. rewrite Ea. unfold wsrc3, db1, db2, db3. cbv zeta. base3 N. offs. dat. reflexivity. }
  assert (Ec : lr3c sc z' g' (k' + dk) (j' + dj) (i' + di) = lr3c sc z g (k + dk) (j + dj) (i + di)).
  { unfold lr3c. destruct (s_grav sc) eqn:Hg; [|exact Eb]. st. pot3 N Hg. now rewrite Eb. }
  assert (Ed : lr3d sc z' g' (k' + dk) (j' + dj) (i' + di) = lr3d sc z g (k + dk) (j + dj) (i + di)).
  { unfold lr3d. destruct (s_selfg sc) eqn:Hsg; [|exact Ec]. st. offs. dat. now rewrite Ec. }
  unfold lr3. st. now rewrite Ed.
 Qed.

Lemma c_Ulr1 : forall dk dj di, (a + 1 <= dk <= b - 1)%Z -> (a + 1 <= dj <= b - 1)%Z -> (a + 3 <= di <= b - 2)%Z ->
  box g (k + dk) (j + dj) (i + di) 2 2 2 2 1 2 -> box g' (k' + dk) (j' + dj) (i' + di) 2 2 2 2 1 2 ->
  Ulr1 sc z' g' (k' + dk) (j' + dj) (i' + di) = Ulr1 sc z g (k + dk) (j + dj) (i + di).
Proof. intros. unfold Ulr1. st. rewrite c_lr1 by bl. dat. reflexivity. Qed.

Lemma c_Ulr2 : forall dk dj di, (a + 1 <= dk <= b - 1)%Z -> (a + 3 <= dj <= b - 2)%Z -> (a + 1 <= di <= b - 1)%Z ->
  box g (k + dk) (j + dj) (i + di) 2 2 1 2 2 2 -> box g' (k' + dk) (j' + dj) (i' + di) 2 2 1 2 2 2 ->
  Ulr2 sc z' g' (k' + dk) (j' + dj) (i' + di) = Ulr2 sc z g (k + dk) (j + dj) (i + di).
Proof. intros. unfold Ulr2. st. rewrite c_lr2 by bl. dat. reflexivity. Qed.

Lemma c_Ulr3 : forall dk dj di, (a + 3 <= dk <= b - 2)%Z -> (a + 1 <= dj <= b - 1)%Z -> (a + 1 <= di <= b - 1)%Z ->
  box g (k + dk) (j + dj) (i + di) 1 2 2 2 2 2 -> box g' (k' + dk) (j' + dj) (i' + di) 1 2 2 2 2 2 ->
  Ulr3 sc z' g' (k' + dk) (j' + dj) (i' + di) = Ulr3 sc z g (k + dk) (j + dj) (i + di).
Proof. intros. unfold Ulr3. st. rewrite c_lr3 by bl. dat. reflexivity. Qed.

Lemma c_F1 : forall dk dj di, (a + 1 <= dk <= b - 1)%Z -> (a + 1 <= dj <= b - 1)%Z -> (a + 3 <= di <= b - 2)%Z ->
  box g (k + dk) (j + dj) (i + di) 2 2 2 2 1 2 -> box g' (k' + dk) (j' + dj) (i' + di) 2 2 2 2 1 2 ->
  F1 sc z' g' (k' + dk) (j' + dj) (i' + di) = F1 sc z g (k + dk) (j + dj) (i + di).
Proof. intros. unfold F1. st. rewrite c_lr1, c_Ulr1, c_B1f0 by bl. reflexivity. Qed.

Lemma c_F2 : forall dk dj di, (a + 1 <= dk <= b - 1)%Z -> (a + 3 <= dj <= b - 2)%Z -> (a + 1 <= di <= b - 1)%Z ->
  box g (k + dk) (j + dj) (i + di) 2 2 1 2 2 2 -> box g' (k' + dk) (j' + dj) (i' + di) 2 2 1 2 2 2 ->
  F2 sc z' g' (k' + dk) (j' + dj) (i' + di) = F2 sc z g (k + dk) (j + dj) (i + di).
Proof. intros. unfold F2. st. rewrite c_lr2, c_Ulr2, c_B2f0 by bl. reflexivity. Qed.

Lemma c_F3 : forall dk dj di, (a + 3 <= dk <= b - 2)%Z -> (a + 1 <= dj <= b - 1)%Z -> (a + 1 <= di <= b - 1)%Z ->
  box g (k + dk) (j + dj) (i + di) 1 2 2 2 2 2 -> box g' (k' + dk) (j' + dj) (i' + di) 1 2 2 2 2 2 ->
  F3 sc z' g' (k' + dk) (j' + dj) (i' + di) = F3 sc z g (k + dk) (j + dj) (i + di).
Proof. intros. unfold F3. st. rewrite c_lr3, c_Ulr3, c_B3f0 by bl. reflexivity. Qed.

Lemma c_cc1_0 : forall dk dj di, (a <= dk <= b)%Z -> (a <= dj <= b)%Z -> (a <= di <= b)%Z ->
  box g (k + dk) (j + dj) (i + di) 2 2 2 2 2 2 -> box g' (k' + dk) (j' + dj) (i' + di) 2 2 2 2 2 2 ->
  cc1_0 z' g' (k' + dk) (j' + dj) (i' + di) = cc1_0 z g (k + dk) (j + dj) (i + di).
Proof. intros. unfold cc1_0. st. dat. reflexivity. Qed.

Lemma c_cc2_0 : forall dk dj di, (a <= dk <= b)%Z -> (a <= dj <= b)%Z -> (a <= di <= b)%Z ->
  box g (k + dk) (j + dj) (i + di) 2 2 2 2 2 2 -> box g' (k' + dk) (j' + dj) (i' + di) 2 2 2 2 2 2 ->
  cc2_0 z' g' (k' + dk) (j' + dj) (i' + di) = cc2_0 z g (k + dk) (j + dj) (i + di).
Proof. intros. unfold cc2_0. st. dat. reflexivity. Qed.

Lemma c_cc3_0 : forall dk dj di, (a <= dk <= b)%Z -> (a <= dj <= b)%Z -> (a <= di <= b)%Z ->
  box g (k + dk) (j + dj) (i + di) 2 2 2 2 2 2 -> box g' (k' + dk) (j' + dj) (i' + di) 2 2 2 2 2 2 ->
  cc3_0 z' g' (k' + dk) (j' + dj) (i' + di) = cc3_0 z g (k + dk) (j + dj) (i + di).
Proof. intros. unfold cc3_0. st. dat. reflexivity. Qed.

Lemma c_emf1_0 : forall dk dj di, (a + 3 <= dk <= b - 2)%Z -> (a + 3 <= dj <= b - 2)%Z -> (a + 1 <= di <= b - 1)%Z ->
  box g (k + dk) (j + dj) (i + di) 1 2 1 2 2 2 -> box g' (k' + dk) (j' + dj) (i' + di) 1 2 1 2 2 2 ->
  emf1_0 sc z' g' (k' + dk) (j' + dj) (i' + di) = emf1_0 sc z g (k + dk) (j + dj) (i + di).
Proof. intros. unfold emf1_0. st. unfold emf1_corner. cbv zeta. offs. rewrite !c_F2 by bl. rewrite !c_F3 by bl. rewrite !c_cc1_0 by bl. reflexivity. Qed.

Lemma c_emf2_0 : forall dk dj di, (a + 3 <= dk <= b - 2)%Z -> (a + 1 <= dj <= b - 1)%Z -> (a + 3 <= di <= b - 2)%Z ->
  box g (k + dk) (j + dj) (i + di) 1 2 2 2 1 2 -> box g' (k' + dk) (j' + dj) (i' + di) 1 2 2 2 1 2 ->
  emf2_0 sc z' g' (k' + dk) (j' + dj) (i' + di) = emf2_0 sc z g (k + dk) (j + dj) (i + di).
Proof. intros. unfold emf2_0. st. unfold emf2_corner. cbv zeta. offs. rewrite !c_F1 by bl. rewrite !c_F3 by bl. rewrite !c_cc2_0 by bl. reflexivity. Qed.

Lemma c_emf3_0 : forall dk dj di, (a + 1 <= dk <= b - 1)%Z -> (a + 3 <= dj <= b - 2)%Z -> (a + 3 <= di <= b - 2)%Z ->
  box g (k + dk) (j + dj) (i + di) 2 2 1 2 1 2 -> box g' (k' + dk) (j' + dj) (i' + di) 2 2 1 2 1 2 ->
  emf3_0 sc z' g' (k' + dk) (j' + dj) (i' + di) = emf3_0 sc z g (k + dk) (j + dj) (i + di).
Proof. intros. unfold emf3_0. st. unfold emf3_corner. cbv zeta. offs. rewrite !c_F1 by bl. rewrite !c_F2 by bl. rewrite !c_cc3_0 by bl. reflexivity. Qed.

Lemma c_B1f : forall dk dj di, (a + 3 <= dk <= b - 3)%Z -> (a + 3 <= dj <= b - 3)%Z -> (a + 3 <= di <= b - 2)%Z ->
  box g (k + dk) (j + dj) (i + di) 1 1 1 1 1 2 -> box g' (k' + dk) (j' + dj) (i' + di) 1 1 1 1 1 2 ->
  B1f sc z' g' (k' + dk) (j' + dj) (i' + di) = B1f sc z g (k + dk) (j + dj) (i + di).
Proof. intros. unfold B1f. destruct (s_mhd sc); [|apply c_B1f0; bl]. st. offs. rewrite !c_emf2_0 by bl. rewrite !c_emf3_0 by bl. rewrite c_B1f0 by bl. reflexivity. Qed.

Lemma c_B2f : forall dk dj di, (a + 3 <= dk <= b - 3)%Z -> (a + 3 <= dj <= b - 2)%Z -> (a + 3 <= di <= b - 3)%Z ->
  box g (k + dk) (j + dj) (i + di) 1 1 1 2 1 1 -> box g' (k' + dk) (j' + dj) (i' + di) 1 1 1 2 1 1 ->
  B2f sc z' g' (k' + dk) (j' + dj) (i' + di) = B2f sc z g (k + dk) (j + dj) (i + di).
Proof. intros. unfold B2f. destruct (s_mhd sc); [|apply c_B2f0; bl]. st. offs. rewrite !c_emf1_0 by bl. rewrite !c_emf3_0 by bl. rewrite c_B2f0 by bl. reflexivity. Qed.

Lemma c_B3f : forall dk dj di, (a + 3 <= dk <= b - 2)%Z -> (a + 3 <= dj <= b - 3)%Z -> (a + 3 <= di <= b - 3)%Z ->
  box g (k + dk) (j + dj) (i + di) 1 2 1 1 1 1 -> box g' (k' + dk) (j' + dj) (i' + di) 1 2 1 1 1 1 ->
  B3f sc z' g' (k' + dk) (j' + dj) (i' + di) = B3f sc z g (k + dk) (j + dj) (i + di).
Proof. intros. unfold B3f. destruct (s_mhd sc); [|apply c_B3f0; bl]. st. offs. rewrite !c_emf1_0 by bl. rewrite !c_emf2_0 by bl. rewrite c_B3f0 by bl. reflexivity. Qed.

Lemma c_Ulr1e : forall dk dj di, (a + 3 <= dk <= b - 3)%Z -> (a + 3 <= dj <= b - 3)%Z -> (a + 3 <= di <= b - 2)%Z ->
  box g (k + dk) (j + dj) (i + di) 1 1 1 1 1 1 -> box g' (k' + dk) (j' + dj) (i' + di) 1 1 1 1 1 1 ->
  Ulr1e sc z' g' (k' + dk) (j' + dj) (i' + di) = Ulr1e sc z g (k + dk) (j + dj) (i + di).
Proof. intros dk dj di Hk Hj Hi H H'.
  assert (Ea : Ulr1a sc z' g' (k' + dk) (j' + dj) (i' + di) = Ulr1a sc z g (k + dk) (j + dj) (i + di)).
  { unfold Ulr1a. st. unfold tr1. cbv zeta. base3 N. offs. rewrite !c_F2 by bl. rewrite !c_F3 by bl. rewrite !c_emf1_0 by bl. rewrite c_Ulr1 by bl. reflexivity. }
  assert (Eb : Ulr1b sc z' g' (k' + dk) (j' + dj) (i' + di) = Ulr1b sc z g (k + dk) (j + dj) (i + di)).
  { unfold Ulr1b. destruct (s_mhd sc); [|exact Ea]. st. rewrite Ea. unfold ms1, db1, db2, db3. cbv zeta. base3 N. offs. dat. reflexivity. }
  assert (Ec : Ulr1c sc z' g' (k' + dk) (j' + dj) (i' + di) = Ulr1c sc z g (k + dk) (j + dj) (i + di)).
  { unfold Ulr1c. destruct (s_grav sc) eqn:Hg; [|exact Eb]. st. rewrite Eb. unfold gs1. cbv zeta. base3 N. pot3 N Hg. offs. rewrite !c_F2 by bl. rewrite !c_F3 by bl. dat. reflexivity. }
  assert (Ed : Ulr1d sc z' g' (k' + dk) (j' + dj) (i' + di) = Ulr1d sc z g (k + dk) (j + dj) (i + di)).
  { unfold Ulr1d. destruct (s_selfg sc) eqn:Hsg; [|exact Ec]. st. rewrite Ec. unfold gs1, ph1r, ph1l, ph2r, ph2l, ph3r, ph3l. cbv zeta. base3 N. offs. rewrite !c_F2 by bl. rewrite !c_F3 by bl. dat. reflexivity. }
  unfold Ulr1e. st. now rewrite Ed.
 Qed.

Lemma c_Ulr2e : forall dk dj di, (a + 3 <= dk <= b - 3)%Z -> (a + 3 <= dj <= b - 2)%Z -> (a + 3 <= di <= b - 3)%Z ->
  box g (k + dk) (j + dj) (i + di) 1 1 1 1 1 1 -> box g' (k' + dk) (j' + dj) (i' + di) 1 1 1 1 1 1 ->
  Ulr2e sc z' g' (k' + dk) (j' + dj) (i' + di) = Ulr2e sc z g (k + dk) (j + dj) (i + di).
Proof. intros dk dj di Hk Hj Hi H H'.
  assert (Ea : Ulr2a sc z' g' (k' + dk) (j' + dj) (i' + di) = Ulr2a sc z g (k + dk) (j + dj) (i + di)).
  { unfold Ulr2a. st. unfold tr2. cbv zeta. base3 N. offs. rewrite !c_F1 by bl. rewrite !c_F3 by bl. rewrite !c_emf2_0 by bl. rewrite c_Ulr2 by bl. reflexivity. }
  assert (Eb : Ulr2b sc z' g' (k' + dk) (j' + dj) (i' + di) = Ulr2b sc z g (k + dk) (j + dj) (i + di)).
  { unfold Ulr2b. destruct (s_mhd sc); [|exact Ea]. st. rewrite Ea. unfold ms2, db1, db2, db3. cbv zeta. base3 N. offs. dat. reflexivity. }
  assert (Ec : Ulr2c sc z' g' (k' + dk) (j' + dj) (i' + di) = Ulr2c sc z g (k + dk) (j + dj) (i + di)).
  { unfold Ulr2c. destruct (s_grav sc) eqn:Hg; [|exact Eb]. st. rewrite Eb. unfold gs2. cbv zeta. base3 N. pot3 N Hg. offs. rewrite !c_F1 by bl. rewrite !c_F3 by bl. dat. reflexivity. }
  assert (Ed : Ulr2d sc z' g' (k' + dk) (j' + dj) (i' + di) = Ulr2d sc z g (k + dk) (j + dj) (i + di)).
  { unfold Ulr2d. destruct (s_selfg sc) eqn:Hsg; [|exact Ec]. st. rewrite Ec. unfold gs2, ph1r, ph1l, ph2r, ph2l, ph3r, ph3l. cbv zeta. base3 N. offs. rewrite !c_F1 by bl. rewrite !c_F3 by bl. dat. reflexivity. }
  unfold Ulr2e. st. now rewrite Ed.
 Qed.

Lemma c_Ulr3e : forall dk dj di, (a + 3 <= dk <= b - 2)%Z -> (a + 3 <= dj <= b - 3)%Z -> (a + 3 <= di <= b - 3)%Z ->
  box g (k + dk) (j + dj) (i + di) 1 1 1 1 1 1 -> box g' (k' + dk) (j' + dj) (i' + di) 1 1 1 1 1 1 ->
  Ulr3e sc z' g' (k' + dk) (j' + dj) (i' + di) = Ulr3e sc z g (k + dk) (j + dj) (i + di).
Proof. intros dk dj di Hk Hj Hi H H'.
  assert (Ea : Ulr3a sc z' g' (k' + dk) (j' + dj) (i' + di) = Ulr3a sc z g (k + dk) (j + dj) (i + di)).
  { unfold Ulr3a. st. unfold tr3. cbv zeta. base3 N. offs. rewrite !c_F1 by bl. rewrite !c_F2 by bl. rewrite !c_emf3_0 by bl. rewrite c_Ulr3 by bl. reflexivity. }
  assert (Eb : Ulr3b sc z' g' (k' + dk) (j' + dj) (i' + di) = Ulr3b sc z g (k + dk) (j + dj) (i + di)).
  { unfold Ulr3b. destruct (s_mhd sc); [|exact Ea]. st. rewrite Ea. unfold ms3, db1, db2, db3. cbv zeta. base3 N. offs. dat. reflexivity. }
  assert (Ec : Ulr3c sc z' g' (k' + dk) (j' + dj) (i' + di) = Ulr3c sc z g (k + dk) (j + dj) (i + di)).
  { unfold Ulr3c. destruct (s_grav sc) eqn:Hg; [|exact Eb]. st. rewrite Eb. unfold gs3. cbv zeta. base3 N. pot3 N Hg. offs. rewrite !c_F1 by bl. rewrite !c_F2 by bl. dat. reflexivity. }
  assert (Ed : Ulr3d sc z' g' (k' + dk) (j' + dj) (i' + di) = Ulr3d sc z g (k + dk) (j + dj) (i + di)).
  { unfold Ulr3d. destruct (s_selfg sc) eqn:Hsg; [|exact Ec]. st. rewrite Ec. unfold gs3, ph1r, ph1l, ph2r, ph2l, ph3r, ph3l. cbv zeta. base3 N. offs. rewrite !c_F1 by bl. rewrite !c_F2 by bl. dat. reflexivity. }
  unfold Ulr3e. st. now rewrite Ed.
 Qed.

Lemma c_dhalf : forall dk dj di, needs_dhalf sc = true -> (a + 3 <= dk <= b - 3)%Z -> (a + 3 <= dj <= b - 3)%Z -> (a + 3 <= di <= b - 3)%Z ->
  box g (k + dk) (j + dj) (i + di) 1 1 1 1 1 1 -> box g' (k' + dk) (j' + dj) (i' + di) 1 1 1 1 1 1 ->
  dhalf sc z' g' (k' + dk) (j' + dj) (i' + di) = dhalf sc z g (k + dk) (j + dj) (i + di).
Proof. intros dk dj di Hn **. unfold dhalf. rewrite Hn. st. offs. rewrite !c_F1 by bl. rewrite !c_F2 by bl. rewrite !c_F3 by bl. dat. reflexivity. Qed.

Lemma c_M1h : forall dk dj di, (a + 3 <= dk <= b - 3)%Z -> (a + 3 <= dj <= b - 3)%Z -> (a + 3 <= di <= b - 3)%Z ->
  box g (k + dk) (j + dj) (i + di) 1 1 1 1 1 1 -> box g' (k' + dk) (j' + dj) (i' + di) 1 1 1 1 1 1 ->
  M1h sc z' g' (k' + dk) (j' + dj) (i' + di) = M1h sc z g (k + dk) (j + dj) (i + di).
Proof. intros. unfold M1h, ph1r, ph1l, ph2r, ph2l, ph3r, ph3l. cbv zeta. base3 N.
  destruct (s_selfg sc) eqn:Hsg; (destruct (s_grav sc) eqn:Hg; [pot3 N Hg|]); offs; (rewrite !c_F1 by bl; rewrite !c_F2 by bl; rewrite !c_F3 by bl; dat; reflexivity). Qed.

Lemma c_M2h : forall dk dj di, (a + 3 <= dk <= b - 3)%Z -> (a + 3 <= dj <= b - 3)%Z -> (a + 3 <= di <= b - 3)%Z ->
  box g (k + dk) (j + dj) (i + di) 1 1 1 1 1 1 -> box g' (k' + dk) (j' + dj) (i' + di) 1 1 1 1 1 1 ->
  M2h sc z' g' (k' + dk) (j' + dj) (i' + di) = M2h sc z g (k + dk) (j + dj) (i + di).
Proof. intros. unfold M2h, ph1r, ph1l, ph2r, ph2l, ph3r, ph3l. cbv zeta. base3 N.
  destruct (s_selfg sc) eqn:Hsg; (destruct (s_grav sc) eqn:Hg; [pot3 N Hg|]); offs; (rewrite !c_F1 by bl; rewrite !c_F2 by bl; rewrite !c_F3 by bl; dat; reflexivity). Qed.

Lemma c_M3h : forall dk dj di, (a + 3 <= dk <= b - 3)%Z -> (a + 3 <= dj <= b - 3)%Z -> (a + 3 <= di <= b - 3)%Z ->
  box g (k + dk) (j + dj) (i + di) 1 1 1 1 1 1 -> box g' (k' + dk) (j' + dj) (i' + di) 1 1 1 1 1 1 ->
  M3h sc z' g' (k' + dk) (j' + dj) (i' + di) = M3h sc z g (k + dk) (j + dj) (i + di).
Proof. intros. unfold M3h, ph1r, ph1l, ph2r, ph2l, ph3r, ph3l. cbv zeta. base3 N.
  destruct (s_selfg sc) eqn:Hsg; (destruct (s_grav sc) eqn:Hg; [pot3 N Hg|]); offs; (rewrite !c_F1 by bl; rewrite !c_F2 by bl; rewrite !c_F3 by bl; dat; reflexivity). Qed.

Lemma c_B1ch : forall dk dj di, (a + 3 <= dk <= b - 3)%Z -> (a + 3 <= dj <= b - 3)%Z -> (a + 3 <= di <= b - 3)%Z ->
  box g (k + dk) (j + dj) (i + di) 1 1 1 1 1 1 -> box g' (k' + dk) (j' + dj) (i' + di) 1 1 1 1 1 1 ->
  B1ch sc z' g' (k' + dk) (j' + dj) (i' + di) = B1ch sc z g (k + dk) (j + dj) (i + di).
Proof. intros. unfold B1ch. offs. rewrite !c_B1f by bl. reflexivity. Qed.

Lemma c_B2ch : forall dk dj di, (a + 3 <= dk <= b - 3)%Z -> (a + 3 <= dj <= b - 3)%Z -> (a + 3 <= di <= b - 3)%Z ->
  box g (k + dk) (j + dj) (i + di) 1 1 1 1 1 1 -> box g' (k' + dk) (j' + dj) (i' + di) 1 1 1 1 1 1 ->
  B2ch sc z' g' (k' + dk) (j' + dj) (i' + di) = B2ch sc z g (k + dk) (j + dj) (i + di).
Proof. intros. unfold B2ch. offs. rewrite !c_B2f by bl. reflexivity. Qed.

Lemma c_B3ch : forall dk dj di, (a + 3 <= dk <= b - 3)%Z -> (a + 3 <= dj <= b - 3)%Z -> (a + 3 <= di <= b - 3)%Z ->
  box g (k + dk) (j + dj) (i + di) 1 1 1 1 1 1 -> box g' (k' + dk) (j' + dj) (i' + di) 1 1 1 1 1 1 ->
  B3ch sc z' g' (k' + dk) (j' + dj) (i' + di) = B3ch sc z g (k + dk) (j + dj) (i + di).
Proof. intros. unfold B3ch. offs. rewrite !c_B3f by bl. reflexivity. Qed.

Lemma c_phalf : forall dk dj di, s_cool sc <> None -> (a + 3 <= dk <= b - 3)%Z -> (a + 3 <= dj <= b - 3)%Z -> (a + 3 <= di <= b - 3)%Z ->
  box g (k + dk) (j + dj) (i + di) 1 1 1 1 1 1 -> box g' (k' + dk) (j' + dj) (i' + di) 1 1 1 1 1 1 ->
  phalf sc z' g' (k' + dk) (j' + dj) (i' + di) = phalf sc z g (k + dk) (j + dj) (i + di).
Proof. intros dk dj di Hc **. assert (Hn : needs_dhalf sc = true).
  { unfold needs_dhalf. destruct (s_cool sc); [|now elim Hc]. apply orb_true_r. }
  unfold phalf. destruct (s_mhd sc) eqn:Hm, (s_cool sc) eqn:Hcc; try (now elim Hc);
  st; offs; rewrite !c_M1h by bl; rewrite !c_M2h by bl; rewrite !c_M3h by bl; rewrite c_dhalf by (auto; bl);
  rewrite ?c_B1ch, ?c_B2ch, ?c_B3ch by bl; rewrite !c_F1 by bl; rewrite !c_F2 by bl; rewrite !c_F3 by bl; dat; reflexivity. Qed.

Lemma c_cc1_h : forall dk dj di, s_mhd sc = true -> (a + 3 <= dk <= b - 3)%Z -> (a + 3 <= dj <= b - 3)%Z -> (a + 3 <= di <= b - 3)%Z ->
  box g (k + dk) (j + dj) (i + di) 1 1 1 1 1 1 -> box g' (k' + dk) (j' + dj) (i' + di) 1 1 1 1 1 1 ->
  cc1_h sc z' g' (k' + dk) (j' + dj) (i' + di) = cc1_h sc z g (k + dk) (j + dj) (i + di).
Proof. intros dk dj di Hm **. assert (Hn : needs_dhalf sc = true) by (unfold needs_dhalf; now rewrite Hm).
  unfold cc1_h. st. rewrite c_M2h, c_M3h, c_B2ch, c_B3ch, c_dhalf by (auto; bl). reflexivity. Qed.

Lemma c_cc2_h : forall dk dj di, s_mhd sc = true -> (a + 3 <= dk <= b - 3)%Z -> (a + 3 <= dj <= b - 3)%Z -> (a + 3 <= di <= b - 3)%Z ->
  box g (k + dk) (j + dj) (i + di) 1 1 1 1 1 1 -> box g' (k' + dk) (j' + dj) (i' + di) 1 1 1 1 1 1 ->
  cc2_h sc z' g' (k' + dk) (j' + dj) (i' + di) = cc2_h sc z g (k + dk) (j + dj) (i + di).
Proof. intros dk dj di Hm **. assert (Hn : needs_dhalf sc = true) by (unfold needs_dhalf; now rewrite Hm).
  unfold cc2_h. st. rewrite c_M1h, c_M3h, c_B1ch, c_B3ch, c_dhalf by (auto; bl). reflexivity. Qed.

Lemma c_cc3_h : forall dk dj di, s_mhd sc = true -> (a + 3 <= dk <= b - 3)%Z -> (a + 3 <= dj <= b - 3)%Z -> (a + 3 <= di <= b - 3)%Z ->
  box g (k + dk) (j + dj) (i + di) 1 1 1 1 1 1 -> box g' (k' + dk) (j' + dj) (i' + di) 1 1 1 1 1 1 ->
  cc3_h sc z' g' (k' + dk) (j' + dj) (i' + di) = cc3_h sc z g (k + dk) (j + dj) (i + di).
Proof. intros dk dj di Hm **. assert (Hn : needs_dhalf sc = true) by (unfold needs_dhalf; now rewrite Hm).
  unfold cc3_h. st. rewrite c_M1h, c_M2h, c_B1ch, c_B2ch, c_dhalf by (auto; bl). reflexivity. Qed.

Lemma c_G1 : forall dk dj di, (a + 3 <= dk <= b - 3)%Z -> (a + 3 <= dj <= b - 3)%Z -> (a + 3 <= di <= b - 2)%Z ->
  box g (k + dk) (j + dj) (i + di) 1 1 1 1 0 1 -> box g' (k' + dk) (j' + dj) (i' + di) 1 1 1 1 0 1 ->
  G1 sc z' g' (k' + dk) (j' + dj) (i' + di) = G1 sc z g (k + dk) (j + dj) (i + di).
Proof. intros. unfold G1. st. rewrite c_Ulr1e, c_B1f by bl. reflexivity. Qed.

Lemma c_G2 : forall dk dj di, (a + 3 <= dk <= b - 3)%Z -> (a + 3 <= dj <= b - 2)%Z -> (a + 3 <= di <= b - 3)%Z ->
  box g (k + dk) (j + dj) (i + di) 1 1 0 1 1 1 -> box g' (k' + dk) (j' + dj) (i' + di) 1 1 0 1 1 1 ->
  G2 sc z' g' (k' + dk) (j' + dj) (i' + di) = G2 sc z g (k + dk) (j + dj) (i + di).
Proof. intros. unfold G2. st. rewrite c_Ulr2e, c_B2f by bl. reflexivity. Qed.

Lemma c_G3 : forall dk dj di, (a + 3 <= dk <= b - 2)%Z -> (a + 3 <= dj <= b - 3)%Z -> (a + 3 <= di <= b - 3)%Z ->
  box g (k + dk) (j + dj) (i + di) 0 1 1 1 1 1 -> box g' (k' + dk) (j' + dj) (i' + di) 0 1 1 1 1 1 ->
  G3 sc z' g' (k' + dk) (j' + dj) (i' + di) = G3 sc z g (k + dk) (j + dj) (i + di).
Proof. intros. unfold G3. st. rewrite c_Ulr3e, c_B3f by bl. reflexivity. Qed.

Lemma c_emf1 : forall dk dj di, s_mhd sc = true -> (a + 4 <= dk <= b - 3)%Z -> (a + 4 <= dj <= b - 3)%Z -> (a + 3 <= di <= b - 3)%Z ->
  box g (k + dk) (j + dj) (i + di) 0 1 0 1 0 0 -> box g' (k' + dk) (j' + dj) (i' + di) 0 1 0 1 0 0 ->
  emf1 sc z' g' (k' + dk) (j' + dj) (i' + di) = emf1 sc z g (k + dk) (j + dj) (i + di).
Proof. intros. unfold emf1. st. unfold emf1_corner. cbv zeta. offs. rewrite !c_G2 by bl. rewrite !c_G3 by bl. rewrite !c_cc1_h by (auto; bl). reflexivity. Qed.

Lemma c_emf2 : forall dk dj di, s_mhd sc = true -> (a + 4 <= dk <= b - 3)%Z -> (a + 3 <= dj <= b - 3)%Z -> (a + 4 <= di <= b - 3)%Z ->
  box g (k + dk) (j + dj) (i + di) 0 1 0 0 0 1 -> box g' (k' + dk) (j' + dj) (i' + di) 0 1 0 0 0 1 ->
  emf2 sc z' g' (k' + dk) (j' + dj) (i' + di) = emf2 sc z g (k + dk) (j + dj) (i + di).
Proof. intros. unfold emf2. st. unfold emf2_corner. cbv zeta. offs. rewrite !c_G1 by bl. rewrite !c_G3 by bl. rewrite !c_cc2_h by (auto; bl). reflexivity. Qed.

Lemma c_emf3 : forall dk dj di, s_mhd sc = true -> (a + 3 <= dk <= b - 3)%Z -> (a + 4 <= dj <= b - 3)%Z -> (a + 4 <= di <= b - 3)%Z ->
  box g (k + dk) (j + dj) (i + di) 0 0 0 1 0 1 -> box g' (k' + dk) (j' + dj) (i' + di) 0 0 0 1 0 1 ->
  emf3 sc z' g' (k' + dk) (j' + dj) (i' + di) = emf3 sc z g (k + dk) (j + dj) (i + di).
Proof. intros. unfold emf3. st. unfold emf3_corner. cbv zeta. offs. rewrite !c_G1 by bl. rewrite !c_G2 by bl. rewrite !c_cc3_h by (auto; bl). reflexivity. Qed.

Lemma c_B1i' : forall dk dj di, (a + 4 <= dk <= b - 4)%Z -> (a + 4 <= dj <= b - 4)%Z -> (a + 4 <= di <= b - 3)%Z ->
  box g (k + dk) (j + dj) (i + di) 0 0 0 0 0 1 -> box g' (k' + dk) (j' + dj) (i' + di) 0 0 0 0 0 1 ->
  B1i' sc z' g' (k' + dk) (j' + dj) (i' + di) = B1i' sc z g (k + dk) (j + dj) (i + di).
Proof. intros. unfold B1i'. destruct (s_mhd sc) eqn:Hm; [|apply (n3_B1 N); lia]. st. offs. rewrite !c_emf2 by (auto; bl). rewrite !c_emf3 by (auto; bl). dat. reflexivity. Qed.

Lemma c_B2i' : forall dk dj di, (a + 4 <= dk <= b - 4)%Z -> (a + 4 <= dj <= b - 3)%Z -> (a + 4 <= di <= b - 4)%Z ->
  box g (k + dk) (j + dj) (i + di) 0 0 0 1 0 0 -> box g' (k' + dk) (j' + dj) (i' + di) 0 0 0 1 0 0 ->
  B2i' sc z' g' (k' + dk) (j' + dj) (i' + di) = B2i' sc z g (k + dk) (j + dj) (i + di).
Proof. intros. unfold B2i'. destruct (s_mhd sc) eqn:Hm; [|apply (n3_B2 N); lia]. st. offs. rewrite !c_emf1 by (auto; bl). rewrite !c_emf3 by (auto; bl). dat. reflexivity. Qed.

Lemma c_B3i' : forall dk dj di, (a + 4 <= dk <= b - 3)%Z -> (a + 4 <= dj <= b - 4)%Z -> (a + 4 <= di <= b - 4)%Z ->
  box g (k + dk) (j + dj) (i + di) 0 1 0 0 0 0 -> box g' (k' + dk) (j' + dj) (i' + di) 0 1 0 0 0 0 ->
  B3i' sc z' g' (k' + dk) (j' + dj) (i' + di) = B3i' sc z g (k + dk) (j + dj) (i + di).
Proof. intros. unfold B3i'. destruct (s_mhd sc) eqn:Hm; [|apply (n3_B3 N); lia]. st. offs. rewrite !c_emf1 by (auto; bl). rewrite !c_emf2 by (auto; bl). dat. reflexivity. Qed.

Lemma c_U12 : forall dk dj di, (a + 4 <= dk <= b - 4)%Z -> (a + 4 <= dj <= b - 4)%Z -> (a + 4 <= di <= b - 4)%Z ->
  box g (k + dk) (j + dj) (i + di) 0 0 0 0 0 0 -> box g' (k' + dk) (j' + dj) (i' + di) 0 0 0 0 0 0 ->
  U12 sc z' g' (k' + dk) (j' + dj) (i' + di) = U12 sc z g (k + dk) (j + dj) (i + di).
Proof. intros dk dj di Hk Hj Hi H H'.
  assert (Ea : U11a sc z' g' (k' + dk) (j' + dj) (i' + di) = U11a sc z g (k + dk) (j + dj) (i + di)).
  { unfold U11a. destruct (s_grav sc) eqn:Hg; [|apply (n3_U N); lia].
    assert (Hn : needs_dhalf sc = true) by (unfold needs_dhalf; rewrite Hg; now rewrite orb_true_r).
    st. pot3 N Hg. offs. rewrite !c_G1 by bl. rewrite !c_G2 by bl. rewrite !c_G3 by bl. rewrite c_dhalf by (auto; bl). dat. reflexivity. }
  assert (Eb1 : U11b1 sc z' g' (k' + dk) (j' + dj) (i' + di) = U11b1 sc z g (k + dk) (j + dj) (i + di)).
  { unfold U11b1. destruct (s_selfg sc) as [[? ?]|] eqn:Hsg; [|exact Ea]. st. apply (c_sg1 _ _ _ _ _ _ _ _ _ _ _ N ltac:(congruence)); [exact Ea|now apply c_G1; bl|offs; now apply c_G1; bl| lia..]. }
  assert (Eb2 : U11b2 sc z' g' (k' + dk) (j' + dj) (i' + di) = U11b2 sc z g (k + dk) (j + dj) (i + di)).
  { unfold U11b2. destruct (s_selfg sc) as [[? ?]|] eqn:Hsg; [|exact Eb1]. st. apply (c_sg2 _ _ _ _ _ _ _ _ _ _ _ N ltac:(congruence)); [exact Eb1|now apply c_G2; bl|offs; now apply c_G2; bl| lia..]. }
  assert (Eb : U11b sc z' g' (k' + dk) (j' + dj) (i' + di) = U11b sc z g (k + dk) (j + dj) (i + di)).
  { unfold U11b. destruct (s_selfg sc) as [[? ?]|] eqn:Hsg; [|exact Eb2]. st. apply (c_sg3 _ _ _ _ _ _ _ _ _ _ _ N ltac:(congruence)); [exact Eb2|now apply c_G3; bl|offs; now apply c_G3; bl| lia..]. }
  assert (Ec : U11c sc z' g' (k' + dk) (j' + dj) (i' + di) = U11c sc z g (k + dk) (j + dj) (i + di)).
  { unfold U11c. destruct (s_cool sc) eqn:Hc; [|exact Eb].
    assert (Hn : needs_dhalf sc = true) by (unfold needs_dhalf; rewrite Hc; apply orb_true_r).
    st. rewrite c_dhalf, c_phalf by (try bl; auto; congruence). now rewrite Eb. }
  assert (Ed : U12c sc z' g' (k' + dk) (j' + dj) (i' + di) = U12c sc z g (k + dk) (j + dj) (i + di)).
  { unfold U12c. st. unfold U12b. rewrite !loop3_in by bl. unfold U12a. rewrite !loop3_in by bl. base3 N. offs. rewrite !c_G1 by bl. rewrite !c_G2 by bl. rewrite !c_G3 by bl. now rewrite Ec. }
  unfold U12. destruct (s_mhd sc); [|exact Ed]. st. unfold centre. offs. rewrite !c_B1i' by bl. rewrite !c_B2i' by bl. rewrite !c_B3i' by bl. now rewrite Ed.
 Qed.
End Ctu.

Section Vl.
Import Vl3Model.
Variables (sc : scheme) (z z' : scratch3) (g g' : grid3) (k j i k' j' i' a b : Z).
Hypothesis Hlr : nearby (s_lr sc).
Hypothesis N : near3 sc g g' k j i k' j' i' a b.
Ltac st := unfold il, iu, jl, ju, kl, ku, ia, ib, ja, jb, ka, kb; rewrite !loop3_in by bl; cbv zeta; base3 N.
Ltac dat := rewrite ?(n3_U N) by lia; rewrite ?(n3_B1 N) by lia; rewrite ?(n3_B2 N) by lia; rewrite ?(n3_B3 N) by lia; try rewrite !(n3_Phi N ltac:(congruence)) by lia.

Lemma v_W1 : forall dk dj di, (a <= dk <= b)%Z -> (a <= dj <= b)%Z -> (a <= di <= b)%Z ->
  box g (k + dk) (j + dj) (i + di) 4 4 4 4 4 4 -> box g' (k' + dk) (j' + dj) (i' + di) 4 4 4 4 4 4 ->
  W1 sc z' g' (k' + dk) (j' + dj) (i' + di) = W1 sc z g (k + dk) (j + dj) (i + di).
Proof. intros. unfold W1. st. dat. reflexivity. Qed.

Lemma v_W2 : forall dk dj di, (a <= dk <= b)%Z -> (a <= dj <= b)%Z -> (a <= di <= b)%Z ->
  box g (k + dk) (j + dj) (i + di) 4 4 4 4 4 4 -> box g' (k' + dk) (j' + dj) (i' + di) 4 4 4 4 4 4 ->
  W2 sc z' g' (k' + dk) (j' + dj) (i' + di) = W2 sc z g (k + dk) (j + dj) (i + di).
Proof. intros. unfold W2. st. dat. reflexivity. Qed.

Lemma v_W3 : forall dk dj di, (a <= dk <= b)%Z -> (a <= dj <= b)%Z -> (a <= di <= b)%Z ->
  box g (k + dk) (j + dj) (i + di) 4 4 4 4 4 4 -> box g' (k' + dk) (j' + dj) (i' + di) 4 4 4 4 4 4 ->
  W3 sc z' g' (k' + dk) (j' + dj) (i' + di) = W3 sc z g (k + dk) (j + dj) (i + di).
Proof. intros. unfold W3. st. dat. reflexivity. Qed.

Lemma v_F1 : forall dk dj di, (a <= dk <= b)%Z -> (a <= dj <= b)%Z -> (a + 1 <= di <= b)%Z ->
  box g (k + dk) (j + dj) (i + di) 4 4 4 4 3 4 -> box g' (k' + dk) (j' + dj) (i' + di) 4 4 4 4 3 4 ->
  F1 sc z' g' (k' + dk) (j' + dj) (i' + di) = F1 sc z g (k + dk) (j + dj) (i + di).
Proof. intros. unfold F1. st. offs. rewrite !v_W1 by bl. dat. reflexivity. Qed.

Lemma v_F2 : forall dk dj di, (a <= dk <= b)%Z -> (a + 1 <= dj <= b)%Z -> (a <= di <= b)%Z ->
  box g (k + dk) (j + dj) (i + di) 4 4 3 4 4 4 -> box g' (k' + dk) (j' + dj) (i' + di) 4 4 3 4 4 4 ->
  F2 sc z' g' (k' + dk) (j' + dj) (i' + di) = F2 sc z g (k + dk) (j + dj) (i + di).
Proof. intros. unfold F2. st. offs. rewrite !v_W2 by bl. dat. reflexivity. Qed.

Lemma v_F3 : forall dk dj di, (a + 1 <= dk <= b)%Z -> (a <= dj <= b)%Z -> (a <= di <= b)%Z ->
  box g (k + dk) (j + dj) (i + di) 3 4 4 4 4 4 -> box g' (k' + dk) (j' + dj) (i' + di) 3 4 4 4 4 4 ->
  F3 sc z' g' (k' + dk) (j' + dj) (i' + di) = F3 sc z g (k + dk) (j + dj) (i + di).
Proof. intros. unfold F3. st. offs. rewrite !v_W3 by bl. dat. reflexivity. Qed.

Lemma v_cc1_0 : forall dk dj di, (a <= dk <= b)%Z -> (a <= dj <= b)%Z -> (a <= di <= b)%Z ->
  box g (k + dk) (j + dj) (i + di) 4 4 4 4 4 4 -> box g' (k' + dk) (j' + dj) (i' + di) 4 4 4 4 4 4 ->
  cc1_0 sc z' g' (k' + dk) (j' + dj) (i' + di) = cc1_0 sc z g (k + dk) (j + dj) (i + di).
Proof. intros. unfold cc1_0. st. dat. reflexivity. Qed.

Lemma v_cc2_0 : forall dk dj di, (a <= dk <= b)%Z -> (a <= dj <= b)%Z -> (a <= di <= b)%Z ->
  box g (k + dk) (j + dj) (i + di) 4 4 4 4 4 4 -> box g' (k' + dk) (j' + dj) (i' + di) 4 4 4 4 4 4 ->
  cc2_0 sc z' g' (k' + dk) (j' + dj) (i' + di) = cc2_0 sc z g (k + dk) (j + dj) (i + di).
Proof. intros. unfold cc2_0. st. dat. reflexivity. Qed.

Lemma v_cc3_0 : forall dk dj di, (a <= dk <= b)%Z -> (a <= dj <= b)%Z -> (a <= di <= b)%Z ->
  box g (k + dk) (j + dj) (i + di) 4 4 4 4 4 4 -> box g' (k' + dk) (j' + dj) (i' + di) 4 4 4 4 4 4 ->
  cc3_0 sc z' g' (k' + dk) (j' + dj) (i' + di) = cc3_0 sc z g (k + dk) (j + dj) (i + di).
Proof. intros. unfold cc3_0. st. dat. reflexivity. Qed.

Lemma v_emf1_0 : forall dk dj di, (a + 1 <= dk <= b)%Z -> (a + 1 <= dj <= b)%Z -> (a <= di <= b)%Z ->
  box g (k + dk) (j + dj) (i + di) 3 4 3 4 3 3 -> box g' (k' + dk) (j' + dj) (i' + di) 3 4 3 4 3 3 ->
  emf1_0 sc z' g' (k' + dk) (j' + dj) (i' + di) = emf1_0 sc z g (k + dk) (j + dj) (i + di).
Proof. intros. unfold emf1_0. st. unfold emf1_corner. cbv zeta. offs. rewrite !v_F2 by bl. rewrite !v_F3 by bl. rewrite !v_cc1_0 by bl. reflexivity. Qed.

Lemma v_emf2_0 : forall dk dj di, (a + 1 <= dk <= b)%Z -> (a <= dj <= b)%Z -> (a + 1 <= di <= b)%Z ->
  box g (k + dk) (j + dj) (i + di) 3 4 3 3 3 4 -> box g' (k' + dk) (j' + dj) (i' + di) 3 4 3 3 3 4 ->
  emf2_0 sc z' g' (k' + dk) (j' + dj) (i' + di) = emf2_0 sc z g (k + dk) (j + dj) (i + di).
Proof. intros. unfold emf2_0. st. unfold emf2_corner. cbv zeta. offs. rewrite !v_F1 by bl. rewrite !v_F3 by bl. rewrite !v_cc2_0 by bl. reflexivity. Qed.

Lemma v_emf3_0 : forall dk dj di, (a <= dk <= b)%Z -> (a + 1 <= dj <= b)%Z -> (a + 1 <= di <= b)%Z ->
  box g (k + dk) (j + dj) (i + di) 3 3 3 4 3 4 -> box g' (k' + dk) (j' + dj) (i' + di) 3 3 3 4 3 4 ->
  emf3_0 sc z' g' (k' + dk) (j' + dj) (i' + di) = emf3_0 sc z g (k + dk) (j + dj) (i + di).
Proof. intros. unfold emf3_0. st. unfold emf3_corner. cbv zeta. offs. rewrite !v_F1 by bl. rewrite !v_F2 by bl. rewrite !v_cc3_0 by bl. reflexivity. Qed.

Lemma v_B1f : forall dk dj di, (a + 1 <= dk <= b - 1)%Z -> (a + 1 <= dj <= b - 1)%Z -> (a + 1 <= di <= b)%Z ->
  box g (k + dk) (j + dj) (i + di) 3 3 3 3 3 4 -> box g' (k' + dk) (j' + dj) (i' + di) 3 3 3 3 3 4 ->
  B1f sc z' g' (k' + dk) (j' + dj) (i' + di) = B1f sc z g (k + dk) (j + dj) (i + di).
Proof. intros dk dj di Hk Hj Hi H H'.
  assert (E : B1f0 z' g' (k' + dk) (j' + dj) (i' + di) = B1f0 z g (k + dk) (j + dj) (i + di)) by (unfold B1f0; st; dat; reflexivity).
  unfold B1f. destruct (s_mhd sc); [|exact E]. st. offs. rewrite !v_emf2_0 by bl. rewrite !v_emf3_0 by bl. now rewrite E.
 Qed.

Lemma v_B2f : forall dk dj di, (a + 1 <= dk <= b - 1)%Z -> (a + 1 <= dj <= b)%Z -> (a + 1 <= di <= b - 1)%Z ->
  box g (k + dk) (j + dj) (i + di) 3 3 3 4 3 3 -> box g' (k' + dk) (j' + dj) (i' + di) 3 3 3 4 3 3 ->
  B2f sc z' g' (k' + dk) (j' + dj) (i' + di) = B2f sc z g (k + dk) (j + dj) (i + di).
Proof. intros dk dj di Hk Hj Hi H H'.
  assert (E : B2f0 z' g' (k' + dk) (j' + dj) (i' + di) = B2f0 z g (k + dk) (j + dj) (i + di)) by (unfold B2f0; st; dat; reflexivity).
  unfold B2f. destruct (s_mhd sc); [|exact E]. st. offs. rewrite !v_emf1_0 by bl. rewrite !v_emf3_0 by bl. now rewrite E.
 Qed.

Lemma v_B3f : forall dk dj di, (a + 1 <= dk <= b)%Z -> (a + 1 <= dj <= b - 1)%Z -> (a + 1 <= di <= b - 1)%Z ->
  box g (k + dk) (j + dj) (i + di) 3 4 3 3 3 3 -> box g' (k' + dk) (j' + dj) (i' + di) 3 4 3 3 3 3 ->
  B3f sc z' g' (k' + dk) (j' + dj) (i' + di) = B3f sc z g (k + dk) (j + dj) (i + di).
Proof. intros dk dj di Hk Hj Hi H H'.
  assert (E : B3f0 z' g' (k' + dk) (j' + dj) (i' + di) = B3f0 z g (k + dk) (j + dj) (i + di)) by (unfold B3f0; st; dat; reflexivity).
  unfold B3f. destruct (s_mhd sc); [|exact E]. st. offs. rewrite !v_emf1_0 by bl. rewrite !v_emf2_0 by bl. now rewrite E.
 Qed.

Lemma v_Uh : forall dk dj di, (a + 1 <= dk <= b - 1)%Z -> (a + 1 <= dj <= b - 1)%Z -> (a + 1 <= di <= b - 1)%Z ->
  box g (k + dk) (j + dj) (i + di) 3 3 3 3 3 3 -> box g' (k' + dk) (j' + dj) (i' + di) 3 3 3 3 3 3 ->
  Uh sc z' g' (k' + dk) (j' + dj) (i' + di) = Uh sc z g (k + dk) (j + dj) (i + di).
Proof. intros dk dj di Hk Hj Hi H H'.
  assert (E0 : Uh0 z' g' (k' + dk) (j' + dj) (i' + di) = Uh0 z g (k + dk) (j + dj) (i + di)) by (unfold Uh0; st; dat; reflexivity).
  assert (E1 : Uh1 sc z' g' (k' + dk) (j' + dj) (i' + di) = Uh1 sc z g (k + dk) (j + dj) (i + di)).
  { unfold Uh1. destruct (s_mhd sc); [|exact E0]. st. unfold centre. offs. rewrite !v_B1f by bl. rewrite !v_B2f by bl. rewrite !v_B3f by bl. now rewrite E0. }
  assert (E2 : Uh2 sc z' g' (k' + dk) (j' + dj) (i' + di) = Uh2 sc z g (k + dk) (j + dj) (i + di)).
  { unfold Uh2. st. offs. rewrite !v_F1 by bl. now rewrite E1. }
  assert (E3 : Uh3 sc z' g' (k' + dk) (j' + dj) (i' + di) = Uh3 sc z g (k + dk) (j + dj) (i + di)).
  { unfold Uh3. st. offs. rewrite !v_F2 by bl. now rewrite E2. }
  assert (E4 : Uh4 sc z' g' (k' + dk) (j' + dj) (i' + di) = Uh4 sc z g (k + dk) (j + dj) (i + di)).
  { unfold Uh4. st. offs. rewrite !v_F3 by bl. now rewrite E3. }
  assert (E5 : Uh5 sc z' g' (k' + dk) (j' + dj) (i' + di) = Uh5 sc z g (k + dk) (j + dj) (i + di)).
  { unfold Uh5. destruct (s_grav sc) eqn:Hg; [|exact E4]. st. rewrite E4. unfold gsrc. cbv zeta. pot3 N Hg. offs. rewrite !v_F1 by bl. rewrite !v_F2 by bl. rewrite !v_F3 by bl. dat. reflexivity. }
  unfold Uh. destruct (s_selfg sc) eqn:Hsg; [|exact E5]. st. rewrite E5. unfold gsrc, ph1r, ph1l, ph2r, ph2l, ph3r, ph3l. cbv zeta. offs. rewrite !v_F1 by bl. rewrite !v_F2 by bl. rewrite !v_F3 by bl. dat. reflexivity.
 Qed.

Lemma v_G1 : forall dk dj di, (a + 1 <= dk <= b - 1)%Z -> (a + 1 <= dj <= b - 1)%Z -> (a + 4 <= di <= b - 3)%Z ->
  box g (k + dk) (j + dj) (i + di) 1 1 1 1 0 1 -> box g' (k' + dk) (j' + dj) (i' + di) 1 1 1 1 0 1 ->
  G1 sc z' g' (k' + dk) (j' + dj) (i' + di) = G1 sc z g (k + dk) (j + dj) (i + di).
Proof. intros dk dj di Hk Hj Hi H H'.
  assert (E : lr1 sc z' g' (k' + dk) (j' + dj) (i' + di) = lr1 sc z g (k + dk) (j + dj) (i + di)).
  { unfold lr1. st. apply Hlr. intros e He. offs. unfold Wh1. st. rewrite v_Uh by bl. reflexivity. }
  unfold G1. st. rewrite E, v_B1f by bl. reflexivity.
 Qed.

Lemma v_G2 : forall dk dj di, (a + 1 <= dk <= b - 1)%Z -> (a + 4 <= dj <= b - 3)%Z -> (a + 1 <= di <= b - 1)%Z ->
  box g (k + dk) (j + dj) (i + di) 1 1 0 1 1 1 -> box g' (k' + dk) (j' + dj) (i' + di) 1 1 0 1 1 1 ->
  G2 sc z' g' (k' + dk) (j' + dj) (i' + di) = G2 sc z g (k + dk) (j + dj) (i + di).
Proof. intros dk dj di Hk Hj Hi H H'.
  assert (E : lr2 sc z' g' (k' + dk) (j' + dj) (i' + di) = lr2 sc z g (k + dk) (j + dj) (i + di)).
  { unfold lr2. st. apply Hlr. intros e He. offs. unfold Wh2. st. rewrite v_Uh by bl. reflexivity. }
  unfold G2. st. rewrite E, v_B2f by bl. reflexivity.
 Qed.

Lemma v_G3 : forall dk dj di, (a + 4 <= dk <= b - 3)%Z -> (a + 1 <= dj <= b - 1)%Z -> (a + 1 <= di <= b - 1)%Z ->
  box g (k + dk) (j + dj) (i + di) 0 1 1 1 1 1 -> box g' (k' + dk) (j' + dj) (i' + di) 0 1 1 1 1 1 ->
  G3 sc z' g' (k' + dk) (j' + dj) (i' + di) = G3 sc z g (k + dk) (j + dj) (i + di).
Proof. intros dk dj di Hk Hj Hi H H'.
  assert (E : lr3 sc z' g' (k' + dk) (j' + dj) (i' + di) = lr3 sc z g (k + dk) (j + dj) (i + di)).
  { unfold lr3. st. apply Hlr. intros e He. offs. unfold Wh3. st. rewrite v_Uh by bl. reflexivity. }
  unfold G3. st. rewrite E, v_B3f by bl. reflexivity.
 Qed.

Lemma v_emf1 : forall dk dj di, (a + 4 <= dk <= b - 3)%Z -> (a + 4 <= dj <= b - 3)%Z -> (a + 1 <= di <= b - 1)%Z ->
  box g (k + dk) (j + dj) (i + di) 0 1 0 1 0 0 -> box g' (k' + dk) (j' + dj) (i' + di) 0 1 0 1 0 0 ->
  emf1 sc z' g' (k' + dk) (j' + dj) (i' + di) = emf1 sc z g (k + dk) (j + dj) (i + di).
Proof. intros dk dj di Hk Hj Hi H H'. unfold emf1. st. unfold emf1_corner. cbv zeta. offs. rewrite !v_G2 by bl. rewrite !v_G3 by bl. unfold cc1_h. st. rewrite !v_Uh by bl. reflexivity. Qed.

Lemma v_emf2 : forall dk dj di, (a + 4 <= dk <= b - 3)%Z -> (a + 1 <= dj <= b - 1)%Z -> (a + 4 <= di <= b - 3)%Z ->
  box g (k + dk) (j + dj) (i + di) 0 1 0 0 0 1 -> box g' (k' + dk) (j' + dj) (i' + di) 0 1 0 0 0 1 ->
  emf2 sc z' g' (k' + dk) (j' + dj) (i' + di) = emf2 sc z g (k + dk) (j + dj) (i + di).
Proof. intros dk dj di Hk Hj Hi H H'. unfold emf2. st. unfold emf2_corner. cbv zeta. offs. rewrite !v_G1 by bl. rewrite !v_G3 by bl. unfold cc2_h. st. rewrite !v_Uh by bl. reflexivity. Qed.

Lemma v_emf3 : forall dk dj di, (a + 1 <= dk <= b - 1)%Z -> (a + 4 <= dj <= b - 3)%Z -> (a + 4 <= di <= b - 3)%Z ->
  box g (k + dk) (j + dj) (i + di) 0 0 0 1 0 1 -> box g' (k' + dk) (j' + dj) (i' + di) 0 0 0 1 0 1 ->
  emf3 sc z' g' (k' + dk) (j' + dj) (i' + di) = emf3 sc z g (k + dk) (j + dj) (i + di).
Proof. intros dk dj di Hk Hj Hi H H'. unfold emf3. st. unfold emf3_corner. cbv zeta. offs. rewrite !v_G1 by bl. rewrite !v_G2 by bl. unfold cc3_h. st. rewrite !v_Uh by bl. reflexivity. Qed.

Lemma v_B1i' : forall dk dj di, (a + 4 <= dk <= b - 4)%Z -> (a + 4 <= dj <= b - 4)%Z -> (a + 4 <= di <= b - 3)%Z ->
  box g (k + dk) (j + dj) (i + di) 0 0 0 0 0 1 -> box g' (k' + dk) (j' + dj) (i' + di) 0 0 0 0 0 1 ->
  B1i' sc z' g' (k' + dk) (j' + dj) (i' + di) = B1i' sc z g (k + dk) (j + dj) (i + di).
Proof. intros. unfold B1i'. destruct (s_mhd sc) eqn:Hm; [|apply (n3_B1 N); lia]. st. offs. rewrite !v_emf2 by bl. rewrite !v_emf3 by bl. dat. reflexivity. Qed.

Lemma v_B2i' : forall dk dj di, (a + 4 <= dk <= b - 4)%Z -> (a + 4 <= dj <= b - 3)%Z -> (a + 4 <= di <= b - 4)%Z ->
  box g (k + dk) (j + dj) (i + di) 0 0 0 1 0 0 -> box g' (k' + dk) (j' + dj) (i' + di) 0 0 0 1 0 0 ->
  B2i' sc z' g' (k' + dk) (j' + dj) (i' + di) = B2i' sc z g (k + dk) (j + dj) (i + di).
Proof. intros. unfold B2i'. destruct (s_mhd sc) eqn:Hm; [|apply (n3_B2 N); lia]. st. offs. rewrite !v_emf1 by bl. rewrite !v_emf3 by bl. dat. reflexivity. Qed.

Lemma v_B3i' : forall dk dj di, (a + 4 <= dk <= b - 3)%Z -> (a + 4 <= dj <= b - 4)%Z -> (a + 4 <= di <= b - 4)%Z ->
  box g (k + dk) (j + dj) (i + di) 0 1 0 0 0 0 -> box g' (k' + dk) (j' + dj) (i' + di) 0 1 0 0 0 0 ->
  B3i' sc z' g' (k' + dk) (j' + dj) (i' + di) = B3i' sc z g (k + dk) (j + dj) (i + di).
Proof. intros. unfold B3i'. destruct (s_mhd sc) eqn:Hm; [|apply (n3_B3 N); lia]. st. offs. rewrite !v_emf1 by bl. rewrite !v_emf2 by bl. dat. reflexivity. Qed.

Lemma v_U13 : forall dk dj di, (a + 4 <= dk <= b - 4)%Z -> (a + 4 <= dj <= b - 4)%Z -> (a + 4 <= di <= b - 4)%Z ->
  box g (k + dk) (j + dj) (i + di) 0 0 0 0 0 0 -> box g' (k' + dk) (j' + dj) (i' + di) 0 0 0 0 0 0 ->
  U13 sc z' g' (k' + dk) (j' + dj) (i' + di) = U13 sc z g (k + dk) (j + dj) (i + di).
Proof. intros dk dj di Hk Hj Hi H H'.
  assert (E0 : U11 sc z' g' (k' + dk) (j' + dj) (i' + di) = U11 sc z g (k + dk) (j + dj) (i + di)).
  { unfold U11. destruct (s_mhd sc); [|apply (n3_U N); lia]. st. unfold centre. offs. rewrite !v_B1i' by bl. rewrite !v_B2i' by bl. rewrite !v_B3i' by bl. dat. reflexivity. }
  assert (Ea : U12a sc z' g' (k' + dk) (j' + dj) (i' + di) = U12a sc z g (k + dk) (j + dj) (i + di)).
  { unfold U12a. destruct (s_grav sc) eqn:Hg; [|exact E0]. st. rewrite E0. unfold gsrc. cbv zeta. pot3 N Hg. offs. rewrite !v_G1 by bl. rewrite !v_G2 by bl. rewrite !v_G3 by bl. rewrite v_Uh by bl. reflexivity. }
  assert (Eb1 : U12b1 sc z' g' (k' + dk) (j' + dj) (i' + di) = U12b1 sc z g (k + dk) (j + dj) (i + di)).
  { unfold U12b1. destruct (s_selfg sc) as [[? ?]|] eqn:Hsg; [|exact Ea]. st. apply (c_sg1 _ _ _ _ _ _ _ _ _ _ _ N ltac:(congruence)); [exact Ea|now apply v_G1; bl|offs; now apply v_G1; bl| lia..]. }
  assert (Eb2 : U12b2 sc z' g' (k' + dk) (j' + dj) (i' + di) = U12b2 sc z g (k + dk) (j + dj) (i + di)).
  { unfold U12b2. destruct (s_selfg sc) as [[? ?]|] eqn:Hsg; [|exact Eb1]. st. apply (c_sg2 _ _ _ _ _ _ _ _ _ _ _ N ltac:(congruence)); [exact Eb1|now apply v_G2; bl|offs; now apply v_G2; bl| lia..]. }
  assert (Eb : U12b sc z' g' (k' + dk) (j' + dj) (i' + di) = U12b sc z g (k + dk) (j + dj) (i + di)).
  { unfold U12b. destruct (s_selfg sc) as [[? ?]|] eqn:Hsg; [|exact Eb2]. st. apply (c_sg3 _ _ _ _ _ _ _ _ _ _ _ N ltac:(congruence)); [exact Eb2|now apply v_G3; bl|offs; now apply v_G3; bl| lia..]. }
  unfold U13. st. unfold U13b. rewrite !loop3_in by bl. unfold U13a. rewrite !loop3_in by bl. base3 N. offs. rewrite !v_G1 by bl. rewrite !v_G2 by bl. rewrite !v_G3 by bl. now rewrite Eb.
 Qed.
End Vl.
