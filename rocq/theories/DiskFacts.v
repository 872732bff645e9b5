(** * Sheets *)
From Coq Require Import Reals ZArith List Bool Arith Lia Lra.
From Verif Require Import SumFacts GravModel GravSpec GravFacts GravProps DiskModel DiskSpec.
From Verif Require Import IntegSpec IntegFacts.
Import ListNotations.
Open Scope R_scope.

Lemma abs_below : forall i j, (i <= j)%Z -> Rabs (IZR (i - j)) = IZR (j - i).
Proof. intros. rewrite <- Rabs_Ropp, <- opp_IZR, Rabs_pos_eq by (apply IZR_le; lia). f_equal. lia. Qed.
Lemma abs_above : forall i j, (j <= i)%Z -> Rabs (IZR (i - j)) = IZR (i - j).
Proof. intros. apply Rabs_pos_eq. apply IZR_le. lia. Qed.
Lemma sheets_second : forall G4 dx n d i, (0 <= i < n)%Z ->
  sheets G4 dx n d (i + 1) - 2 * sheets G4 dx n d i + sheets G4 dx n d (i - 1) = G4 * (dx * dx) * d i.
Proof.
  intros G4 dx n d i I. unfold sheets.
  set (S := fun x : Z => sumZ 0 (n - 1) (fun j => d j * Rabs (IZR (x - j)))).
  enough (E : S (i + 1)%Z - 2 * S i + S (i - 1)%Z = 2 * d i) by (unfold S in E; transitivity (G4 / 2 * (dx * dx) * (2 * d i)); [rewrite <- E; ring|field]).
  unfold S. replace (_ - _ + _) with (sumZ 0 (n - 1) (fun j => (d j * Rabs (IZR (i + 1 - j)) + (-2) * (d j * Rabs (IZR (i - j)))) + d j * Rabs (IZR (i - 1 - j))))
    by (rewrite sumZ_plus, sumZ_plus, sumZ_scal; ring).
  rewrite (sumZ_one 0 (n - 1) _ i) by (first [lia | intros j J NE;
    destruct (Z.lt_ge_cases j i); [rewrite !abs_above by lia|rewrite !abs_below by lia]; rewrite !minus_IZR, ?plus_IZR, ?minus_IZR; ring]).
  replace (i + 1 - i)%Z with 1%Z by lia. replace (i - i)%Z with 0%Z by lia. replace (i - 1 - i)%Z with (-1)%Z by lia.
  rewrite Rabs_R0, Rabs_R1. replace (Rabs (-1)) with 1; [ring|]. rewrite Rabs_left by lra. ring.
Qed.
Lemma sheets_left : forall G4 dx n d, sheets G4 dx n d 0 - sheets G4 dx n d (-1) = - (G4 / 2 * (dx * dx) * sumZ 0 (n - 1) d).
Proof.
  intros. unfold sheets. rewrite <- Rmult_minus_distr_l, <- sumZ_minus, Ropp_mult_distr_r. f_equal.
  replace (- sumZ 0 (n - 1) d) with (sumZ 0 (n - 1) (fun j => -1 * d j)) by (rewrite sumZ_scal; ring).
  apply sumZ_ext. intros j J. rewrite !abs_below by lia. rewrite !minus_IZR. ring.
Qed.
Lemma sheets_right : forall G4 dx n d, sheets G4 dx n d n - sheets G4 dx n d (n - 1) = G4 / 2 * (dx * dx) * sumZ 0 (n - 1) d.
Proof.
  intros. unfold sheets. rewrite <- Rmult_minus_distr_l, <- sumZ_minus. f_equal.
  apply sumZ_ext. intros j J. rewrite !abs_above by lia. rewrite !minus_IZR. ring.
Qed.
(** Poisson's equation in every cell and opposite slopes at the two ends determine the potential up to a constant. *)
Lemma sheets_only : forall G4 dx n d P, (0 <= n)%Z ->
  (forall i, (0 <= i < n)%Z -> P (i + 1)%Z - 2 * P i + P (i - 1)%Z = G4 * (dx * dx) * d i) ->
  P n - P (n - 1)%Z = - (P 0%Z - P (-1)%Z) ->
  exists C, forall i, (-1 <= i <= n)%Z -> P i = sheets G4 dx n d i + C.
Proof.
  intros G4 dx n d P Hn PP SL. set (Q := fun i => P i - sheets G4 dx n d i).
  assert (SEC : forall i, (0 <= i < n)%Z -> Q (i + 1)%Z - Q i = Q i - Q (i - 1)%Z).
  { intros i I. unfold Q. specialize (PP i I). pose proof (sheets_second G4 dx n d i I). lra. }
  assert (S2 : forall m, (0 <= m)%Z -> (m <= n)%Z -> Q m - Q (m - 1)%Z = Q 0%Z - Q (-1)%Z).
  { intro m. apply (natlike_ind (fun m => (m <= n)%Z -> Q m - Q (m - 1)%Z = Q 0%Z - Q (-1)%Z)).
    - intros _. reflexivity.
    - intros x X IH L. rewrite <- IH by lia. rewrite <- (SEC x) by lia. replace (Z.succ x - 1)%Z with x by lia. replace (Z.succ x) with (x + 1)%Z by lia. reflexivity. }
  assert (Z0 : Q 0%Z - Q (-1)%Z = 0).
  { pose proof (S2 n Hn ltac:(lia)) as A. unfold Q in *. pose proof (sheets_left G4 dx n d). pose proof (sheets_right G4 dx n d). lra. }
  exists (Q (-1)%Z). intros i I.
  assert (C : forall m, (0 <= m)%Z -> (m <= n + 1)%Z -> Q (m - 1)%Z = Q (-1)%Z).
  { intro m. apply (natlike_ind (fun m => (m <= n + 1)%Z -> Q (m - 1)%Z = Q (-1)%Z)).
    - intros _. reflexivity.
    - intros x X IH L. replace (Z.succ x - 1)%Z with x by lia. rewrite <- IH by lia. pose proof (S2 x X ltac:(lia)). lra. }
  specialize (C (i + 1)%Z ltac:(lia) ltac:(lia)). replace (i + 1 - 1)%Z with i in C by lia. unfold Q in C. unfold Q. lra.
Qed.

Lemma fold_sum : forall n (d : Z -> R), fold_left (fun s i => s + d (Z.of_nat i)) (seq 0 n) 0 = sumZ 0 (Z.of_nat n - 1) d.
Proof.
  induction n; intros.
  - rewrite sumZ_empty by lia. reflexivity.
  - rewrite seq_S, fold_left_app, IHn. cbn [fold_left]. rewrite (sumZ_last 0 (Z.of_nat (S n) - 1)) by lia.
    replace (Z.of_nat (S n) - 1 - 1)%Z with (Z.of_nat n - 1)%Z by lia. replace (Z.of_nat (S n) - 1)%Z with (Z.of_nat n) by lia. reflexivity.
Qed.
Lemma phi_up_snd : forall G4 dx n d i, snd (phi_up G4 dx n d (S i)) = fst (phi_up G4 dx n d i).
Proof. intros. cbn [phi_up]. destruct (phi_up G4 dx n d i). reflexivity. Qed.
(** 1D: the stored potential, with one ghost zone on each side, is the potential of the sheets up to a constant. *)
Theorem C99_1d : forall G4 dx n d, (2 <= n)%nat ->
  exists C, forall i, (-1 <= i <= Z.of_nat n)%Z -> selfg_fft_disk_1d G4 dx n d i = sheets G4 dx (Z.of_nat n) d i + C.
Proof.
  intros G4 dx n d Hn. set (P := selfg_fft_disk_1d G4 dx n d).
  set (A := fun i : Z => fst (phi_up G4 dx n d (Z.to_nat i))).
  assert (NN : IZR (Z.of_nat n - 1) <> 0) by (apply not_0_IZR; lia).
  assert (PA : forall i, (0 <= i < Z.of_nat n)%Z -> P i = A i).
  { intros i I. unfold P, selfg_fft_disk_1d. destruct (Z.eqb_spec i (Z.of_nat n)); [lia|]. destruct (Z.eqb_spec i (-1)); [lia|]. reflexivity. }
  assert (PN : P (Z.of_nat n) = 2 * A (Z.of_nat n - 1)%Z - A (Z.of_nat n - 2)%Z + G4 * (dx * dx) * d (Z.of_nat n - 1)%Z).
  { unfold P, selfg_fft_disk_1d. cbv zeta. rewrite Z.eqb_refl. unfold A. ring. }
  assert (PM : P (-1)%Z = 2 * A 0%Z - A 1%Z + G4 * (dx * dx) * d 0%Z).
  { unfold P, selfg_fft_disk_1d. cbv zeta. destruct (Z.eqb_spec (-1) (Z.of_nat n)); [lia|]. change ((-1 =? -1)%Z) with true. cbv iota. unfold A. ring. }
  assert (A1 : A 1%Z - A 0%Z = G4 * (dx * dx) * d 0%Z - G4 / 2 * (dx * dx) * sumZ 0 (Z.of_nat n - 1) d).
  { unfold A. change (Z.to_nat 1) with 1%nat. change (Z.to_nat 0) with 0%nat. cbn [phi_up fst]. unfold phi_is. rewrite fold_sum. field. exact NN. }
  assert (A2 : forall i, (1 <= i)%Z -> A (i + 1)%Z = G4 * (dx * dx) * d i + 2 * A i - A (i - 1)%Z).
  { intros i I. unfold A. replace (Z.to_nat (i + 1)) with (S (S (Z.to_nat (i - 1)))) by lia. replace (Z.to_nat i) with (S (Z.to_nat (i - 1))) by lia.
    remember (S (Z.to_nat (i - 1))) as m eqn:M. cbn [phi_up]. destruct (phi_up G4 dx n d m) as [p1 p2] eqn:E.
    assert (p2 = fst (phi_up G4 dx n d (Z.to_nat (i - 1)))) as -> by (rewrite <- phi_up_snd, <- M, E; reflexivity).
    cbn [fst]. rewrite M. replace (Z.of_nat (S (Z.to_nat (i - 1)))) with i by lia. reflexivity. }
  assert (SEC : forall i, (0 <= i < Z.of_nat n)%Z -> P (i + 1)%Z - 2 * P i + P (i - 1)%Z = G4 * (dx * dx) * d i).
  { intros i I. destruct (Z.eq_dec i 0) as [->|I0].
    - change (0 + 1)%Z with 1%Z. change (0 - 1)%Z with (-1)%Z. rewrite PM, (PA 0%Z), (PA 1%Z) by lia. ring.
    - destruct (Z.eq_dec i (Z.of_nat n - 1)) as [->|I1].
      + replace (Z.of_nat n - 1 + 1)%Z with (Z.of_nat n) by lia. rewrite PN, !PA by lia. replace (Z.of_nat n - 1 - 1)%Z with (Z.of_nat n - 2)%Z by lia. ring.
      + rewrite !PA, A2 by lia. ring. }
  apply sheets_only; [lia|exact SEC|].
  (* slopes: the sum of the second differences is the total mass *)
  assert (T : forall m, (0 <= m)%Z -> (m <= Z.of_nat n)%Z -> P m - P (m - 1)%Z = P 0%Z - P (-1)%Z + G4 * (dx * dx) * sumZ 0 (m - 1) d).
  { intro m. apply (natlike_ind (fun m => (m <= Z.of_nat n)%Z -> P m - P (m - 1)%Z = P 0%Z - P (-1)%Z + G4 * (dx * dx) * sumZ 0 (m - 1) d)).
    - intros _. rewrite sumZ_empty by lia. change (0 - 1)%Z with (-1)%Z. ring.
    - intros x X IH L. rewrite sumZ_last by lia. replace (Z.succ x - 1)%Z with x by lia. specialize (IH ltac:(lia)). specialize (SEC x ltac:(lia)).
      replace (Z.succ x) with (x + 1)%Z by lia. lra. }
  rewrite (T (Z.of_nat n)) by lia. rewrite PM, (PA 0%Z) by lia. lra.
Qed.
Print Assumptions C99_1d.
