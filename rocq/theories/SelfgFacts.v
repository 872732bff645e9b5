(** * Summation by parts on a periodic Grid *)
From Coq Require Import Reals ZArith Lia Lra.
From Verif Require Import IntegSpec IntegFacts SelfgSpec.
Open Scope R_scope.

Lemma swap_line : forall l u dx f h, (l <= u + 1)%Z -> wraps l u f -> wraps l u h ->
  sumZ l u (fun i => h i * diff2 dx f i) = sumZ l u (fun i => f i * diff2 dx h i).
Proof.
  intros l u dx f h L [F1 F2] [H1 H2].
  set (D := fun i => f i * h (i - 1)%Z - f (i - 1)%Z * h i).
  assert (E : sumZ l u (fun i => h i * diff2 dx f i) - sumZ l u (fun i => f i * diff2 dx h i) = / (dx * dx) * (D (u + 1)%Z - D l)).
  { rewrite <- sumZ_minus, <- (sumZ_tele l u D) by lia. rewrite <- sumZ_scal. apply sumZ_ext. intros i Hi. unfold diff2, D.
    replace (i + 1 - 1)%Z with i by lia. unfold Rdiv. ring. }
  assert (Z : D (u + 1)%Z - D l = 0). { unfold D. replace (u + 1 - 1)%Z with u by lia. rewrite F1, F2, H1, H2. ring. }
  rewrite Z in E. lra.
Qed.
(** The interaction energies of two densities with each other's potential agree. *)
Lemma green1 : forall G4 dx l u d P e Q, (l <= u)%Z -> G4 <> 0 -> solves1 G4 dx l u d P -> solves1 G4 dx l u e Q ->
  sumZ l u (fun i => d i * Q i) = sumZ l u (fun i => e i * P i).
Proof.
  intros G4 dx l u d P e Q L G [WP [ZP EP]] [WQ [ZQ EQ]].
  assert (A : sumZ l u (fun i => Q i * diff2 dx P i) = G4 * sumZ l u (fun i => d i * Q i)).
  { rewrite (sumZ_ext l u _ (fun i => G4 * (d i * Q i) + (- (G4 * (sumZ l u d / IZR (u - l + 1)))) * Q i)) by (intros; rewrite EP by auto; ring).
    rewrite sumZ_plus, !sumZ_scal, ZQ. ring. }
  assert (B : sumZ l u (fun i => P i * diff2 dx Q i) = G4 * sumZ l u (fun i => e i * P i)).
  { rewrite (sumZ_ext l u _ (fun i => G4 * (e i * P i) + (- (G4 * (sumZ l u e / IZR (u - l + 1)))) * P i)) by (intros; rewrite EQ by auto; ring).
    rewrite sumZ_plus, !sumZ_scal, ZP. ring. }
  rewrite (swap_line l u dx P Q) in A by (auto; lia). rewrite A in B. apply (Rmult_eq_reg_l G4); auto.
Qed.

Lemma sum2_ext : forall lj uj li ui f h, (forall j i, (lj <= j <= uj)%Z -> (li <= i <= ui)%Z -> f j i = h j i) -> sum2 lj uj li ui f = sum2 lj uj li ui h.
Proof. intros. unfold sum2. apply sumZ_ext. intros. apply sumZ_ext. intros. auto. Qed.
Lemma sum2_plus : forall lj uj li ui f h, sum2 lj uj li ui (fun j i => f j i + h j i) = sum2 lj uj li ui f + sum2 lj uj li ui h.
Proof. intros. unfold sum2. rewrite <- sumZ_plus. apply sumZ_ext. intros. apply sumZ_plus. Qed.
Lemma sum2_scal : forall lj uj li ui a f, sum2 lj uj li ui (fun j i => a * f j i) = a * sum2 lj uj li ui f.
Proof. intros. unfold sum2. rewrite <- sumZ_scal. apply sumZ_ext. intros. apply sumZ_scal. Qed.
Lemma sum2_minus : forall lj uj li ui f h, sum2 lj uj li ui (fun j i => f j i - h j i) = sum2 lj uj li ui f - sum2 lj uj li ui h.
Proof. intros. rewrite (sum2_ext _ _ _ _ _ (fun j i => f j i + (-1) * h j i)) by (intros; ring). rewrite sum2_plus, sum2_scal. ring. Qed.
Lemma sum2_swap : forall lj uj li ui f, sum2 lj uj li ui f = sum2 li ui lj uj (fun i j => f j i).
Proof. intros. unfold sum2. apply sumZ_swap. Qed.
Lemma sum3_ext : forall lk uk lj uj li ui f h, (forall k j i, (lk <= k <= uk)%Z -> (lj <= j <= uj)%Z -> (li <= i <= ui)%Z -> f k j i = h k j i) ->
  sum3 lk uk lj uj li ui f = sum3 lk uk lj uj li ui h.
Proof. intros. unfold sum3. apply sumZ_ext. intros. apply sum2_ext. intros. auto. Qed.
Lemma sum3_plus : forall lk uk lj uj li ui f h, sum3 lk uk lj uj li ui (fun k j i => f k j i + h k j i) = sum3 lk uk lj uj li ui f + sum3 lk uk lj uj li ui h.
Proof. intros. unfold sum3. rewrite <- sumZ_plus. apply sumZ_ext. intros x Hx. apply (sum2_plus _ _ _ _ (fun j i => f x j i) (fun j i => h x j i)). Qed.
Lemma sum3_scal : forall lk uk lj uj li ui a f, sum3 lk uk lj uj li ui (fun k j i => a * f k j i) = a * sum3 lk uk lj uj li ui f.
Proof. intros. unfold sum3. rewrite <- sumZ_scal. apply sumZ_ext. intros x Hx. apply (sum2_scal _ _ _ _ a (fun j i => f x j i)). Qed.
Lemma sum3_minus : forall lk uk lj uj li ui f h, sum3 lk uk lj uj li ui (fun k j i => f k j i - h k j i) = sum3 lk uk lj uj li ui f - sum3 lk uk lj uj li ui h.
Proof. intros. rewrite (sum3_ext _ _ _ _ _ _ _ (fun k j i => f k j i + (-1) * h k j i)) by (intros; ring). rewrite sum3_plus, sum3_scal. ring. Qed.

Lemma swap2 : forall lj uj li ui dx1 dx2 f h, (lj <= uj + 1)%Z -> (li <= ui + 1)%Z -> wraps2 lj uj li ui f -> wraps2 lj uj li ui h ->
  sum2 lj uj li ui (fun j i => h j i * (diff2 dx1 (fun i => f j i) i + diff2 dx2 (fun j => f j i) j)) =
  sum2 lj uj li ui (fun j i => f j i * (diff2 dx1 (fun i => h j i) i + diff2 dx2 (fun j => h j i) j)).
Proof.
  intros lj uj li ui dx1 dx2 f h LJ LI [F1 F2] [H1 H2].
  rewrite (sum2_ext _ _ _ _ _ (fun j i => h j i * diff2 dx1 (fun i => f j i) i + h j i * diff2 dx2 (fun j => f j i) j)) by (intros; ring).
  rewrite (sum2_ext _ _ _ _ (fun j i => f j i * _) (fun j i => f j i * diff2 dx1 (fun i => h j i) i + f j i * diff2 dx2 (fun j => h j i) j)) by (intros; ring).
  rewrite !sum2_plus. f_equal.
  - unfold sum2. apply sumZ_ext. intros j Hj. apply (swap_line li ui dx1 (fun i => f j i) (fun i => h j i)); [lia| |]; [apply F1|apply H1]; lia.
  - rewrite (sum2_swap _ _ _ _ (fun j i => h j i * _)), (sum2_swap _ _ _ _ (fun j i => f j i * _)).
    unfold sum2. apply sumZ_ext. intros i Hi. apply (swap_line lj uj dx2 (fun j => f j i) (fun j => h j i)); [lia| |]; [apply F2|apply H2]; lia.
Qed.
Lemma green2 : forall G4 dx1 dx2 lj uj li ui d P e Q, (lj <= uj)%Z -> (li <= ui)%Z -> G4 <> 0 ->
  solves2 G4 dx1 dx2 lj uj li ui d P -> solves2 G4 dx1 dx2 lj uj li ui e Q ->
  sum2 lj uj li ui (fun j i => d j i * Q j i) = sum2 lj uj li ui (fun j i => e j i * P j i).
Proof.
  intros G4 dx1 dx2 lj uj li ui d P e Q LJ LI G [WP [ZP EP]] [WQ [ZQ EQ]].
  set (m := sum2 lj uj li ui d / _) in EP. set (n := sum2 lj uj li ui e / _) in EQ.
  assert (A : sum2 lj uj li ui (fun j i => Q j i * (diff2 dx1 (fun i => P j i) i + diff2 dx2 (fun j => P j i) j)) = G4 * sum2 lj uj li ui (fun j i => d j i * Q j i)).
  { rewrite (sum2_ext _ _ _ _ _ (fun j i => G4 * (d j i * Q j i) + (- (G4 * m)) * Q j i)) by (intros; rewrite EP by auto; ring).
    rewrite (sum2_plus _ _ _ _ (fun j i => G4 * (d j i * Q j i))), !sum2_scal. fold (sum2 lj uj li ui Q). rewrite ZQ. ring. }
  assert (B : sum2 lj uj li ui (fun j i => P j i * (diff2 dx1 (fun i => Q j i) i + diff2 dx2 (fun j => Q j i) j)) = G4 * sum2 lj uj li ui (fun j i => e j i * P j i)).
  { rewrite (sum2_ext _ _ _ _ _ (fun j i => G4 * (e j i * P j i) + (- (G4 * n)) * P j i)) by (intros; rewrite EQ by auto; ring).
    rewrite (sum2_plus _ _ _ _ (fun j i => G4 * (e j i * P j i))), !sum2_scal. fold (sum2 lj uj li ui P). rewrite ZP. ring. }
  rewrite (swap2 lj uj li ui dx1 dx2 P Q) in A by (auto; lia). rewrite A in B. apply (Rmult_eq_reg_l G4); auto.
Qed.
Lemma sum3_swap13 : forall lk uk lj uj li ui f, sum3 lk uk lj uj li ui f = sum2 lj uj li ui (fun j i => sumZ lk uk (fun k => f k j i)).
Proof. intros. unfold sum3, sum2. rewrite sumZ_swap. apply sumZ_ext. intros. apply sumZ_swap. Qed.
Lemma green3 : forall G4 dx1 dx2 dx3 lk uk lj uj li ui d P e Q, (lk <= uk)%Z -> (lj <= uj)%Z -> (li <= ui)%Z -> G4 <> 0 ->
  solves3 G4 dx1 dx2 dx3 lk uk lj uj li ui d P -> solves3 G4 dx1 dx2 dx3 lk uk lj uj li ui e Q ->
  sum3 lk uk lj uj li ui (fun k j i => d k j i * Q k j i) = sum3 lk uk lj uj li ui (fun k j i => e k j i * P k j i).
Proof.
  intros G4 dx1 dx2 dx3 lk uk lj uj li ui d P e Q LK LJ LI G [[WP1 WP2] [ZP EP]] [[WQ1 WQ2] [ZQ EQ]].
  set (m := sum3 lk uk lj uj li ui d / _) in EP. set (n := sum3 lk uk lj uj li ui e / _) in EQ.
  set (L := fun (f : Z -> Z -> Z -> R) k j i => diff2 dx1 (fun i => f k j i) i + diff2 dx2 (fun j => f k j i) j).
  set (M := fun (f : Z -> Z -> Z -> R) k j i => diff2 dx3 (fun k => f k j i) k).
  assert (A : sum3 lk uk lj uj li ui (fun k j i => Q k j i * L P k j i) + sum3 lk uk lj uj li ui (fun k j i => Q k j i * M P k j i) = G4 * sum3 lk uk lj uj li ui (fun k j i => d k j i * Q k j i)).
  { rewrite <- sum3_plus. rewrite (sum3_ext _ _ _ _ _ _ _ (fun k j i => G4 * (d k j i * Q k j i) + (- (G4 * m)) * Q k j i))
      by (intros; transitivity (Q k j i * (L P k j i + M P k j i)); [ring|]; unfold L, M; rewrite EP by auto; ring).
    rewrite (sum3_plus _ _ _ _ _ _ (fun k j i => G4 * (d k j i * Q k j i))), !sum3_scal, ZQ. ring. }
  assert (B : sum3 lk uk lj uj li ui (fun k j i => P k j i * L Q k j i) + sum3 lk uk lj uj li ui (fun k j i => P k j i * M Q k j i) = G4 * sum3 lk uk lj uj li ui (fun k j i => e k j i * P k j i)).
  { rewrite <- sum3_plus. rewrite (sum3_ext _ _ _ _ _ _ _ (fun k j i => G4 * (e k j i * P k j i) + (- (G4 * n)) * P k j i))
      by (intros; transitivity (P k j i * (L Q k j i + M Q k j i)); [ring|]; unfold L, M; rewrite EQ by auto; ring).
    rewrite (sum3_plus _ _ _ _ _ _ (fun k j i => G4 * (e k j i * P k j i))), !sum3_scal, ZP. ring. }
  assert (C : sum3 lk uk lj uj li ui (fun k j i => Q k j i * L P k j i) = sum3 lk uk lj uj li ui (fun k j i => P k j i * L Q k j i)).
  { unfold sum3. apply sumZ_ext. intros k Hk. apply (swap2 lj uj li ui dx1 dx2 (fun j i => P k j i) (fun j i => Q k j i)); try lia; [apply WP1|apply WQ1]; lia. }
  assert (D : sum3 lk uk lj uj li ui (fun k j i => Q k j i * M P k j i) = sum3 lk uk lj uj li ui (fun k j i => P k j i * M Q k j i)).
  { rewrite !sum3_swap13. apply sum2_ext. intros j i Hj Hi. apply (swap_line lk uk dx3 (fun k => P k j i) (fun k => Q k j i)); try lia; [apply WP2|apply WQ2]; lia. }
  rewrite C, D, B in A. apply (Rmult_eq_reg_l G4); auto.
Qed.
