(** * C102: the multigrid Poisson solver *)
From Coq Require Import Reals ZArith List Bool Lra Lia Psatz FunctionalExtensionality.
From Verif Require HistMain.
From Verif Require Import IntegSpec IntegFacts SumFacts MgModel MgSpec MgFacts MgConv.
Import ListNotations.
Open Scope R_scope.

(** ** The iteration *)
Lemma iter_plus {A} (f : A -> A) n m x : Nat.iter (n + m) f x = Nat.iter n f (Nat.iter m f x).
Proof. induction n as [|n IH]; [reflexivity|]. change (f (Nat.iter (n + m) f x) = f (Nat.iter n f (Nat.iter m f x))). now rewrite IH. Qed.
(** There is one solution with given values at the edge; Jacobi's iteration, repeated
    without end, tends to it from any start, and only it is left as it is. *)
Theorem C102_jacobi_solves : forall g, mg_ok g -> forall p,
  exists s, solves g s /\ (forall k j i, edge g k j i -> s k j i = p k j i) /\
    (forall t, solves g t -> (forall k j i, edge g k j i -> t k j i = p k j i) -> forall k j i, active g k j i -> t k j i = s k j i) /\
    (forall k j i, active g k j i -> Un_cv (fun n => Nat.iter n (Jacobi g) p k j i) (s k j i)) /\
    ((forall k j i, active g k j i -> jacobi3 g p k j i = p k j i) <-> solves g p).
Proof.
  intros g OK p. destruct (converges g OK p) as (s & S & E & C). exists s.
  split; [exact S|]. split; [intros k j i [_ N]; auto|]. split.
  { intros t T HT k j i A. apply (unique g OK t s T S); [|exact A]. intros x y z Y. rewrite HT by exact Y. symmetry. apply E, Y. }
  split.
  - intros k j i A.
    assert (F : forall n, Nat.iter n (Jacobi g) p = it g (11 * n) p).
    { induction n as [|n IH]; [reflexivity|].
      replace (11 * Datatypes.S n)%nat with (11 + 11 * n)%nat by lia.
      change (Nat.iter (Datatypes.S n) (Jacobi g) p) with (Jacobi g (Nat.iter n (Jacobi g) p)). rewrite IH, (Jacobi_iter g OK).
      symmetry. unfold it. apply iter_plus. }
    intros e He. destruct (C k j i e He) as (N & HN). exists N. intros n Hn. rewrite F. apply HN. lia.
  - split; intros H k j i A; [apply (jacobi3_fixed g OK); auto | apply (jacobi3_fixed g OK); auto].
Qed.
Print Assumptions C102_jacobi_solves.

(** The iteration of the code does not move the field away from the solution, and
    leaves the edge alone. *)
Theorem C102_jacobi_error : forall g, mg_ok g -> forall s p E, solves g s -> 0 <= E ->
  (forall k j i, active g k j i -> Rabs (p k j i - s k j i) <= E) ->
  (forall k j i, edge g k j i -> p k j i = s k j i) ->
  (forall k j i, active g k j i -> Rabs (Jacobi g p k j i - s k j i) <= E) /\
  (forall k j i, edge g k j i -> Jacobi g p k j i = p k j i).
Proof.
  intros g OK s p E S HE H1 H2. destruct (Jacobi_error g OK s p E S HE H1 H2) as [A B]. split; [exact A|].
  intros k j i [_ N]. auto.
Qed.
Print Assumptions C102_jacobi_error.

(** Gas of any density makes a potential below zero if its edge is below zero. *)
Theorem C102_negative : forall g, mg_ok g -> forall s, solves g s ->
  (forall k j i, active g k j i -> 0 <= rhs g k j i) -> (forall k j i, edge g k j i -> s k j i < 0) ->
  forall k j i, active g k j i -> s k j i < 0.
Proof.
  intros g OK s S R E k j i A.
  destruct (max_principle g OK s 0) with (k := k) (j := j) (i := i) as [_ X]; auto.
  - intros x y z Y. rewrite (S x y z Y). now apply R.
  - intros x y z Y. left. now apply E.
Qed.
Print Assumptions C102_negative.

Lemma Jacobi_out g (OK : mg_ok g) p k j i : ~ active g k j i -> Jacobi g p k j i = p k j i.
Proof.
  rewrite (Jacobi_iter g OK). apply (iter_inv g (fun q => ~ active g k j i -> q k j i = p k j i)); [|reflexivity].
  intros q Hq A. rewrite jacobi3_out by exact A. auto.
Qed.

(** ** The recursion *)
Lemma four_bool g : ((Nx1 g =? 4) || (Nx2 g =? 4) || (Nx3 g =? 4))%Z = true <-> (Nx1 g = 4 \/ Nx2 g = 4 \/ Nx3 g = 4)%Z.
Proof. rewrite !orb_true_iff, !Z.eqb_eq. tauto. Qed.

(** The recursion ends if and only if halving reaches 4 in some direction. *)
Theorem C102_recursion : forall g,
  (exists fuel q, multig_3d fuel g = Some q) <->
  (exists n : nat, Nx1 g / 2 ^ Z.of_nat n = 4 \/ Nx2 g / 2 ^ Z.of_nat n = 4 \/ Nx3 g / 2 ^ Z.of_nat n = 4)%Z.
Proof.
  assert (HALF : forall x n, (x / 2 / 2 ^ Z.of_nat n = x / 2 ^ Z.of_nat (S n))%Z).
  { intros x n. rewrite Z.div_div by lia. f_equal. rewrite Nat2Z.inj_succ, Z.pow_succ_r by lia. reflexivity. }
  intro g. split.
  - intros (fuel & q & H). revert g q H. induction fuel as [|fuel IH]; intros g q H; [discriminate|].
    cbn [multig_3d] in H. destruct (_ || _)%bool eqn:B in H.
    + exists O. apply four_bool in B. cbn. rewrite !Z.div_1_r. exact B.
    + destruct (multig_3d fuel _) as [q'|] eqn:M in H; [|discriminate].
      destruct (IH _ _ M) as (n & Hn). exists (S n). cbn [coarse Nx1 Nx2 Nx3] in Hn. rewrite !HALF in Hn. exact Hn.
  - intros (n & H). revert g H. induction n as [|n IH]; intros g H.
    + exists 1%nat. cbn in H. rewrite !Z.div_1_r in H. apply four_bool in H. cbn [multig_3d]. rewrite H. eauto.
    + destruct (((Nx1 g =? 4) || (Nx2 g =? 4) || (Nx3 g =? 4))%Z) eqn:B.
      * exists 1%nat. cbn [multig_3d]. rewrite B. eauto.
      * destruct (IH (coarse g (Jacobi g (mPhi g)))) as (fuel & q & Q).
        { cbn [coarse Nx1 Nx2 Nx3]. rewrite !HALF. exact H. }
        exists (S fuel). cbn [multig_3d]. rewrite B, Q. eauto.
Qed.
Print Assumptions C102_recursion.

(** A cube of 5, 6 or 7 times a power of two cells is never solved. *)
Theorem C102_recursion_refuted : forall (m : nat) (a : Z) g, (5 <= a <= 7)%Z ->
  Nx1 g = (a * 2 ^ Z.of_nat m)%Z -> Nx2 g = (a * 2 ^ Z.of_nat m)%Z -> Nx3 g = (a * 2 ^ Z.of_nat m)%Z ->
  forall fuel, multig_3d fuel g = None.
Proof.
  intros m a g HA E1 E2 E3 fuel. destruct (multig_3d fuel g) as [q|] eqn:M; [|reflexivity]. exfalso.
  assert (X : exists fuel q, multig_3d fuel g = Some q) by eauto. apply C102_recursion in X.
  destruct X as (n & H). rewrite E1, E2, E3 in H.
  assert (H' : (a * 2 ^ Z.of_nat m / 2 ^ Z.of_nat n = 4)%Z) by tauto. clear - HA H'.
  destruct (Nat.le_gt_cases n m) as [L|L].
  - replace (Z.of_nat m) with (Z.of_nat (m - n) + Z.of_nat n)%Z in H' by lia.
    rewrite Z.pow_add_r, Z.mul_assoc, Z.div_mul in H' by lia.
    assert (1 <= 2 ^ Z.of_nat (m - n))%Z by (pose proof (Z.pow_pos_nonneg 2 (Z.of_nat (m - n))); lia). nia.
  - replace (Z.of_nat n) with (Z.of_nat m + Z.of_nat (n - m))%Z in H' by lia.
    rewrite Z.pow_add_r in H' by lia. rewrite <- Z.div_div in H' by lia. rewrite Z.div_mul in H' by lia.
    replace (Z.of_nat (n - m)) with (Z.of_nat (n - m - 1) + 1)%Z in H' by lia. rewrite Z.pow_add_r, Z.mul_comm in H' by lia.
    rewrite <- Z.div_div in H' by lia. assert (a / 2 ^ 1 <= 3)%Z by (change (2 ^ 1)%Z with 2%Z; pose proof (Z.div_lt_upper_bound a 2 4); lia).
    assert (a / 2 ^ 1 / 2 ^ Z.of_nat (n - m - 1) <= 3)%Z; [|lia].
    pose proof (Z.pow_pos_nonneg 2 (Z.of_nat (n - m - 1)) ltac:(lia) ltac:(lia)).
    pose proof (Z.div_lt_upper_bound (a / 2 ^ 1) (2 ^ Z.of_nat (n - m - 1)) 4). nia.
Qed.
Print Assumptions C102_recursion_refuted.

(** The result does not depend on how much recursion is allowed. *)
Theorem C102_one_result : forall n m g p q, multig_3d n g = Some p -> multig_3d m g = Some q -> p = q.
Proof.
  induction n as [|n IH]; intros m g p q H1 H2; [discriminate|]. destruct m as [|m]; [discriminate|].
  cbn [multig_3d] in H1, H2. destruct (_ || _)%bool; [congruence|].
  destruct (multig_3d n _) as [a|] eqn:A; [|discriminate]. destruct (multig_3d m _) as [b|] eqn:B; [|discriminate].
  rewrite (IH _ _ _ _ A B) in H1. congruence.
Qed.
Print Assumptions C102_one_result.

(** ** A cycle *)
(** With four cells in some direction a call brings no field further from the
    solution, and keeps the solution. *)
Theorem C102_cycle_partial : forall g, mg_ok g -> (Nx1 g = 4 \/ Nx2 g = 4 \/ Nx3 g = 4)%Z ->
  forall s E, solves g s -> 0 <= E -> (forall k j i, edge g k j i -> mPhi g k j i = s k j i) ->
  (forall k j i, active g k j i -> Rabs (mPhi g k j i - s k j i) <= E) ->
  forall fuel q, multig_3d fuel g = Some q ->
  (forall k j i, active g k j i -> Rabs (q k j i - s k j i) <= E) /\
  (forall k j i, edge g k j i -> q k j i = s k j i).
Proof.
  intros g OK H4 s E S HE HB HA fuel q M. destruct fuel as [|fuel]; [discriminate|]. cbn [multig_3d] in M.
  apply four_bool in H4. rewrite H4 in M. injection M as <-.
  destruct (C102_jacobi_error g OK s (mPhi g) E S HE HA HB) as [A B]. split; [exact A|].
  intros k j i Y. rewrite B by exact Y. auto.
Qed.
Print Assumptions C102_cycle_partial.

(** Fields that are negative in the active cells and zero or less around them. *)
Definition neg (g : mgrid) (d : fld) : Prop :=
  (forall k j i, active g k j i -> d k j i < 0) /\ (forall k j i, ~ active g k j i -> d k j i <= 0).

Lemma neg_step g (OK : mg_ok g) : (2 <= Nx1 g)%Z -> forall s p, solves g s ->
  neg g (fun k j i => p k j i - s k j i) -> neg g (fun k j i => jacobi3 g p k j i - s k j i).
Proof.
  intros N s p S [H1 H2]. split.
  - intros k j i A. rewrite (jacobi3_diff g OK s p k j i S A).
    set (d := fun k j i => p k j i - s k j i).
    assert (D : forall k j i, d k j i <= 0).
    { intros x y z. destruct (act g x y z) eqn:B; [apply act_iff in B; left; now apply H1 | apply act_no in B; now apply H2]. }
    assert (D1 : d k j (i + 1)%Z + d k j (i - 1)%Z < 0).
    { destruct (Z.eq_dec i (Nx1 g)) as [->|Ne].
      - pose proof (D k j (Nx1 g + 1)%Z). assert (d k j (Nx1 g - 1)%Z < 0) by (apply H1; unfold active in *; lia). lra.
      - pose proof (D k j (i - 1)%Z). assert (d k j (i + 1)%Z < 0) by (apply H1; unfold active in *; lia). lra. }
    pose proof (ws_pos g OK) as W. destruct (v_pos g OK) as (V1 & V2 & V3).
    assert (X : nb (v1 g) (v2 g) (v3 g) d k j i < 0).
    { unfold nb. pose proof (D k (j + 1)%Z i). pose proof (D k (j - 1)%Z i). pose proof (D (k + 1)%Z j i). pose proof (D (k - 1)%Z j i).
      assert (v1 g * (d k j (i + 1)%Z + d k j (i - 1)%Z) < 0) by nra.
      assert (v2 g * (d k (j + 1)%Z i + d k (j - 1)%Z i) <= 0) by nra.
      assert (v3 g * (d (k + 1)%Z j i + d (k - 1)%Z j i) <= 0) by nra. lra. }
    apply Rmult_lt_reg_r with (wsum (v1 g) (v2 g) (v3 g)); [exact W|]. unfold Rdiv. rewrite Rmult_assoc, Rinv_l by lra. lra.
  - intros k j i A. rewrite jacobi3_out by exact A. now apply H2.
Qed.
Lemma neg_Jacobi g (OK : mg_ok g) : (2 <= Nx1 g)%Z -> forall s p, solves g s ->
  neg g (fun k j i => p k j i - s k j i) -> neg g (fun k j i => Jacobi g p k j i - s k j i).
Proof.
  intros N s p S H. rewrite (Jacobi_iter g OK).
  apply (iter_inv g (fun q => neg g (fun k j i => q k j i - s k j i))); [|exact H].
  intros q Hq. now apply neg_step.
Qed.

Lemma coarse_rhs g p k j i : rhs (coarse g p) k j i = if act (coarse g p) k j i then mean8 (residual g p) k j i else 0.
Proof. reflexivity. Qed.
Lemma coarse_Phi g p k j i : mPhi (coarse g p) k j i = if act (coarse g p) k j i then mean8 p k j i else 0.
Proof. reflexivity. Qed.
Lemma halves m K : (1 <= K <= 2 * m)%Z -> (1 <= (K + 1) / 2 <= m)%Z.
Proof. intro H. pose proof (Z.div_mod (K + 1) 2 ltac:(lia)). pose proof (Z.mod_pos_bound (K + 1) 2 ltac:(lia)). lia. Qed.

(** One call turns the exact solution, where it is below zero, into a lower field in
    every cell, if there is one coarser level. *)
Theorem C102_cycle_refuted : forall g m1 m2 m3, mg_ok g ->
  (Nx1 g = 2 * m1 /\ Nx2 g = 2 * m2 /\ Nx3 g = 2 * m3 /\ 3 <= m1 /\ 3 <= m2 /\ 3 <= m3)%Z -> (m1 = 4 \/ m2 = 4 \/ m3 = 4)%Z ->
  solves g (mPhi g) -> (forall k j i, active g k j i -> mPhi g k j i < 0) ->
  exists q, multig_3d 2 g = Some q /\ forall k j i, active g k j i -> q k j i < mPhi g k j i.
Proof.
  intros g m1 m2 m3 OK (E1 & E2 & E3 & L1 & L2 & L3) H4 S NEG.
  assert (B : ((Nx1 g =? 4) || (Nx2 g =? 4) || (Nx3 g =? 4))%Z = false).
  { rewrite !orb_false_iff, !Z.eqb_neq. lia. }
  set (s := mPhi g) in *.
  assert (J : Jacobi g s = s).
  { extensionality k. extensionality j. extensionality i. now apply Jacobi_solution. }
  set (c := coarse g s).
  assert (C1 : Nx1 c = m1) by (cbn; rewrite E1, Z.mul_comm; now apply Z.div_mul).
  assert (C2 : Nx2 c = m2) by (cbn; rewrite E2, Z.mul_comm; now apply Z.div_mul).
  assert (C3 : Nx3 c = m3) by (cbn; rewrite E3, Z.mul_comm; now apply Z.div_mul).
  assert (OKc : mg_ok c).
  { destruct OK. constructor; try lia; cbn [c coarse dx1 dx2 dx3]; lra. }
  assert (B' : ((Nx1 c =? 4) || (Nx2 c =? 4) || (Nx3 c =? 4))%Z = true) by (apply four_bool; lia).
  assert (RES : forall k j i, active g k j i -> residual g s k j i = 0).
  { intros k j i A. specialize (S k j i A). unfold laplacian in S. unfold residual. rewrite <- S. destruct OK. field. lra. }
  assert (FINE : forall k j i, active c k j i -> forall k' j' i', (k' = 2 * k \/ k' = 2 * k - 1)%Z -> (j' = 2 * j \/ j' = 2 * j - 1)%Z ->
     (i' = 2 * i \/ i' = 2 * i - 1)%Z -> active g k' j' i').
  { intros k j i A. unfold active in *. rewrite C1, C2, C3 in A. lia. }
  assert (R0 : forall k j i, rhs c k j i = 0).
  { intros k j i. unfold c. rewrite coarse_rhs. fold c. destruct (act c k j i) eqn:A; [|reflexivity].
    apply act_iff in A. unfold mean8. rewrite !RES by (apply (FINE k j i A); lia). lra. }
  assert (Z0 : solves c (fun _ _ _ => 0)).
  { intros k j i _. rewrite R0. unfold laplacian. lra. }
  assert (NC : neg c (fun k j i => Jacobi c (mPhi c) k j i - 0)).
  { apply (neg_Jacobi c OKc ltac:(lia) (fun _ _ _ => 0)); [exact Z0|]. split.
    - intros k j i A.
      assert (X : mPhi c k j i = mean8 s k j i).
      { unfold c. rewrite coarse_Phi. fold c. apply act_iff in A. now rewrite A. }
      rewrite X. unfold mean8.
      assert (Y : forall k' j' i', (k' = 2 * k \/ k' = 2 * k - 1)%Z -> (j' = 2 * j \/ j' = 2 * j - 1)%Z ->
        (i' = 2 * i \/ i' = 2 * i - 1)%Z -> s k' j' i' < 0) by (intros; apply NEG; now apply (FINE k j i A)).
      pose proof (Y (2 * k) (2 * j) (2 * i))%Z. pose proof (Y (2 * k) (2 * j) (2 * i - 1))%Z.
      pose proof (Y (2 * k) (2 * j - 1) (2 * i))%Z. pose proof (Y (2 * k) (2 * j - 1) (2 * i - 1))%Z.
      pose proof (Y (2 * k - 1) (2 * j) (2 * i))%Z. pose proof (Y (2 * k - 1) (2 * j) (2 * i - 1))%Z.
      pose proof (Y (2 * k - 1) (2 * j - 1) (2 * i))%Z. pose proof (Y (2 * k - 1) (2 * j - 1) (2 * i - 1))%Z.
      cbv zeta.
      repeat match goal with H : _ -> _ -> _ -> s _ _ _ < 0 |- _ => specialize (H ltac:(auto) ltac:(auto) ltac:(auto)) end.
      lra.
    - intros k j i A. apply act_no in A.
      assert (X : mPhi c k j i = 0).
      { unfold c. rewrite coarse_Phi. fold c. now rewrite A. }
      rewrite X. lra. }
  set (q := Jacobi c (mPhi c)) in *.
  exists (Jacobi g (Prolongation_3d c q s)). split.
  { cbn [multig_3d]. fold s. rewrite B, J. fold c. rewrite B'. reflexivity. }
  assert (Q : forall k j i, q k j i <= 0).
  { intros x y z. destruct NC as [N1 N2]. destruct (act c x y z) eqn:A.
    - apply act_iff in A. specialize (N1 x y z A). cbv beta in N1. lra.
    - apply act_no in A. specialize (N2 x y z A). cbv beta in N2. lra. }
  assert (P : neg g (fun k j i => Prolongation_3d c q s k j i - s k j i)).
  { split.
    - intros K J' I A. unfold Prolongation_3d. cbv zeta.
      assert (AC : active c ((K + 1) / 2) ((J' + 1) / 2) ((I + 1) / 2)).
      { unfold active in *. rewrite C1, C2, C3. rewrite E1, E2, E3 in A. split; [apply halves; lia|]. split; apply halves; lia. }
      pose proof AC as AC'. apply act_iff in AC'. rewrite AC'.
      pose proof (proj1 NC _ _ _ AC) as N. cbv beta in N.
      match goal with |- context [1 / 4 * ?m] => assert (M : m <= 0) by (destruct (Z.even K), (Z.even J'), (Z.even I); apply Q); revert M; generalize m end.
      intros r M. lra.
    - intros K J' I A. unfold Prolongation_3d. cbv zeta.
      match goal with |- context [1 / 4 * ?m] => assert (M : m <= 0) by (destruct (Z.even K), (Z.even J'), (Z.even I); apply Q); revert M; generalize m end.
      intros r M. pose proof (Q ((K + 1) / 2)%Z ((J' + 1) / 2)%Z ((I + 1) / 2)%Z). destruct (act c _ _ _); lra. }
  intros k j i A. pose proof (proj1 (neg_Jacobi g OK ltac:(lia) s _ S P) k j i A) as X. cbv beta in X. lra.
Qed.
Print Assumptions C102_cycle_refuted.

(** A grid of eight cells in each direction with the potential -1 and no gas. *)
Definition flat : mgrid := MGrid 8 8 8 1 1 1 (fun _ _ _ => 0) (fun _ _ _ => -1).
Example C102_flat : mg_ok flat /\ solves flat (mPhi flat) /\
  exists q, multig_3d 2 flat = Some q /\ forall k j i, active flat k j i -> q k j i < -1.
Proof.
  assert (OK : mg_ok flat) by (constructor; cbn; try lia; lra).
  assert (S : solves flat (mPhi flat)) by (intros k j i _; unfold laplacian; cbn; lra).
  split; [exact OK|]. split; [exact S|].
  apply (C102_cycle_refuted flat 4 4 4 OK); [cbn; lia | lia | exact S |]. intros. cbn. lra.
Qed.

(** ** On a Grid *)
Lemma fold_lsum {A} (f : A -> R) l a : fold_left (fun a x => a + f x) l a = a + lsum l f.
Proof. revert a. induction l as [|x l IH]; intro a; cbn [fold_left]; [rewrite lsum_nil; lra|]. rewrite IH, lsum_cons. lra. Qed.
Lemma fold_ext {A B} (f h : A -> B -> A) l a : (forall a x, f a x = h a x) -> fold_left f l a = fold_left h l a.
Proof. intro H. revert a. induction l as [|x l IH]; intro a; [reflexivity|]. cbn [fold_left]. now rewrite H, IH. Qed.
Lemma cells_sum lo hi f : lsum (cells lo hi) f = sumZ lo hi f.
Proof. apply lsum_zrange. Qed.
Lemma mass_all G : mass G = all_mass G.
Proof.
  unfold mass, all_mass. set (v := gdx1 G * gdx2 G * gdx3 G).
  rewrite (fold_ext _ (fun a k => a + sumZ (js G) (je G) (fun j => sumZ (is G) (ie G) (fun i => dens G k j i * v)))).
  2: { intros a k. rewrite (fold_ext _ (fun a j => a + sumZ (is G) (ie G) (fun i => dens G k j i * v))).
       2: { intros a' j. rewrite fold_lsum, cells_sum. reflexivity. }
       rewrite fold_lsum, cells_sum. reflexivity. }
  rewrite fold_lsum, cells_sum, Rplus_0_l, Rmult_comm, <- sumZ_scal.
  apply sumZ_ext. intros k _. rewrite <- sumZ_scal. apply sumZ_ext. intros j _. rewrite <- sumZ_scal. apply sumZ_ext. intros i _. ring.
Qed.
Lemma monopole_point c G k j i : monopole c G (mass G) k j i = point_mass c G k j i.
Proof.
  unfold monopole, point_mass, dist. rewrite mass_all. cbv zeta.
  match goal with |- _ / sqrt ?a = _ / sqrt ?b => replace b with a by ring end. reflexivity.
Qed.

Lemma inside_iff lo hi x : inside lo hi x = true <-> (lo <= x <= hi)%Z.
Proof. unfold inside. rewrite andb_true_iff, !Z.leb_le. tauto. Qed.
Lemma inside_no lo hi x : inside lo hi x = false <-> (x < lo \/ hi < x)%Z.
Proof. unfold inside. rewrite andb_false_iff, !Z.leb_gt. tauto. Qed.

Section OnGrid.
Variable nghost : Z.
Variable c : R.

Lemma put_in b kl ku jl ju il iu f p k j i : b = true -> (kl <= k <= ku)%Z -> (jl <= j <= ju)%Z -> (il <= i <= iu)%Z ->
  put b kl ku jl ju il iu f p k j i = f k j i.
Proof. intros -> H1 H2 H3. unfold put. apply inside_iff in H1, H2, H3. now rewrite H1, H2, H3. Qed.
Lemma put_out b kl ku jl ju il iu f p k j i : ~ ((kl <= k <= ku) /\ (jl <= j <= ju) /\ (il <= i <= iu))%Z ->
  put b kl ku jl ju il iu f p k j i = p k j i.
Proof.
  intro H. unfold put. destruct (b && _ && _ && _)%bool eqn:B; [|reflexivity]. exfalso. apply H.
  rewrite !andb_true_iff, !inside_iff in B. tauto.
Qed.
Lemma put_either b kl ku jl ju il iu f p k j i :
  put b kl ku jl ju il iu f p k j i = f k j i \/ put b kl ku jl ju il iu f p k j i = p k j i.
Proof. unfold put. destruct (_ && _ && _ && _)%bool; auto. Qed.

Definition g_array (G : pgrid) (k j i : Z) : Prop :=
  (ks G - nghost <= k <= ke G + nghost /\ js G - nghost <= j <= je G + nghost /\ is G - nghost <= i <= ie G + nghost)%Z.

Lemma edges_ghost G k j i : isolated G -> g_ghost nghost G k j i -> edges nghost c G k j i = point_mass c G k j i.
Proof.
  intros (I1 & I2 & I3 & I4 & I5 & I6) [A N]. rewrite <- monopole_point. unfold edges. cbv zeta.
  set (f := monopole c G (mass G)).
  apply Z.ltb_lt in I1, I2, I3, I4, I5, I6. rewrite I1, I2, I3, I4, I5, I6. unfold g_active in N.
  destruct (Z_lt_le_dec (ke G) k) as [K|K]; [apply put_in; auto; lia|]. rewrite put_out by lia.
  destruct (Z_lt_le_dec k (ks G)) as [K'|K']; [apply put_in; auto; lia|]. rewrite put_out by lia.
  destruct (Z_lt_le_dec (je G) j) as [J|J]; [apply put_in; auto; lia|]. rewrite put_out by lia.
  destruct (Z_lt_le_dec j (js G)) as [J'|J']; [apply put_in; auto; lia|]. rewrite put_out by lia.
  destruct (Z_lt_le_dec (ie G) i) as [I|I]; [apply put_in; auto; lia|]. rewrite put_out by lia.
  apply put_in; auto; lia.
Qed.
Lemma edges_rest G k j i : grid_ok nghost G -> ~ g_ghost nghost G k j i -> edges nghost c G k j i = Phi G k j i.
Proof.
  intros [S1 S2 S3 S4 _ _ _ _] N. unfold size1, size2, size3 in *. unfold edges. cbv zeta.
  rewrite put_out by (intro H; apply N; split; [|unfold g_active]; lia).
  rewrite put_out by (intro H; apply N; split; [|unfold g_active]; lia).
  rewrite put_out by (intro H; apply N; split; [|unfold g_active]; lia).
  rewrite put_out by (intro H; apply N; split; [|unfold g_active]; lia).
  rewrite put_out by (intro H; apply N; split; [|unfold g_active]; lia).
  rewrite put_out by (intro H; apply N; split; [|unfold g_active]; lia). reflexivity.
Qed.

Definition put_grid (G : pgrid) (p o : fld) : pgrid :=
  PGrid (is G) (ie G) (js G) (je G) (ks G) (ke G) (gdx1 G) (gdx2 G) (gdx3 G) (MinX1 G) (MinX2 G) (MinX3 G)
    (lx1_id G) (rx1_id G) (lx2_id G) (rx2_id G) (lx3_id G) (rx3_id G) (dens G) p o.
Lemma put_grid_ok G p o : grid_ok nghost G -> grid_ok nghost (put_grid G p o).
Proof. intros []. constructor; assumption. Qed.

(** The field on the root of the hierarchy. *)
Definition shift (G : pgrid) (p : fld) : fld := fun k j i => p (k + ks G - 1)%Z (j + js G - 1)%Z (i + is G - 1)%Z.
Definition unshift (G : pgrid) (p : fld) : fld := fun k j i => p (k - ks G + 1)%Z (j - js G + 1)%Z (i - is G + 1)%Z.
Notation rt := (root nghost c).
Lemma root_ok G : grid_ok nghost G -> mg_ok (rt G).
Proof. intros []. unfold size1, size2, size3 in *. constructor; assumption. Qed.
Lemma root_active G k j i : active (rt G) k j i <-> g_active G (k + ks G - 1) (j + js G - 1) (i + is G - 1).
Proof. unfold active, g_active. cbn [root Nx1 Nx2 Nx3]. lia. Qed.
Lemma root_edge G k j i : grid_ok nghost G -> edge (rt G) k j i -> g_ghost nghost G (k + ks G - 1) (j + js G - 1) (i + is G - 1).
Proof. intros [] [A N]. rewrite root_active in N. split; [|exact N]. cbn [root Nx1 Nx2 Nx3] in A. lia. Qed.
Lemma shift_lap G p k j i : laplacian (rt G) (shift G p) k j i =
  (let K := (k + ks G - 1)%Z in let J := (j + js G - 1)%Z in let I := (i + is G - 1)%Z in
   (p K J (I + 1)%Z - 2 * p K J I + p K J (I - 1)%Z) / (gdx1 G) ^ 2 +
   (p K (J + 1)%Z I - 2 * p K J I + p K (J - 1)%Z I) / (gdx2 G) ^ 2 +
   (p (K + 1)%Z J I - 2 * p K J I + p (K - 1)%Z J I) / (gdx3 G) ^ 2).
Proof.
  unfold laplacian, shift. cbv zeta. cbn [root dx1 dx2 dx3].
  replace (i + 1 + is G - 1)%Z with (i + is G - 1 + 1)%Z by lia. replace (i - 1 + is G - 1)%Z with (i + is G - 1 - 1)%Z by lia.
  replace (j + 1 + js G - 1)%Z with (j + js G - 1 + 1)%Z by lia. replace (j - 1 + js G - 1)%Z with (j + js G - 1 - 1)%Z by lia.
  replace (k + 1 + ks G - 1)%Z with (k + ks G - 1 + 1)%Z by lia. replace (k - 1 + ks G - 1)%Z with (k + ks G - 1 - 1)%Z by lia.
  reflexivity.
Qed.
Lemma shift_solves G p : solves (rt G) (shift G p) <->
  (forall k j i, g_active G k j i ->
     (p k j (i + 1)%Z - 2 * p k j i + p k j (i - 1)%Z) / (gdx1 G) ^ 2 +
     (p k (j + 1)%Z i - 2 * p k j i + p k (j - 1)%Z i) / (gdx2 G) ^ 2 +
     (p (k + 1)%Z j i - 2 * p k j i + p (k - 1)%Z j i) / (gdx3 G) ^ 2 = c * dens G k j i).
Proof.
  split.
  - intros H k j i A. specialize (H (k - ks G + 1) (j - js G + 1) (i - is G + 1))%Z.
    rewrite shift_lap in H. rewrite root_active in H. cbv zeta in H. cbn [root rhs] in H.
    replace (k - ks G + 1 + ks G - 1)%Z with k in H by lia. replace (j - js G + 1 + js G - 1)%Z with j in H by lia.
    replace (i - is G + 1 + is G - 1)%Z with i in H by lia. auto.
  - intros H k j i A. rewrite shift_lap. cbv zeta. apply root_active in A. cbn [root rhs]. now apply H.
Qed.
Lemma shift_unshift G p : shift G (unshift G p) = p.
Proof. extensionality k. extensionality j. extensionality i. unfold shift, unshift. f_equal; lia. Qed.

Lemma potential_root G p : grid_ok nghost G -> potential nghost c G p ->
  solves (rt G) (shift G p) /\ (forall k j i, edge (rt G) k j i -> shift G p k j i = mPhi (rt G) k j i).
Proof.
  intros OK [P1 P2]. split; [now apply shift_solves|]. intros k j i E. apply root_edge in E; [|exact OK].
  cbn [root mPhi]. rewrite edges_ghost; [|apply OK|exact E]. unfold shift. now apply P2.
Qed.

(** The potential of the gas with the values of a point mass in the ghost cells is unique. *)
Lemma potential_one G : grid_ok nghost G ->
  exists p, potential nghost c G p /\
    forall p', potential nghost c G p' -> forall k j i, g_active G k j i -> p' k j i = p k j i.
Proof.
  intro OK. destruct (converges (rt G) (root_ok G OK) (mPhi (rt G))) as (s & S & E & _).
  exists (unshift G s). split.
  - split.
    + apply shift_solves. now rewrite shift_unshift.
    + intros k j i Gh. unfold unshift. rewrite E.
      * cbn [root mPhi]. replace (k - ks G + 1 + ks G - 1)%Z with k by lia. replace (j - js G + 1 + js G - 1)%Z with j by lia.
        replace (i - is G + 1 + is G - 1)%Z with i by lia. apply edges_ghost; [apply OK|exact Gh].
      * rewrite root_active. replace (k - ks G + 1 + ks G - 1)%Z with k by lia. replace (j - js G + 1 + js G - 1)%Z with j by lia.
        replace (i - is G + 1 + is G - 1)%Z with i by lia. apply Gh.
  - intros p' P' k j i A. destruct (potential_root G p' OK P') as [S' E'].
    pose proof (unique (rt G) (root_ok G OK) _ _ S' S) as U.
    specialize (U ltac:(intros x y z Y; rewrite (E' x y z Y); symmetry; apply E, Y) (k - ks G + 1) (j - js G + 1) (i - is G + 1))%Z.
    rewrite root_active in U. unfold shift in U.
    replace (k - ks G + 1 + ks G - 1)%Z with k in U by lia. replace (j - js G + 1 + js G - 1)%Z with j in U by lia.
    replace (i - is G + 1 + is G - 1)%Z with i in U by lia. now apply U.
Qed.

Lemma selfg_inv fuel G r : selfg_multig_3d nghost c fuel G = Some r ->
  exists q, multig_3d fuel (rt G) = Some q /\
    r = put_grid G (put true (ks G) (ke G) (js G) (je G) (is G) (ie G) (unshift G q) (edges nghost c G))
          (put true (ks G - nghost) (ke G + nghost) (js G - nghost) (je G + nghost) (is G - nghost) (ie G + nghost) (Phi G) (Phi_old G)).
Proof.
  unfold selfg_multig_3d. destruct (multig_3d fuel (rt G)) as [q|]; [|discriminate]. intro H. injection H as <-.
  exists q. split; reflexivity.
Qed.
End OnGrid.

(** A call puts the potential of a point mass into the ghost cells, keeps the old
    potential, and changes nothing else. *)
Theorem C102_edges : forall nghost four_pi_G fuel G r, grid_ok nghost G ->
  selfg_multig_3d nghost four_pi_G fuel G = Some r ->
  (forall k j i, g_ghost nghost G k j i -> Phi r k j i = point_mass four_pi_G G k j i /\ Phi_old r k j i = Phi G k j i) /\
  (forall k j i, g_active G k j i -> Phi_old r k j i = Phi G k j i) /\
  (forall k j i, ~ g_active G k j i -> ~ g_ghost nghost G k j i -> Phi r k j i = Phi G k j i /\ Phi_old r k j i = Phi_old G k j i) /\
  dens r = dens G /\ (size1 r, size2 r, size3 r) = (size1 G, size2 G, size3 G).
Proof.
  intros ng c fuel G r OK H. destruct (selfg_inv _ _ _ _ _ H) as (q & _ & ->). clear H. cbn [put_grid Phi Phi_old dens].
  split; [|split; [|split; [|split; reflexivity]]].
  - intros k j i Gh. split.
    + rewrite put_out by apply Gh. apply edges_ghost; [apply OK|exact Gh].
    + destruct Gh as [A _]. apply put_in; tauto.
  - intros k j i A. unfold g_active in A. destruct OK. apply put_in; auto; lia.
  - intros k j i A Gh. split.
    + rewrite put_out by exact A. now apply edges_rest.
    + apply put_out. intro X. apply Gh. split; assumption.
Qed.
Print Assumptions C102_edges.

(** There is exactly one potential of the gas with those ghost cells. *)
Theorem C102_potential : forall nghost four_pi_G G, grid_ok nghost G ->
  exists p, potential nghost four_pi_G G p /\
    forall p', potential nghost four_pi_G G p' -> forall k j i, g_active G k j i -> p' k j i = p k j i.
Proof. intros. now apply potential_one. Qed.
Print Assumptions C102_potential.

Lemma run_four ng c G fuel : grid_ok ng G -> (size1 G = 4 \/ size2 G = 4 \/ size3 G = 4)%Z -> forall r,
  selfg_multig_3d ng c fuel G = Some r ->
  exists p o, r = put_grid G p o /\ mPhi (root ng c r) = Jacobi (root ng c G) (mPhi (root ng c G)) /\
    (forall k j i, g_active G k j i -> p k j i = Jacobi (root ng c G) (mPhi (root ng c G)) (k - ks G + 1)%Z (j - js G + 1)%Z (i - is G + 1)%Z).
Proof.
  intros OK H4 r H. destruct (selfg_inv _ _ _ _ _ H) as (q & M & ->). clear H.
  destruct fuel as [|fuel]; [discriminate|]. cbn [multig_3d] in M.
  assert (B : (Nx1 (root ng c G) = 4 \/ Nx2 (root ng c G) = 4 \/ Nx3 (root ng c G) = 4)%Z) by exact H4.
  apply four_bool in B. rewrite B in M.
  assert (EQ : q = Jacobi (root ng c G) (mPhi (root ng c G))) by congruence. clear M. rewrite EQ. clear EQ.
  set (J := Jacobi (root ng c G) (mPhi (root ng c G))).
  assert (JO : forall k j i, ~ active (root ng c G) k j i -> J k j i = mPhi (root ng c G) k j i).
  { unfold J. intros k j i A. exact (Jacobi_out _ (root_ok ng c G OK) _ _ _ _ A). }
  clearbody J. clear B.
  eexists _, _. split; [reflexivity|]. split.
  2: { intros k j i A. unfold g_active in A. rewrite put_in by (auto; lia). reflexivity. }
  extensionality k. extensionality j. extensionality i.
  match goal with |- mPhi (root ng c ?X) _ _ _ = _ => set (r := X) end.
  change (mPhi (root ng c r) k j i) with (edges ng c r (k + ks G - 1)%Z (j + js G - 1)%Z (i + is G - 1)%Z).
  assert (OKr : grid_ok ng r) by now apply put_grid_ok.
  destruct (act (root ng c G) k j i) eqn:A.
  - apply act_iff in A. rewrite edges_rest; [|exact OKr|].
    2: { intros [_ N]. apply N. apply root_active in A. exact A. }
    apply root_active in A. unfold g_active in A. cbn [r put_grid Phi]. rewrite put_in by (auto; lia).
    unfold unshift.
    replace (k + ks G - 1 - ks G + 1)%Z with k by lia. replace (j + js G - 1 - js G + 1)%Z with j by lia.
    replace (i + is G - 1 - is G + 1)%Z with i by lia. reflexivity.
  - apply act_no in A. rewrite JO by exact A. cbn [root mPhi].
    assert (N : ~ g_active G (k + ks G - 1) (j + js G - 1) (i + is G - 1)) by (intro X; apply A; now apply root_active).
    destruct (inside (ks G - ng) (ke G + ng) (k + ks G - 1) && inside (js G - ng) (je G + ng) (j + js G - 1) &&
              inside (is G - ng) (ie G + ng) (i + is G - 1))%bool eqn:B'.
    + assert (Gh : g_ghost ng G (k + ks G - 1) (j + js G - 1) (i + is G - 1)).
      { rewrite !andb_true_iff, !inside_iff in B'. split; tauto. }
      rewrite (edges_ghost ng c G); [|apply OK|exact Gh]. rewrite (edges_ghost ng c r); [reflexivity|apply OKr|exact Gh].
    + assert (Gh : ~ g_ghost ng G (k + ks G - 1) (j + js G - 1) (i + is G - 1)).
      { intros [X _]. rewrite !andb_false_iff, !inside_no in B'. lia. }
      rewrite (edges_rest ng c r); [|exact OKr|exact Gh]. cbn [r put_grid Phi]. rewrite put_out by exact N. reflexivity.
Qed.

(** With four cells in some direction, a call brings the potential of the Grid no
    further from the one of the gas, and calls without end bring it there. *)
Theorem C102_selfg_partial : forall nghost four_pi_G fuel G p, grid_ok nghost G ->
  (size1 G = 4 \/ size2 G = 4 \/ size3 G = 4)%Z -> potential nghost four_pi_G G p ->
  (forall r E, selfg_multig_3d nghost four_pi_G fuel G = Some r ->
     (forall k j i, g_active G k j i -> Rabs (Phi G k j i - p k j i) <= E) ->
     forall k j i, g_active G k j i -> Rabs (Phi r k j i - p k j i) <= E) /\
  (forall run : nat -> pgrid, run 0%nat = G -> (forall n, selfg_multig_3d nghost four_pi_G fuel (run n) = Some (run (S n))) ->
     forall k j i, g_active G k j i -> Un_cv (fun n => Phi (run n) k j i) (p k j i)).
Proof.
  intros ng c fuel G p OK H4 P. destruct (potential_root ng c G p OK P) as [S ES].
  pose proof (root_ok ng c G OK) as ROK. split.
  - intros r E H HE k j i A. destruct (run_four ng c G fuel OK H4 r H) as (p' & o & -> & _ & EP).
    cbn [put_grid Phi]. rewrite EP by exact A.
    assert (E0 : 0 <= E) by (specialize (HE k j i A); pose proof (Rabs_pos (Phi G k j i - p k j i)); lra).
    destruct (C102_jacobi_error (root ng c G) ROK (shift G p) (mPhi (root ng c G)) E S E0) as [X _].
    + intros x y z Y. apply root_active in Y. cbn [root mPhi]. rewrite edges_rest; [|exact OK|].
      * unfold shift. now apply HE.
      * intros [_ N]. now apply N.
    + intros x y z Y. symmetry. now apply ES.
    + specialize (X (k - ks G + 1) (j - js G + 1) (i - is G + 1))%Z. rewrite root_active in X. unfold shift in X.
      replace (k - ks G + 1 + ks G - 1)%Z with k in X by lia. replace (j - js G + 1 + js G - 1)%Z with j in X by lia.
      replace (i - is G + 1 + is G - 1)%Z with i in X by lia. now apply X.
  - intros run R0 RS k j i A.
    assert (INV : forall n, exists q o, run n = put_grid G q o /\ mPhi (root ng c (run n)) = Nat.iter n (Jacobi (root ng c G)) (mPhi (root ng c G))).
    { induction n as [|n (q & o & E1 & E2)].
      - exists (Phi G), (Phi_old G). rewrite R0. split; [destruct G; reflexivity | reflexivity].
      - specialize (RS n). rewrite E1 in RS.
        destruct (run_four ng c (put_grid G q o) fuel (put_grid_ok ng G q o OK) H4 _ RS) as (q' & o' & E3 & E4 & _).
        exists q', o'. rewrite E3. split; [reflexivity|]. rewrite <- E3, E4.
        change (Nat.iter (Datatypes.S n) (Jacobi (root ng c G)) (mPhi (root ng c G)))
          with (Jacobi (root ng c G) (Nat.iter n (Jacobi (root ng c G)) (mPhi (root ng c G)))).
        rewrite <- E2, <- E1. rewrite E1 at 1. reflexivity. }
    destruct (C102_jacobi_solves (root ng c G) ROK (mPhi (root ng c G))) as (s & _ & _ & U & C & _).
    specialize (U (shift G p) S ES (k - ks G + 1) (j - js G + 1) (i - is G + 1))%Z.
    specialize (C (k - ks G + 1) (j - js G + 1) (i - is G + 1))%Z. rewrite root_active in U, C.
    assert (A' : g_active G (k - ks G + 1 + ks G - 1) (j - js G + 1 + js G - 1) (i - is G + 1 + is G - 1)) by (unfold g_active in *; lia).
    specialize (U A'). specialize (C A'). rewrite <- U in C. unfold shift in C.
    replace (k - ks G + 1 + ks G - 1)%Z with k in C by lia. replace (j - js G + 1 + js G - 1)%Z with j in C by lia.
    replace (i - is G + 1 + is G - 1)%Z with i in C by lia.
    eapply cv_ext; [|exact C]. intro n. cbv beta. destruct (INV n) as (q & o & E1 & <-).
    cbn [root mPhi]. rewrite E1. cbn [put_grid ks js is].
    replace (k - ks G + 1 + ks G - 1)%Z with k by lia. replace (j - js G + 1 + js G - 1)%Z with j by lia.
    replace (i - is G + 1 + is G - 1)%Z with i by lia.
    apply edges_rest; [now apply put_grid_ok|]. intros [_ N]. now apply N.
Qed.
Print Assumptions C102_selfg_partial.

(** With one coarser level a call spoils the potential of the gas in every cell. *)
Theorem C102_selfg_refuted : forall nghost four_pi_G G m1 m2 m3, grid_ok nghost G ->
  (size1 G = 2 * m1 /\ size2 G = 2 * m2 /\ size3 G = 2 * m3 /\ 3 <= m1 /\ 3 <= m2 /\ 3 <= m3)%Z -> (m1 = 4 \/ m2 = 4 \/ m3 = 4)%Z ->
  0 < four_pi_G -> (forall k j i, g_active G k j i -> 0 <= dens G k j i) -> 0 < all_mass G ->
  (forall k j i, g_ghost nghost G k j i -> 0 < dist G k j i) ->
  exists p r, potential nghost four_pi_G G p /\ selfg_multig_3d nghost four_pi_G 2 (with_Phi G p) = Some r /\
    forall k j i, g_active G k j i -> Phi r k j i < p k j i.
Proof.
  intros ng c G m1 m2 m3 OK HM H4 HG HD MP DP. destruct (C102_potential ng c G OK) as (p & P & _).
  set (G' := with_Phi G p). assert (OK' : grid_ok ng G') by (destruct OK; constructor; assumption).
  assert (P' : potential ng c G' p) by exact P.
  destruct (potential_root ng c G' p OK' P') as [S ES]. pose proof (root_ok ng c G' OK') as ROK.
  assert (EE : mPhi (root ng c G') = shift G p).
  { extensionality k. extensionality j. extensionality i. cbn [root mPhi]. unfold shift.
    change (ks G') with (ks G). change (js G') with (js G). change (is G') with (is G).
    destruct (act (root ng c G') k j i) eqn:A.
    - apply act_iff in A. rewrite edges_rest; [reflexivity|exact OK'|]. intros [_ N]. apply N. now apply root_active in A.
    - apply act_no in A.
      destruct (inside (ks G - ng) (ke G + ng) (k + ks G - 1) && inside (js G - ng) (je G + ng) (j + js G - 1) &&
              inside (is G - ng) (ie G + ng) (i + is G - 1))%bool eqn:B'.
      + assert (Gh : g_ghost ng G' (k + ks G - 1) (j + js G - 1) (i + is G - 1)).
        { rewrite !andb_true_iff, !inside_iff in B'. split; [tauto|]. intro X. apply A. now apply root_active. }
        rewrite edges_ghost; [|apply OK'|exact Gh]. symmetry. now apply P'.
      + rewrite edges_rest; [reflexivity|exact OK'|]. intros [X _]. rewrite !andb_false_iff, !inside_no in B'. cbn in X. lia. }
  assert (S' : solves (root ng c G') (mPhi (root ng c G'))) by (rewrite EE; exact S).
  assert (NEG : forall k j i, active (root ng c G') k j i -> mPhi (root ng c G') k j i < 0).
  { apply (C102_negative _ ROK _ S').
    - intros k j i A. apply root_active in A. cbn [root rhs]. apply Rmult_le_pos; [lra|]. now apply HD.
    - intros k j i A. apply root_edge in A; [|exact OK']. cbn [root mPhi]. rewrite edges_ghost; [|apply OK'|exact A].
      unfold point_mass. specialize (DP _ _ _ A). change (dist G' ?a ?b ?d) with (dist G a b d). change (all_mass G') with (all_mass G).
      pose proof PI_RGT_0 as HPI. assert (X : 0 < c / (4 * PI)) by (apply Rdiv_lt_0_compat; lra).
      assert (Y : 0 < (c / (4 * PI)) * all_mass G / dist G (k + ks G' - 1) (j + js G' - 1) (i + is G' - 1)) by (apply Rdiv_lt_0_compat; [now apply Rmult_lt_0_compat|exact DP]).
      unfold Rdiv in *. lra. }
  destruct (C102_cycle_refuted (root ng c G') m1 m2 m3 ROK HM H4 S' NEG) as (q & Q & LT).
  exists p. eexists. split; [exact P|]. split.
  { fold G'. unfold selfg_multig_3d. rewrite Q. reflexivity. }
  intros k j i A. cbn [Phi]. unfold g_active in A. rewrite put_in by (auto; cbn; lia).
  assert (A' : active (root ng c G') (k - ks G' + 1) (j - js G' + 1) (i - is G' + 1)) by (apply root_active; unfold g_active; cbn; lia).
  specialize (LT _ _ _ A'). rewrite EE in LT. unfold shift in LT. cbn [G' with_Phi ks js is] in LT |- *.
  replace (k - ks G + 1 + ks G - 1)%Z with k in LT by lia. replace (j - js G + 1 + js G - 1)%Z with j in LT by lia.
  replace (i - is G + 1 + is G - 1)%Z with i in LT by lia. exact LT.
Qed.
Print Assumptions C102_selfg_refuted.

(** A cube of uniform gas around the origin. *)
Definition cube (n : Z) : pgrid :=
  PGrid 4 (n + 3) 4 (n + 3) 4 (n + 3) 1 1 1 (- IZR n / 2) (- IZR n / 2) (- IZR n / 2) (-1) (-1) (-1) (-1) (-1) (-1)
    (fun _ _ _ => 1) (fun _ _ _ => 0) (fun _ _ _ => 0).
Lemma cube_ok n : (1 < n)%Z -> grid_ok 4 (cube n).
Proof. intro H. constructor; unfold size1, size2, size3, isolated; cbn; try lia; lra. Qed.
Lemma cube_mass n : (1 < n)%Z -> 0 < all_mass (cube n).
Proof.
  intro H. unfold all_mass. cbn [cube ks ke js je is ie dens gdx1 gdx2 gdx3].
  assert (C : forall a, sumZ 4 (n + 3) (fun _ => a) = IZR n * a).
  { intro a. rewrite HistMain.sumZ_const by lia. f_equal. f_equal. lia. }
  rewrite !C. assert (0 < IZR n) by (apply IZR_lt; lia). repeat apply Rmult_lt_0_compat; lra.
Qed.
Example C102_cube : forall n, (n = 6 \/ n = 8)%Z -> grid_ok 4 (cube n) /\ 0 < all_mass (cube n) /\
  (forall k j i, g_ghost 4 (cube n) k j i -> 0 < dist (cube n) k j i).
Proof.
  intros n H. split; [apply cube_ok; lia|]. split; [apply cube_mass; lia|]. intros k j i _. unfold dist.
  apply sqrt_lt_R0. cbn [cube MinX1 MinX2 MinX3 is js ks gdx1 gdx2 gdx3].
  set (x := - IZR n / 2 + (IZR (i - 4) + 1 / 2) * 1).
  assert (X : x <> 0).
  { unfold x. intro E. assert (F : IZR (2 * (i - 4) + 1 - n) = 0) by (rewrite minus_IZR, plus_IZR, mult_IZR; lra).
    apply eq_IZR_R0 in F. lia. }
  assert (0 < x ^ 2) by (rewrite <- Rsqr_pow2; now apply Rsqr_pos_lt).
  match goal with |- 0 < x ^ 2 + ?a ^ 2 + ?b ^ 2 => pose proof (pow2_ge_0 a); pose proof (pow2_ge_0 b) end. lra.
Qed.
(** The cube of 8 cells meets the hypotheses of [C102_selfg_refuted]; the one of 4 cells those of [C102_selfg_partial]. *)
Example C102_cube8 : exists p r, potential 4 1 (cube 8) p /\ selfg_multig_3d 4 1 2 (with_Phi (cube 8) p) = Some r /\
  forall k j i, g_active (cube 8) k j i -> Phi r k j i < p k j i.
Proof.
  destruct (C102_cube 8 ltac:(lia)) as (A & B & C).
  apply (C102_selfg_refuted 4 1 (cube 8) 4 4 4 A); [cbn; lia | lia | lra | intros; cbn; lra | exact B | exact C].
Qed.
Example C102_cube4 : grid_ok 4 (cube 4) /\ size1 (cube 4) = 4%Z /\ exists r, selfg_multig_3d 4 1 1 (cube 4) = Some r.
Proof. split; [apply cube_ok; lia|]. split; [reflexivity|]. eexists. reflexivity. Qed.
