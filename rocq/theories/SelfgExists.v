(** * Every density has a potential in the sense of C93: it is the one the FFT solvers of C92 return *)
From Coq Require Import Reals ZArith List Bool Lia Lra.
From Verif Require Import IntegSpec IntegFacts SelfgSpec SelfgFacts.
From Verif Require GravSpec GravProps SumFacts.
Open Scope R_scope.

Lemma sumZ_from0 : forall l u f, sumZ 0 (u - l + 1 - 1) (fun a => f (a + l)%Z) = sumZ l u f.
Proof.
  intros l u f. replace (u - l + 1 - 1)%Z with (u - l)%Z by lia. pose proof (SumFacts.sumZ_move 0 (u - l) l f) as H.
  replace (l + (u - l - 0))%Z with u in H by lia. rewrite <- H. apply sumZ_ext. intros a _. f_equal. lia.
Qed.
Lemma sum3_from0 : forall lk uk lj uj li ui f,
  GravSpec.total3 (ui - li + 1) (uj - lj + 1) (uk - lk + 1) (fun a b c => f (c + lk)%Z (b + lj)%Z (a + li)%Z) = sum3 lk uk lj uj li ui f.
Proof.
  intros. unfold GravSpec.total3, sum3, sum2.
  rewrite (sumZ_from0 li ui (fun i => sumZ 0 (uj - lj + 1 - 1) (fun b => sumZ 0 (uk - lk + 1 - 1) (fun c => f (c + lk)%Z (b + lj)%Z i)))).
  rewrite (sumZ_ext li ui _ (fun i => sumZ lj uj (fun j => sumZ lk uk (fun k => f k j i)))).
  2:{ intros i _. rewrite (sumZ_from0 lj uj (fun j => sumZ 0 (uk - lk + 1 - 1) (fun c => f (c + lk)%Z j i))). apply sumZ_ext. intros j _.
      apply (sumZ_from0 lk uk (fun k => f k j i)). }
  rewrite (sumZ_ext li ui _ (fun i => sumZ lk uk (fun k => sumZ lj uj (fun j => f k j i)))) by (intros; apply sumZ_swap).
  rewrite sumZ_swap. apply sumZ_ext. intros k _. apply sumZ_swap.
Qed.

(** Three dimensions: the potential of any density exists, and is periodic in all three directions. *)
Theorem C93_potential_exists_3d : forall G4 dx1 dx2 dx3 lk uk lj uj li ui d,
  (lk <= uk)%Z -> (lj <= uj)%Z -> (li <= ui)%Z -> 0 < dx1 -> 0 < dx2 -> 0 < dx3 ->
  exists P, solves3 G4 dx1 dx2 dx3 lk uk lj uj li ui d P /\
    forall k j i, P (k + (uk - lk + 1))%Z j i = P k j i /\ P k (j + (uj - lj + 1))%Z i = P k j i /\ P k j (i + (ui - li + 1))%Z = P k j i.
Proof.
  intros G4 dx1 dx2 dx3 lk uk lj uj li ui d L3 L2 L1 X1 X2 X3.
  set (N1 := (ui - li + 1)%Z). set (N2 := (uj - lj + 1)%Z). set (N3 := (uk - lk + 1)%Z).
  assert (P1 : (0 < N1)%Z) by (unfold N1; lia). assert (P2 : (0 < N2)%Z) by (unfold N2; lia). assert (P3 : (0 < N3)%Z) by (unfold N3; lia).
  set (rho := fun a b c => d (c + lk)%Z (b + lj)%Z (a + li)%Z).
  set (p := GravProps.pot G4 dx1 dx2 dx3 N1 N2 N3 rho).
  assert (PP : GravSpec.periodic3 N1 N2 N3 p) by (apply GravProps.pot_periodic; auto).
  assert (PT : GravSpec.total3 N1 N2 N3 p = 0) by (apply GravProps.pot_total; auto).
  assert (PL : forall a b c, GravSpec.in_domain N1 N2 N3 a b c ->
    GravSpec.lap3 dx1 dx2 dx3 p a b c = G4 * (rho a b c - GravSpec.total3 N1 N2 N3 rho / IZR (N1 * N2 * N3))) by (intros; apply GravProps.pot_poisson; auto).
  clearbody p. exists (fun k j i => p (i - li)%Z (j - lj)%Z (k - lk)%Z).
  assert (PER : forall k j i, p (i - li)%Z (j - lj)%Z (k + N3 - lk)%Z = p (i - li)%Z (j - lj)%Z (k - lk)%Z /\
     p (i - li)%Z (j + N2 - lj)%Z (k - lk)%Z = p (i - li)%Z (j - lj)%Z (k - lk)%Z /\ p (i + N1 - li)%Z (j - lj)%Z (k - lk)%Z = p (i - li)%Z (j - lj)%Z (k - lk)%Z).
  { intros k j i. destruct (PP (i - li)%Z (j - lj)%Z (k - lk)%Z) as (E1 & E2 & E3).
    replace (k + N3 - lk)%Z with (k - lk + N3)%Z by lia. replace (j + N2 - lj)%Z with (j - lj + N2)%Z by lia. replace (i + N1 - li)%Z with (i - li + N1)%Z by lia. auto. }
  split; [split; [|split]|exact PER].
  - split; [intros k _; split; [intros j _; split|intros i _; split]|intros j i _ _; split].
    + rewrite <- (proj2 (proj2 (PER k j (li - 1)%Z))). do 1 f_equal. unfold N1. lia.
    + rewrite <- (proj2 (proj2 (PER k j li))). do 1 f_equal. unfold N1. lia.
    + rewrite <- (proj1 (proj2 (PER k (lj - 1)%Z i))). do 1 f_equal. unfold N2. lia.
    + rewrite <- (proj1 (proj2 (PER k lj i))). do 1 f_equal. unfold N2. lia.
    + rewrite <- (proj1 (PER (lk - 1)%Z j i)). do 1 f_equal. unfold N3. lia.
    + rewrite <- (proj1 (PER lk j i)). do 1 f_equal. unfold N3. lia.
  - rewrite <- PT. unfold N1, N2, N3. rewrite <- sum3_from0. unfold GravSpec.total3. apply sumZ_ext. intros a _. apply sumZ_ext. intros b _. apply sumZ_ext. intros c _.
    rewrite !Z.add_simpl_r. reflexivity.
  - intros k j i Hk Hj Hi. specialize (PL (i - li)%Z (j - lj)%Z (k - lk)%Z). unfold GravSpec.in_domain in PL.
    specialize (PL ltac:(unfold N1, N2, N3; lia)). unfold rho in PL at 1. rewrite !Z.sub_add in PL.
    assert (ET : GravSpec.total3 N1 N2 N3 rho = sum3 lk uk lj uj li ui d) by apply sum3_from0. rewrite ET in PL.
    rewrite !mult_IZR in PL. fold N1 N2 N3. replace (IZR N3 * IZR N2 * IZR N1) with (IZR N1 * IZR N2 * IZR N3) by ring. rewrite <- PL. unfold diff2, GravSpec.lap3.
    replace (i + 1 - li)%Z with (i - li + 1)%Z by lia. replace (j + 1 - lj)%Z with (j - lj + 1)%Z by lia. replace (k + 1 - lk)%Z with (k - lk + 1)%Z by lia.
    replace (i - 1 - li)%Z with (i - li - 1)%Z by lia. replace (j - 1 - lj)%Z with (j - lj - 1)%Z by lia. replace (k - 1 - lk)%Z with (k - lk - 1)%Z by lia. reflexivity.
Qed.
Print Assumptions C93_potential_exists_3d.

(** Two dimensions and one: a single layer. *)
Theorem C93_potential_exists_2d : forall G4 dx1 dx2 lj uj li ui d, (lj <= uj)%Z -> (li <= ui)%Z -> 0 < dx1 -> 0 < dx2 ->
  exists P, solves2 G4 dx1 dx2 lj uj li ui d P /\ forall j i, P (j + (uj - lj + 1))%Z i = P j i /\ P j (i + (ui - li + 1))%Z = P j i.
Proof.
  intros G4 dx1 dx2 lj uj li ui d L2 L1 X1 X2.
  destruct (C93_potential_exists_3d G4 dx1 dx2 1 0 0 lj uj li ui (fun _ j i => d j i)) as (P & [[W1 W2] [S L]] & Q); try lia; try lra.
  assert (K : forall j i, P 1%Z j i = P 0%Z j i /\ P (-1)%Z j i = P 0%Z j i).
  { intros j i. split; [apply (Q 0%Z j i)|]. symmetry. apply (Q (-1)%Z j i). }
  assert (S1 : forall f, sum3 0 0 lj uj li ui f = sum2 lj uj li ui (fun j i => f 0%Z j i)).
  { intro f. unfold sum3. rewrite sumZ_last, sumZ_empty by lia. lra. }
  exists (fun j i => P 0%Z j i). split; [split; [|split]|].
  - apply W1. lia.
  - rewrite <- S1. exact S.
  - intros j i Hj Hi. specialize (L 0%Z j i ltac:(lia) Hj Hi). rewrite S1 in L. change (IZR (0 - 0 + 1)) with 1 in L.
    replace (1 * IZR (uj - lj + 1)) with (IZR (uj - lj + 1)) in L by ring. etransitivity; [|exact L]. unfold diff2.
    cbn [Z.add Z.sub Z.opp Z.pos_sub]. destruct (K j i) as [-> ->]. unfold Rdiv. ring.
  - intros j i. destruct (Q 0%Z j i) as (_ & A & B). auto.
Qed.
Print Assumptions C93_potential_exists_2d.
Theorem C93_potential_exists_1d : forall G4 dx1 li ui d, (li <= ui)%Z -> 0 < dx1 ->
  exists P, solves1 G4 dx1 li ui d P /\ forall i, P (i + (ui - li + 1))%Z = P i.
Proof.
  intros G4 dx1 li ui d L1 X1.
  destruct (C93_potential_exists_2d G4 dx1 1 0 0 li ui (fun _ i => d i)) as (P & [[W1 W2] [S L]] & Q); try lia; try lra.
  assert (K : forall i, P 1%Z i = P 0%Z i /\ P (-1)%Z i = P 0%Z i).
  { intros i. split; [apply (Q 0%Z i)|]. symmetry. apply (Q (-1)%Z i). }
  assert (S1 : forall f, sum2 0 0 li ui f = sumZ li ui (fun i => f 0%Z i)).
  { intro f. unfold sum2. rewrite sumZ_last, sumZ_empty by lia. lra. }
  exists (fun i => P 0%Z i). split; [split; [|split]|].
  - apply W1. lia.
  - rewrite <- S1. exact S.
  - intros i Hi. specialize (L 0%Z i ltac:(lia) Hi). rewrite S1 in L. change (IZR (0 - 0 + 1)) with 1 in L.
    replace (1 * IZR (ui - li + 1)) with (IZR (ui - li + 1)) in L by ring. etransitivity; [|exact L]. unfold diff2.
    cbn [Z.add Z.sub Z.opp Z.pos_sub]. destruct (K i) as [-> ->]. unfold Rdiv. ring.
  - intros i. apply (Q 0%Z i).
Qed.
Print Assumptions C93_potential_exists_1d.
