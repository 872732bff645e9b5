(** * Constrained transport across levels: divergence and agreement of the fields (C42) *)
From Coq Require Import Reals ZArith Bool Arith Lia Lra ZifyBool List.
From Verif Require Import CStr MeshModel SmrModel SmrOverlap SmrFacts SmrProps SmrApply SmrPaired SmrRestrict SmrPlane SmrTheorems SmrField.
From Verif Require IntegSpec IntegFacts.
Import IntegSpec (sumZ) IntegFacts.
Import ListNotations.
Open Scope Z_scope.
Local Open Scope R_scope.

(** ** Faces whose field is that of the fine Grid *)
Lemma set_taken1 : forall nDim oc of Bf B k j i, set1 nDim oc of Bf B k j i = if taken oc X1 k j i then avgB1 nDim of Bf (k - o_s oc X3) (j - o_s oc X2) (i - o_s oc X1) else B k j i.
Proof. intros. unfold set1. match goal with |- (if ?b then _ else _) = (if ?b' then _ else _) => replace b' with b; [reflexivity|] end. unfold taken. cbn [onface]. unfold st1, btw. cbv zeta. destruct (len oc X1 =? 0)%Z, (inb oc X3 k), (inb oc X2 j), (o_s oc X1 <=? i)%Z, (i <=? o_e oc X1 + 1)%Z; reflexivity. Qed.
Lemma set_taken2 : forall nDim oc of Bf B k j i, set2 nDim oc of Bf B k j i = if taken oc X2 k j i then avgB2 nDim of Bf (k - o_s oc X3) (j - o_s oc X2) (i - o_s oc X1) else B k j i.
Proof. intros. unfold set2. match goal with |- (if ?b then _ else _) = (if ?b' then _ else _) => replace b' with b; [reflexivity|] end. unfold taken. cbn [onface]. unfold st2, btw. cbv zeta. destruct (len oc X2 =? 0)%Z, (inb oc X3 k), (inb oc X1 i), (o_s oc X2 <=? j)%Z, (j <=? o_e oc X2 + 1)%Z; reflexivity. Qed.
Lemma set_taken3 : forall nDim oc of Bf B k j i, set3 nDim oc of Bf B k j i = if taken oc X3 k j i then avgB3 nDim of Bf (k - o_s oc X3) (j - o_s oc X2) (i - o_s oc X1) else B k j i.
Proof. intros. unfold set3. match goal with |- (if ?b then _ else _) = (if ?b' then _ else _) => replace b' with b; [reflexivity|] end. unfold taken. cbn [onface]. unfold st3, btw. cbv zeta. destruct (len oc X3 =? 0)%Z, (inb oc X2 j), (inb oc X1 i), (o_s oc X3 <=? k)%Z, (k <=? o_e oc X3 + 1)%Z; reflexivity. Qed.

Lemma ind_sub : forall b x y, ind b (x - y) = ind b x - ind b y. Proof. intros []; intros; cbn [ind]; lra. Qed.
Lemma curl1_star : forall nDim oc of r2 r3 E e k j i, curl1 nDim r2 r3 (Estar nDim oc of E e) k j i = curl1 nDim r2 r3 E k j i +
  (r2 * ind (onedge oc X3 k (j + 1) i) (del3 nDim oc of E e k (j + 1)%Z i) - r2 * ind (onedge oc X3 k j i) (del3 nDim oc of E e k j i)) -
  (if (nDim =? 3)%nat then r3 * ind (onedge oc X2 (k + 1) j i) (del2 nDim oc of E e (k + 1)%Z j i) - r3 * ind (onedge oc X2 k j i) (del2 nDim oc of E e k j i) else 0).
Proof. intros. unfold curl1. rewrite !Estar2_eq, !Estar3_eq. destruct (nDim =? 3)%nat; ring. Qed.
Lemma curl2_star : forall nDim oc of r1 r3 E e k j i, curl2 nDim r1 r3 (Estar nDim oc of E e) k j i = curl2 nDim r1 r3 E k j i -
  (r1 * ind (onedge oc X3 k j (i + 1)) (del3 nDim oc of E e k j (i + 1)%Z) - r1 * ind (onedge oc X3 k j i) (del3 nDim oc of E e k j i)) +
  (if (nDim =? 3)%nat then r3 * ind (onedge oc X1 (k + 1) j i) (del1 nDim oc of E e (k + 1)%Z j i) - r3 * ind (onedge oc X1 k j i) (del1 nDim oc of E e k j i) else 0).
Proof. intros. unfold curl2. rewrite !Estar1_eq, !Estar3_eq. destruct (nDim =? 3)%nat; ring. Qed.
Lemma curl3_star : forall nDim oc of r1 r2 E e k j i, curl3 r1 r2 (Estar nDim oc of E e) k j i = curl3 r1 r2 E k j i +
  (r1 * ind (onedge oc X2 k j (i + 1)) (del2 nDim oc of E e k j (i + 1)%Z) - r1 * ind (onedge oc X2 k j i) (del2 nDim oc of E e k j i)) -
  (r2 * ind (onedge oc X1 k (j + 1) i) (del1 nDim oc of E e k (j + 1)%Z i) - r2 * ind (onedge oc X1 k j i) (del1 nDim oc of E e k j i)).
Proof. intros. unfold curl3. rewrite !Estar1_eq, !Estar2_eq. ring. Qed.

Section untaken.
  Context (c : cfg) (nDim : nat) (oc of : ovl) (first last : vec) (r1 r2 r3 : R) (fc ff : flx) (E e : vfield).
  Hypothesis (P : paired c nDim oc of) (C : closed nDim first last oc) (F : facing oc) (M : c_mhd c = true) (TD : (2 <= nDim)%nat)
    (SC : stored_emf nDim oc fc E) (SF : stored_emf nDim of ff e).
  Lemma untaken1 : forall k j i, act first last X3 k -> act first last X2 j -> taken oc X1 k j i = false ->
    cB1 nDim oc last r2 r3 fc ff k j i = curl1 nDim r2 r3 (Estar nDim oc of E e) k j i - curl1 nDim r2 r3 E k j i.
  Proof.
    intros k j i K J NT. rewrite curl1_star.
    pose proof (B1E3 c nDim oc of first last r2 fc ff E e k j i P C F M TD SC SF J NT) as H3. cbv zeta in H3.
    destruct (nDim =? 3)%nat eqn:N.
    - apply Nat.eqb_eq in N. pose proof N as N'. revert H3. 
      assert (H2 : nDim = 3%nat -> cB1 nDim oc last r2 r3 fc ff k j i = cB1 3 oc last r2 r3 fc ff k j i) by (intros ->; reflexivity).
      pose proof P as P'. pose proof C as C'. pose proof SC as SC'. pose proof SF as SF'. rewrite N in P', C', SC', SF'. rewrite N. clear H2.
      pose proof (B1E2 c oc of first last r3 fc ff E e k j i P' C' F M SC' SF' K NT) as H2. cbv zeta in H2. intros H3.
      unfold cB1, c11. lra.
    - apply Nat.eqb_neq in N. unfold cB1, c11, c13. unfold td. replace (nDim =? 3)%nat with false by lia.
      assert (Z3 : forall s, fl oc X3 s = false). { intros s. unfold fl. rewrite (pd_emf3 _ _ _ _ P) by (pose proof (pd_dim _ _ _ _ P); lia). reflexivity. }
      rewrite !Z3, !andb_false_r. cbn [andb ind]. rewrite <- H3. ring.
  Qed.
  Lemma untaken2 : forall k j i, act first last X3 k -> act first last X1 i -> taken oc X2 k j i = false ->
    cB2 nDim oc last r1 r3 fc ff k j i = curl2 nDim r1 r3 (Estar nDim oc of E e) k j i - curl2 nDim r1 r3 E k j i.
  Proof.
    intros k j i K I NT. rewrite curl2_star.
    pose proof (B2E3 c nDim oc of first last r1 fc ff E e k j i P C F M TD SC SF I NT) as H3. cbv zeta in H3.
    destruct (nDim =? 3)%nat eqn:N.
    - apply Nat.eqb_eq in N. revert H3. 
      pose proof P as P'. pose proof C as C'. pose proof SC as SC'. pose proof SF as SF'. rewrite N in P', C', SC', SF'. rewrite N.
      pose proof (B2E1 c oc of first last r3 fc ff E e k j i P' C' F M SC' SF' K NT) as H2. cbv zeta in H2. intros H3.
      unfold cB2, c22. lra.
    - apply Nat.eqb_neq in N. unfold cB2, c22, c23. unfold td. replace (nDim =? 3)%nat with false by lia.
      assert (Z3 : forall s, fl oc X3 s = false). { intros s. unfold fl. rewrite (pd_emf3 _ _ _ _ P) by (pose proof (pd_dim _ _ _ _ P); lia). reflexivity. }
      rewrite !Z3, !andb_false_r. cbn [andb ind]. rewrite Rplus_0_r. unfold Rminus at 1. rewrite <- H3. ring.
  Qed.
  Lemma untaken3 : nDim = 3%nat -> forall k j i, act first last X2 j -> act first last X1 i -> taken oc X3 k j i = false ->
    cB3 nDim oc last r1 r2 fc ff k j i = curl3 r1 r2 (Estar nDim oc of E e) k j i - curl3 r1 r2 E k j i.
  Proof.
    intros N k j i J I NT. rewrite curl3_star.
    pose proof P as P'. pose proof C as C'. pose proof SC as SC'. pose proof SF as SF'. rewrite N in P', C', SC', SF'. rewrite N.
    pose proof (B3E2 c oc of first last r1 fc ff E e k j i P' C' F M SC' SF' I NT) as H2. cbv zeta in H2.
    pose proof (B3E1 c oc of first last r2 fc ff E e k j i P' C' F M SC' SF' J NT) as H1. cbv zeta in H1.
    unfold cB3, c33. rewrite !(ind_sub _ (_ - _) (_ - _)). lra.
  Qed.
  (** Faces inside the overlap are not corrected. *)
  Lemma taken1 : forall k j i, taken oc X1 k j i = true -> cB1 nDim oc last r2 r3 fc ff k j i = 0.
  Proof.
    intros k j i T. unfold taken in T. cbn [onface] in T. cbv zeta in T.
    unfold cB1, c11, c12, c13. rewrite !(fl_flx c nDim oc of) by assumption. unfold touch. cbn [bface side].
    unfold inb, btw, len in *. 
    destruct (some (o_flx oc X1 false)), (some (o_flx oc X1 true)); killind; lra.
  Qed.
  Lemma taken2 : forall k j i, taken oc X2 k j i = true -> cB2 nDim oc last r1 r3 fc ff k j i = 0.
  Proof.
    intros k j i T. unfold taken in T. cbn [onface] in T. cbv zeta in T.
    unfold cB2, c21, c22, c23. rewrite !(fl_flx c nDim oc of) by assumption. unfold touch. cbn [bface side].
    unfold inb, btw, len in *. 
    destruct (some (o_flx oc X2 false)), (some (o_flx oc X2 true)); killind; lra.
  Qed.
  Lemma taken3 : forall k j i, taken oc X3 k j i = true -> cB3 nDim oc last r1 r2 fc ff k j i = 0.
  Proof.
    intros k j i T. unfold taken in T. cbn [onface] in T. cbv zeta in T.
    unfold cB3, c31, c32, c33. rewrite !(fl_flx c nDim oc of) by assumption. unfold touch. cbn [bface side].
    unfold inb, btw, len in *. 
    destruct (some (o_flx oc X3 false)), (some (o_flx oc X3 true)); killind; lra.
  Qed.
End untaken.

(** The average of a transported fine field is transported by the averages of the EMFs. *)
Lemma avgB_ct : forall c nDim oc of r1 r2 r3 b e gf, paired c nDim oc of -> (2 <= nDim)%nat ->
  transported nDim (o_s of) (o_e of) (2 * r1) (2 * r2) (2 * r3) b e gf ->
  (forall k j i, (0 <= k < len oc X3)%Z -> (0 <= j < len oc X2)%Z -> (0 <= i <= len oc X1)%Z -> avgB1 nDim of (gB1 gf) k j i = avgB1 nDim of (f1 b) k j i +
     ((if (nDim =? 3)%nat then r3 * (avgE2 nDim of (f2 e) (k + 1) j i - avgE2 nDim of (f2 e) k j i) else 0) - r2 * (avgE3 nDim of (f3 e) k (j + 1) i - avgE3 nDim of (f3 e) k j i)))  /\
  (forall k j i, (0 <= k < len oc X3)%Z -> (0 <= j <= len oc X2)%Z -> (0 <= i < len oc X1)%Z -> avgB2 nDim of (gB2 gf) k j i = avgB2 nDim of (f2 b) k j i +
     (r1 * (avgE3 nDim of (f3 e) k j (i + 1) - avgE3 nDim of (f3 e) k j i) - (if (nDim =? 3)%nat then r3 * (avgE1 nDim of (f1 e) (k + 1) j i - avgE1 nDim of (f1 e) k j i) else 0)))  /\
  (nDim = 3%nat -> forall k j i, (0 <= k <= len oc X3)%Z -> (0 <= j < len oc X2)%Z -> (0 <= i < len oc X1)%Z -> avgB3 nDim of (gB3 gf) k j i = avgB3 nDim of (f3 b) k j i +
     (r2 * (avgE1 nDim of (f1 e) k (j + 1) i - avgE1 nDim of (f1 e) k j i) - r1 * (avgE2 nDim of (f2 e) k j (i + 1) - avgE2 nDim of (f2 e) k j i))) .
Proof.
  intros c nDim oc of r1 r2 r3 b e gf P TD (T1 & T2 & T3). dims P. unfold act in *.
  destruct (ratio_cases nDim D) as [(-> & R1 & R2 & R3)|[(-> & R1 & R2 & R3)|(-> & R1 & R2 & R3)]]; [lia| |]; rewrite R1, R2, R3 in *.
  - split; [|split; [|intros; lia]]; intros k j i K J I.
    + unfold avgB1, avgE3. covers. means. unfold len in *. rewrite !T1 by lia. unfold curl1. cbn [Nat.eqb]. rewrite R1, R2.
      replace (o_s of X2 + 2 * (j + 1))%Z with (o_s of X2 + 2 * j + 1 + 1)%Z by lia. cbn. field.
    + unfold avgB2, avgE3. covers. means. unfold len in *. rewrite !T2 by lia. unfold curl2. cbn [Nat.eqb]. rewrite R1, R2.
      replace (o_s of X1 + 2 * (i + 1))%Z with (o_s of X1 + 2 * i + 1 + 1)%Z by lia. cbn. field.
  - split; [|split; [|intros _]]; intros k j i K J I.
    + unfold avgB1, avgE3, avgE2. covers. means. unfold len in *. rewrite !T1 by lia. unfold curl1. cbn [Nat.eqb]. rewrite R1, R2, R3.
      replace (o_s of X2 + 2 * (j + 1))%Z with (o_s of X2 + 2 * j + 1 + 1)%Z by lia. replace (o_s of X3 + 2 * (k + 1))%Z with (o_s of X3 + 2 * k + 1 + 1)%Z by lia. cbn. field.
    + unfold avgB2, avgE3, avgE1. covers. means. unfold len in *. rewrite !T2 by lia. unfold curl2. cbn [Nat.eqb]. rewrite R1, R2, R3.
      replace (o_s of X1 + 2 * (i + 1))%Z with (o_s of X1 + 2 * i + 1 + 1)%Z by lia. replace (o_s of X3 + 2 * (k + 1))%Z with (o_s of X3 + 2 * k + 1 + 1)%Z by lia. cbn. field.
    + unfold avgB3, avgE2, avgE1. covers. means. unfold len in *. rewrite !(T3 eq_refl) by lia. unfold curl3. rewrite R1, R2, R3.
      replace (o_s of X1 + 2 * (i + 1))%Z with (o_s of X1 + 2 * i + 1 + 1)%Z by lia. replace (o_s of X2 + 2 * (j + 1))%Z with (o_s of X2 + 2 * j + 1 + 1)%Z by lia. cbn. field.
Qed.

(** On the faces of the overlap the EMFs that count are those of the fine Grid. *)
Lemma curl_on : forall nDim oc of r1 r2 r3 E e k j i,
  (onface oc X1 k j i = true -> curl1 nDim r2 r3 (Estar nDim oc of E e) k j i =
     (let k := (k - o_s oc X3)%Z in let j := (j - o_s oc X2)%Z in let i := (i - o_s oc X1)%Z in
     (if (nDim =? 3)%nat then r3 * (avgE2 nDim of (f2 e) (k + 1) j i - avgE2 nDim of (f2 e) k j i) else 0) - r2 * (avgE3 nDim of (f3 e) k (j + 1) i - avgE3 nDim of (f3 e) k j i))) /\
  (onface oc X2 k j i = true -> curl2 nDim r1 r3 (Estar nDim oc of E e) k j i =
     (let k := (k - o_s oc X3)%Z in let j := (j - o_s oc X2)%Z in let i := (i - o_s oc X1)%Z in
     r1 * (avgE3 nDim of (f3 e) k j (i + 1) - avgE3 nDim of (f3 e) k j i) - (if (nDim =? 3)%nat then r3 * (avgE1 nDim of (f1 e) (k + 1) j i - avgE1 nDim of (f1 e) k j i) else 0))) /\
  (onface oc X3 k j i = true -> curl3 r1 r2 (Estar nDim oc of E e) k j i =
     (let k := (k - o_s oc X3)%Z in let j := (j - o_s oc X2)%Z in let i := (i - o_s oc X1)%Z in
     r2 * (avgE1 nDim of (f1 e) k (j + 1) i - avgE1 nDim of (f1 e) k j i) - r1 * (avgE2 nDim of (f2 e) k j (i + 1) - avgE2 nDim of (f2 e) k j i))).
Proof.
  assert (S : forall a b, (a + 1 - b = a - b + 1)%Z) by (intros; lia).
  intros. repeat split; intros H; cbn [onface] in H; unfold inb, btw in H; cbv zeta; unfold curl1, curl2, curl3, Estar, Estar1, Estar2, Estar3; cbn [f1 f2 f3];
    repeat match goal with |- context [onedge oc ?a ?k ?j ?i] => replace (onedge oc a k j i) with true by (cbn [onedge]; unfold inb, btw; lia) end; rewrite !S; reflexivity.
Qed.

(** *** C42: constrained transport.  After a step of both Grids with the EMFs [E] and [e] the field of the parent Grid is advanced by
    one EMF on every edge: the mean of the fine ones where there are any. *)
Theorem C42_ct : forall ng c root nDim pa gp ch gc oc of first last r1 r2 r3 fc ff E e B b g gf,
  aligned nDim pa gp ch gc -> cgrid ng c root nDim pa gp ch gc = Some oc -> pgrid ng c root nDim pa gp ch gc = Some of ->
  c_mhd c = true -> (2 <= nDim)%nat -> wide c nDim oc -> closed nDim first last oc -> facing oc ->
  stored_emf nDim oc fc E -> stored_emf nDim of ff e ->
  transported nDim (o_s of) (o_e of) (2 * r1) (2 * r2) (2 * r3) b e gf ->
  transported nDim first last r1 r2 r3 B E g ->
  exists g', correct_RC c nDim oc last r1 r2 r3 fc g (pack_RC c nDim of gf ff) = Some (g', []) /\
    transported nDim first last r1 r2 r3 (Bstart nDim oc of B b) (Estar nDim oc of E e) g'.
Proof.
  intros ng c root nDim pa gp ch gc oc of first last r1 r2 r3 fc ff E e B b g gf A HC HP M TD W C F SC SF TF TC.
  pose proof (C72_paired _ _ _ _ _ _ _ _ _ _ A HC HP) as P.
  destruct (correct_mhd c nDim oc of last r1 r2 r3 fc g gf ff P W M TD) as (g' & Q & _ & H1 & H2 & H3 & _).
  exists g'. split; [exact Q|]. clear Q.
  destruct (avgB_ct c nDim oc of r1 r2 r3 b e gf P TD TF) as (A1 & A2 & A3). destruct TC as (T1 & T2 & T3).
  split; [|split].
  - intros k j i K J I. rewrite H1, set_taken1. cbn [Bstart f1]. destruct (taken oc X1 k j i) eqn:T.
    + rewrite (taken1 c nDim oc of last r2 r3 fc ff P M TD) by exact T.
      assert (O : onface oc X1 k j i = true) by (unfold taken in T; lia).
      rewrite (proj1 (curl_on nDim oc of r1 r2 r3 E e k j i) O). cbn [onface] in O. unfold inb, btw in O.
      rewrite A1 by (unfold len; lia). cbv zeta. lra.
    + rewrite (untaken1 c nDim oc of first last r2 r3 fc ff E e P C F M TD SC SF k j i K J T). rewrite (T1 k j i K J I). lra.
  - intros k j i K J I. rewrite H2, set_taken2. cbn [Bstart f2]. destruct (taken oc X2 k j i) eqn:T.
    + rewrite (taken2 c nDim oc of last r1 r3 fc ff P M TD) by exact T.
      assert (O : onface oc X2 k j i = true) by (unfold taken in T; lia).
      rewrite (proj1 (proj2 (curl_on nDim oc of r1 r2 r3 E e k j i)) O). cbn [onface] in O. unfold inb, btw in O.
      rewrite A2 by (unfold len; lia). cbv zeta. lra.
    + rewrite (untaken2 c nDim oc of first last r1 r3 fc ff E e P C F M TD SC SF k j i K I T). rewrite (T2 k j i K J I). lra.
  - intros N k j i K J I. rewrite (H3 N), set_taken3. cbn [Bstart f3]. destruct (taken oc X3 k j i) eqn:T.
    + rewrite (taken3 c nDim oc of last r1 r2 fc ff P M TD) by exact T.
      assert (O : onface oc X3 k j i = true) by (unfold taken in T; lia).
      rewrite (proj2 (proj2 (curl_on nDim oc of r1 r2 r3 E e k j i)) O). cbn [onface] in O. unfold inb, btw in O.
      rewrite (A3 N) by (unfold len; lia). cbv zeta. lra.
    + rewrite (untaken3 c nDim oc of first last r1 r2 fc ff E e P C F M SC SF N k j i J I T). rewrite (T3 N k j i K J I). lra.
Qed.
Print Assumptions C42_ct.

(** ** Divergence, and agreement of the two fields *)
(** Divergence of the field in a cell, times the time step ([r] is the time step over the cell size). *)
Definition divB (nDim : nat) (r1 r2 r3 : R) (B : vfield) (k j i : Z) : R :=
  r1 * (f1 B k j (i + 1)%Z - f1 B k j i) + r2 * (f2 B k (j + 1)%Z i - f2 B k j i) + (if (nDim =? 3)%nat then r3 * (f3 B (k + 1)%Z j i - f3 B k j i) else 0).
Definition fieldof (g : gst) : vfield := VF (gB1 g) (gB2 g) (gB3 g).
(** The coarse field is the mean of the fine field on the faces of the overlap. *)
Definition agree (nDim : nat) (oc of : ovl) (B b : vfield) : Prop := forall k j i,
  (onface oc X1 k j i = true -> f1 B k j i = avgB1 nDim of (f1 b) (k - o_s oc X3) (j - o_s oc X2) (i - o_s oc X1)) /\
  (onface oc X2 k j i = true -> f2 B k j i = avgB2 nDim of (f2 b) (k - o_s oc X3) (j - o_s oc X2) (i - o_s oc X1)) /\
  (nDim = 3%nat -> onface oc X3 k j i = true -> f3 B k j i = avgB3 nDim of (f3 b) (k - o_s oc X3) (j - o_s oc X2) (i - o_s oc X1)).
(** The overlap is in the Grid (with [o_e] = [o_s] - 1 if the Grids touch). *)
Definition within (first last : vec) (oc : ovl) : Prop := forall a, (first a <= o_s oc a <= last a + 1 /\ first a - 1 <= o_e oc a <= last a)%Z.

Lemma div_transported : forall nDim first last r1 r2 r3 B E g k j i, (2 <= nDim <= 3)%nat -> transported nDim first last r1 r2 r3 B E g ->
  act first last X3 k -> act first last X2 j -> act first last X1 i -> divB nDim r1 r2 r3 (fieldof g) k j i = divB nDim r1 r2 r3 B k j i.
Proof.
  intros nDim first last r1 r2 r3 B E g k j i N (T1 & T2 & T3) K J I. unfold divB, fieldof. cbn [f1 f2 f3]. unfold act in *.
  rewrite !T1, !T2 by (unfold act; lia). destruct (nDim =? 3)%nat eqn:D.
  - rewrite !(T3 (proj1 (Nat.eqb_eq _ _) D)) by (unfold act; lia). unfold curl1, curl2, curl3. rewrite D. ring.
  - unfold curl1, curl2. rewrite D. ring.
Qed.
Lemma start_agree : forall nDim oc of B b k j i, agree nDim oc of B b -> 
  f1 (Bstart nDim oc of B b) k j i = f1 B k j i /\ f2 (Bstart nDim oc of B b) k j i = f2 B k j i /\ (nDim = 3%nat -> f3 (Bstart nDim oc of B b) k j i = f3 B k j i).
Proof.
  intros nDim oc of B b k j i A. destruct (A k j i) as (A1 & A2 & A3). cbn [Bstart f1 f2 f3]. repeat split; [| |intros N].
  - destruct (taken oc X1 k j i) eqn:T; [|reflexivity]. symmetry. apply A1. unfold taken in T. lia.
  - destruct (taken oc X2 k j i) eqn:T; [|reflexivity]. symmetry. apply A2. unfold taken in T. lia.
  - destruct (taken oc X3 k j i) eqn:T; [|reflexivity]. symmetry. apply A3; [exact N|]. unfold taken in T. lia.
Qed.
Lemma div_start : forall nDim oc of r1 r2 r3 B b k j i, agree nDim oc of B b -> divB nDim r1 r2 r3 (Bstart nDim oc of B b) k j i = divB nDim r1 r2 r3 B k j i.
Proof.
  intros nDim oc of r1 r2 r3 B b k j i A. unfold divB.
  rewrite !(proj1 (start_agree nDim oc of B b _ _ _ A)), !(proj1 (proj2 (start_agree nDim oc of B b _ _ _ A))).
  destruct (nDim =? 3)%nat eqn:N; [|reflexivity]. apply Nat.eqb_eq in N. rewrite !(proj2 (proj2 (start_agree nDim oc of B b _ _ _ A)) N). reflexivity.
Qed.

(** *** C42: div B.  If the two fields agreed before the step, they agree after it, and the divergence of the coarse field
    has not changed in any cell of the parent Grid. *)
Theorem C42_divB : forall ng c root nDim pa gp ch gc oc of first last r1 r2 r3 fc ff E e B b g gf,
  aligned nDim pa gp ch gc -> cgrid ng c root nDim pa gp ch gc = Some oc -> pgrid ng c root nDim pa gp ch gc = Some of ->
  c_mhd c = true -> (2 <= nDim)%nat -> wide c nDim oc -> closed nDim first last oc -> facing oc -> within first last oc ->
  stored_emf nDim oc fc E -> stored_emf nDim of ff e ->
  transported nDim (o_s of) (o_e of) (2 * r1) (2 * r2) (2 * r3) b e gf ->
  transported nDim first last r1 r2 r3 B E g -> agree nDim oc of B b ->
  exists g', correct_RC c nDim oc last r1 r2 r3 fc g (pack_RC c nDim of gf ff) = Some (g', []) /\
    agree nDim oc of (fieldof g') (fieldof gf) /\
    forall k j i, act first last X3 k -> act first last X2 j -> act first last X1 i -> divB nDim r1 r2 r3 (fieldof g') k j i = divB nDim r1 r2 r3 B k j i.
Proof.
  intros ng c root nDim pa gp ch gc oc of first last r1 r2 r3 fc ff E e B b g gf A HC HP M TD W C F WI SC SF TF TC AG.
  pose proof (C72_paired _ _ _ _ _ _ _ _ _ _ A HC HP) as P. pose proof (pd_dim _ _ _ _ P) as ND.
  destruct (C42_ct ng c root nDim pa gp ch gc oc of first last r1 r2 r3 fc ff E e B b g gf A HC HP M TD W C F SC SF TF TC) as (g' & Q & T).
  exists g'. split; [exact Q|]. split.
  - pose proof (WI X1) as W1. pose proof (WI X2) as W2. pose proof (WI X3) as W3. clear WI.
    destruct (avgB_ct c nDim oc of r1 r2 r3 b e gf P TD TF) as (A1 & A2 & A3). destruct T as (T1 & T2 & T3).
    intros k j i. destruct (AG k j i) as (G1 & G2 & G3). destruct (start_agree nDim oc of B b k j i AG) as (S1 & S2 & S3). destruct (curl_on nDim oc of r1 r2 r3 E e k j i) as (L1 & L2 & L3).
    cbn [fieldof f1 f2 f3]. split; [|split; [|intros N]]; intros O.
    + pose proof O as O'. cbn [onface] in O'. unfold inb, btw in O'. rewrite T1 by (unfold act; lia). rewrite A1 by (unfold len; lia). rewrite S1, (G1 O), (L1 O). cbv zeta. reflexivity.
    + pose proof O as O'. cbn [onface] in O'. unfold inb, btw in O'. rewrite T2 by (unfold act; lia). rewrite A2 by (unfold len; lia). rewrite S2, (G2 O), (L2 O). cbv zeta. reflexivity.
    + pose proof O as O'. cbn [onface] in O'. unfold inb, btw in O'. rewrite (T3 N) by (unfold act; lia). rewrite (A3 N) by (unfold len; lia). rewrite (S3 N), (G3 N O), (L3 O). cbv zeta. reflexivity.
  - intros k j i K J I. rewrite (div_transported _ _ _ _ _ _ _ _ _ _ _ _ (conj TD (proj2 ND)) T K J I). apply div_start. exact AG.
Qed.
Print Assumptions C42_divB.

(** *** C42: the restricted field.  Where the coarse field is the mean of the fine one its divergence is the mean of the fine divergences. *)
Definition means_of (nDim : nat) (of : ovl) (q : Z -> Z -> Z -> R) (k j i : Z) : R :=
  mean (map (at3 q) (cells3 (cover nDim (o_s of X3) X3 k) (cover nDim (o_s of X2) X2 j) (cover nDim (o_s of X1) X1 i))).
Theorem C42_restricted_div : forall c nDim oc of r1 r2 r3 B b k j i, paired c nDim oc of -> (2 <= nDim)%nat -> agree nDim oc of B b -> inside oc k j i ->
  divB nDim r1 r2 r3 B k j i = means_of nDim of (divB nDim (2 * r1) (2 * r2) (2 * r3) b) (k - o_s oc X3) (j - o_s oc X2) (i - o_s oc X1).
Proof.
  intros c nDim oc of r1 r2 r3 B b k j i P TD A I. dims P.
  assert (S : forall a b, (a + 1 - b = a - b + 1)%Z) by (intros; lia).
  assert (O1 : onface oc X1 k j i = true) by (cbn [onface]; unfold inside, inb, btw in *; lia). assert (O2 : onface oc X1 k j (i + 1) = true) by (cbn [onface]; unfold inside, inb, btw in *; lia).
  assert (O3 : onface oc X2 k j i = true) by (cbn [onface]; unfold inside, inb, btw in *; lia). assert (O4 : onface oc X2 k (j + 1) i = true) by (cbn [onface]; unfold inside, inb, btw in *; lia).
  assert (O5 : onface oc X3 k j i = true) by (cbn [onface]; unfold inside, inb, btw in *; lia). assert (O6 : onface oc X3 (k + 1) j i = true) by (cbn [onface]; unfold inside, inb, btw in *; lia).
  apply A in O1, O2, O3, O4. unfold divB at 1. rewrite O1, O2, O3, O4, !S. unfold means_of.
  destruct (ratio_cases nDim D) as [(-> & R1 & R2 & R3)|[(-> & R1 & R2 & R3)|(-> & R1 & R2 & R3)]]; [lia| |].
  - cbn [Nat.eqb]. generalize (k - o_s oc X3)%Z, (j - o_s oc X2)%Z, (i - o_s oc X1)%Z. intros kk jj ii. unfold avgB1, avgB2. covers. means. unfold divB. cbn [Nat.eqb]. rewrite R1, R2.
    replace (o_s of X1 + 2 * (ii + 1))%Z with (o_s of X1 + 2 * ii + 1 + 1)%Z by lia. replace (o_s of X2 + 2 * (jj + 1))%Z with (o_s of X2 + 2 * jj + 1 + 1)%Z by lia. cbn. field.
  - cbn [Nat.eqb]. apply A in O5, O6; try reflexivity. rewrite O5, O6, !S. generalize (k - o_s oc X3)%Z, (j - o_s oc X2)%Z, (i - o_s oc X1)%Z. intros kk jj ii. unfold avgB1, avgB2, avgB3. covers. means. unfold divB. cbn [Nat.eqb]. rewrite R1, R2, R3.
    replace (o_s of X1 + 2 * (ii + 1))%Z with (o_s of X1 + 2 * ii + 1 + 1)%Z by lia. replace (o_s of X2 + 2 * (jj + 1))%Z with (o_s of X2 + 2 * jj + 1 + 1)%Z by lia. replace (o_s of X3 + 2 * (kk + 1))%Z with (o_s of X3 + 2 * kk + 1 + 1)%Z by lia. cbn. field.
Qed.
Print Assumptions C42_restricted_div.
Corollary C42_restricted_divfree : forall c nDim oc of r1 r2 r3 B b k j i, paired c nDim oc of -> (2 <= nDim)%nat -> agree nDim oc of B b -> inside oc k j i ->
  (forall k j i, inside of k j i -> divB nDim (2 * r1) (2 * r2) (2 * r3) b k j i = 0) -> divB nDim r1 r2 r3 B k j i = 0.
Proof.
  intros c nDim oc of r1 r2 r3 B b k j i P TD A I Z0. rewrite (C42_restricted_div c nDim oc of r1 r2 r3 B b k j i P TD A I). unfold means_of.
  dims P. unfold inside, len in *.
  destruct (ratio_cases nDim D) as [(-> & R1 & R2 & R3)|[(-> & R1 & R2 & R3)|(-> & R1 & R2 & R3)]]; [lia| |]; covers; means; rewrite !Z0 by lia; cbn; field.
Qed.
Print Assumptions C42_restricted_divfree.
