(** * Restriction and flux correction conserve (C42) *)
From Coq Require Import Reals ZArith Bool Arith Lia Lra ZifyBool List.
From Verif Require Import CStr MeshModel SmrModel SmrOverlap SmrFacts SmrProps SmrApply SmrPaired SmrRestrict SmrPlane.
From Verif Require IntegSpec IntegFacts.
Import IntegSpec (sumZ) IntegFacts.
Import ListNotations.
Open Scope Z_scope.
Local Open Scope R_scope.

(** ** Specification *)
(** The Grid's active cells are [first..last] along each axis, and a boundary of the overlap is corrected, or it is an
    edge of the Grid, or the overlap has no area there. *)
Definition closed (nDim : nat) (first last : vec) (oc : ovl) : Prop :=
  (forall a, (first a <= last a)%Z) /\
  forall a s, ratio nDim a = 2%Z -> some (o_flx oc a s) = true \/
    (if s then o_e oc a = last a else o_s oc a = first a) \/ exists b, b <> a /\ len oc b = 0%Z.
Definition act (first last : vec) (a : axis) (x : Z) : Prop := (first a <= x <= last a)%Z.
(** Fluxes through the faces and EMFs along the edges of a Grid. *)
Definition fluxes := axis -> Z -> Z -> Z -> var -> R.
Definition field := Z -> Z -> Z -> R.
(** What the integrators leave in myFlx: the fluxes through the boundary of the overlap. *)
Definition stored_flx (o : ovl) (f : flx) (F : fluxes) : Prop := forall s x y v,
  (some (o_flx o X1 s) = true -> 0 <= x < len o X3 -> 0 <= y < len o X2 -> f_flx f X1 s x y v = F X1 (o_s o X3 + x) (o_s o X2 + y) (bface o X1 s) v)%Z /\
  (some (o_flx o X2 s) = true -> 0 <= x < len o X3 -> 0 <= y < len o X1 -> f_flx f X2 s x y v = F X2 (o_s o X3 + x) (bface o X2 s) (o_s o X1 + y) v)%Z /\
  (some (o_flx o X3 s) = true -> 0 <= x < len o X2 -> 0 <= y < len o X1 -> f_flx f X3 s x y v = F X3 (bface o X3 s) (o_s o X2 + x) (o_s o X1 + y) v)%Z.
(** Outflow of a cell per unit r. *)
Definition dF (F : fluxes) (a : axis) (k j i : Z) (v : var) : R :=
  match a with
  | X1 => F X1 k j (i + 1)%Z v - F X1 k j i v
  | X2 => F X2 k (j + 1)%Z i v - F X2 k j i v
  | X3 => F X3 (k + 1)%Z j i v - F X3 k j i v
  end.
Definition out (nDim : nat) (r1 r2 r3 : R) (F : fluxes) (k j i : Z) (v : var) : R :=
  r1 * dF F X1 k j i v + (if (2 <=? nDim)%nat then r2 * dF F X2 k j i v else 0) + (if (3 <=? nDim)%nat then r3 * dF F X3 k j i v else 0).
(** The mean of the fine fluxes in a coarse face; indices count from the beginning of the overlap. *)
Definition avgflx (nDim : nat) (of : ovl) (f : fluxes) (a : axis) (k j i : Z) (v : var) : R :=
  match a with
  | X1 => avgB1 nDim of (fun k j i => f X1 k j i v) k j i
  | X2 => avgB2 nDim of (fun k j i => f X2 k j i v) k j i
  | X3 => avgB3 nDim of (fun k j i => f X3 k j i v) k j i
  end.
(** A face of the overlap. *)
Definition onface (oc : ovl) (a : axis) (k j i : Z) : bool :=
  match a with
  | X1 => inb oc X3 k && inb oc X2 j && btw (o_s oc X1) i (o_e oc X1 + 1)
  | X2 => inb oc X3 k && btw (o_s oc X2) j (o_e oc X2 + 1) && inb oc X1 i
  | X3 => btw (o_s oc X3) k (o_e oc X3 + 1) && inb oc X2 j && inb oc X1 i
  end.
(** The flux that counts: that of the fine Grid where there is one. *)
Definition Fstar (nDim : nat) (oc of : ovl) (F f : fluxes) : fluxes := fun a k j i v =>
  if onface oc a k j i then avgflx nDim of f a (k - o_s oc X3) (j - o_s oc X2) (i - o_s oc X1) v else F a k j i v.
(** The data before the step: the average of the fine Grid where there is one. *)
Definition Ustart (nDim : nat) (oc of : ovl) (U u : Z -> Z -> Z -> var -> R) (k j i : Z) (v : var) : R :=
  if in3 oc k j i then avgU nDim of (Gst u (fun _ _ _ => 0) (fun _ _ _ => 0) (fun _ _ _ => 0)) (k - o_s oc X3, j - o_s oc X2, i - o_s oc X1)%Z v else U k j i v.

(** ** Averages *)
Lemma ratio2 : forall nDim a, (1 <= nDim <= 3)%nat -> ratio nDim a = match a with X1 => 2 | X2 => if (2 <=? nDim)%nat then 2 else 1 | X3 => if (3 <=? nDim)%nat then 2 else 1 end%Z.
Proof. intros. unfold ratio. rewrite in_axes by assumption. destruct a; reflexivity. Qed.

Ltac covers := rewrite ?(cover2 _ _ X1), ?(cover2 _ _ X2), ?(cover2 _ _ X3), ?(cover1 _ _ X2), ?(cover1 _ _ X3) by assumption.
Ltac means := unfold mean; cbn [map cells3 cells2 flat_map app fold_right length at3 fst snd].

Lemma inside_avg : forall c nDim oc of gf u f r1 r2 r3 kk jj ii v, paired c nDim oc of ->
  (forall k j i, inside of k j i -> gU gf k j i v = u k j i v - out nDim (2 * r1) (2 * r2) (2 * r3) f k j i v) ->
  (0 <= kk < len oc X3)%Z -> (0 <= jj < len oc X2)%Z -> (0 <= ii < len oc X1)%Z ->
  avgU nDim of gf (kk, jj, ii) v = avgU nDim of (Gst u (fun _ _ _ => 0) (fun _ _ _ => 0) (fun _ _ _ => 0)) (kk, jj, ii) v -
     (r1 * (avgflx nDim of f X1 kk jj (ii + 1) v - avgflx nDim of f X1 kk jj ii v) +
      (if (2 <=? nDim)%nat then r2 * (avgflx nDim of f X2 kk (jj + 1) ii v - avgflx nDim of f X2 kk jj ii v) else 0) +
      (if (3 <=? nDim)%nat then r3 * (avgflx nDim of f X3 (kk + 1) jj ii v - avgflx nDim of f X3 kk jj ii v) else 0)).
Proof.
  intros c nDim oc of gf u f r1 r2 r3 kk jj ii v P H K J I. dims P.
  destruct (ratio_cases nDim D) as [(-> & R1 & R2 & R3)|[(-> & R1 & R2 & R3)|(-> & R1 & R2 & R3)]]; rewrite R1, R2, R3 in *.
  - unfold avgU, avgflx, avgB1, avgB2, avgB3. covers. means. cbn [gU]. unfold len in *.
    rewrite !H by (unfold inside; lia). unfold out, dF. cbn [Nat.leb]. rewrite R1.
    replace (o_s of X1 + 2 * (ii + 1))%Z with (o_s of X1 + 2 * ii + 1 + 1)%Z by lia. cbn. field.
  - unfold avgU, avgflx, avgB1, avgB2, avgB3. covers. means. cbn [gU]. unfold len in *.
    rewrite !H by (unfold inside; lia). unfold out, dF. cbn [Nat.leb]. rewrite R1, R2.
    replace (o_s of X1 + 2 * (ii + 1))%Z with (o_s of X1 + 2 * ii + 1 + 1)%Z by lia. replace (o_s of X2 + 2 * (jj + 1))%Z with (o_s of X2 + 2 * jj + 1 + 1)%Z by lia. cbn. field.
  - unfold avgU, avgflx, avgB1, avgB2, avgB3. covers. means. cbn [gU]. unfold len in *.
    rewrite !H by (unfold inside; lia). unfold out, dF. cbn [Nat.leb]. rewrite R1, R2, R3.
    replace (o_s of X1 + 2 * (ii + 1))%Z with (o_s of X1 + 2 * ii + 1 + 1)%Z by lia. replace (o_s of X2 + 2 * (jj + 1))%Z with (o_s of X2 + 2 * jj + 1 + 1)%Z by lia. replace (o_s of X3 + 2 * (kk + 1))%Z with (o_s of X3 + 2 * kk + 1 + 1)%Z by lia. cbn. field.
Qed.

(** The stored fluxes give the means in the boundary faces. *)
Lemma stored_avg : forall c nDim oc of ff f s x y v, paired c nDim oc of -> stored_flx of ff f ->
  (some (o_flx oc X1 s) = true -> 0 <= x < len oc X3 -> 0 <= y < len oc X2 -> avgF nDim X3 X2 (f_flx ff X1 s) (x, y) v = avgflx nDim of f X1 x y (bface oc X1 s - o_s oc X1) v)%Z /\
  (some (o_flx oc X2 s) = true -> 0 <= x < len oc X3 -> 0 <= y < len oc X1 -> avgF nDim X3 X1 (f_flx ff X2 s) (x, y) v = avgflx nDim of f X2 x (bface oc X2 s - o_s oc X2) y v)%Z /\
  (some (o_flx oc X3 s) = true -> 0 <= x < len oc X2 -> 0 <= y < len oc X1 -> avgF nDim X2 X1 (f_flx ff X3 s) (x, y) v = avgflx nDim of f X3 (bface oc X3 s - o_s oc X3) x y v)%Z.
Proof.
  intros c nDim oc of ff f s x y v P ST. dims P.
  pose proof (some_flags oc of X1 s (pd_flags _ _ _ _ P)) as G1. pose proof (some_flags oc of X2 s (pd_flags _ _ _ _ P)) as G2. pose proof (some_flags oc of X3 s (pd_flags _ _ _ _ P)) as G3.
  pose proof (pd_flx _ _ _ _ P X1 s) as Z1. pose proof (pd_flx _ _ _ _ P X2 s) as Z2. pose proof (pd_flx _ _ _ _ P X3 s) as Z3.
  assert (BF : forall a, (bface of a s = o_s of a + ratio nDim a * (bface oc a s - o_s oc a))%Z).
  { intros a. destruct (pd_len _ _ _ _ P a) as [LA _]. unfold bface, len in *. destruct s; lia. }
  pose proof (BF X1) as B1. pose proof (BF X2) as B2. pose proof (BF X3) as B3.
  rewrite <- G1, <- G2, <- G3. clear P N1 N2 N3 F1 F2 F3 BF.
  destruct (ratio_cases nDim D) as [(-> & R1 & R2 & R3)|[(-> & R1 & R2 & R3)|(-> & R1 & R2 & R3)]]; rewrite R1, R2, R3 in *;
  (split; [|split]); intros Q X Y;
  try (rewrite G2, Z2 in Q by reflexivity; discriminate); try (rewrite G3, Z3 in Q by reflexivity; discriminate); clear Z1 Z2 Z3 G1 G2 G3;
  unfold avgF, avgflx, avgB1, avgB2, avgB3; covers; means; rewrite ?R1, ?R2, ?R3, <- ?B1, <- ?B2, <- ?B3; clear B1 B2 B3 R1 R2 R3 D;
  repeat (match goal with
    | |- f_flx ff X1 _ _ _ _ = f _ _ _ _ _ => etransitivity; [apply (proj1 (ST _ _ _ _)); [assumption|clear - X L3; lia|clear - Y L2; lia]|f_equal; clear; lia]
    | |- f_flx ff X2 _ _ _ _ = f _ _ _ _ _ => etransitivity; [apply (proj1 (proj2 (ST _ _ _ _))); [assumption|clear - X L3; lia|clear - Y L1; lia]|f_equal; clear; lia]
    | |- f_flx ff X3 _ _ _ _ = f _ _ _ _ _ => etransitivity; [apply (proj2 (proj2 (ST _ _ _ _))); [assumption|clear - X L2; lia|clear - Y L1; lia]|f_equal; clear; lia]
    | |- _ => f_equal end).
Qed.

(** ** Conservation *)
Lemma line : forall s e fi la (f0 f1 : bool) (r x y : R) i, (0 <= e - s + 1)%Z -> (fi <= i <= la)%Z -> (f0 = true \/ s = fi) -> (f1 = true \/ e = la) ->
  btw s i e = false ->
  r * (ind (btw s (i + 1) (e + 1)) y - ind (btw s i (e + 1)) x) = ind (f0 && (i =? s - 1)%Z) (r * y) - ind (f1 && (i =? e + 1)%Z) (r * x).
Proof.
  intros s e fi la f0 f1 r x y i L I H0 H1 NB. unfold btw in *.
  destruct (i =? s - 1)%Z eqn:Q.
  - replace ((s <=? i + 1) && (i + 1 <=? e + 1))%Z with true by lia. replace ((s <=? i) && (i <=? e + 1))%Z with false by lia. replace (i =? e + 1)%Z with false by lia.
    assert (f0 = true) as -> by lia. rewrite andb_false_r. cbn [ind andb]. lra.
  - rewrite andb_false_r. destruct (i =? e + 1)%Z eqn:Q2.
    + replace ((s <=? i + 1) && (i + 1 <=? e + 1))%Z with false by lia. replace ((s <=? i) && (i <=? e + 1))%Z with true by lia.
      assert (f1 = true) as -> by lia. cbn [ind andb]. lra.
    + replace ((s <=? i + 1) && (i + 1 <=? e + 1))%Z with false by lia. replace ((s <=? i) && (i <=? e + 1))%Z with false by lia. rewrite andb_false_r. cbn [ind]. lra.
Qed.
Lemma closed_side : forall nDim first last oc a, closed nDim first last oc -> ratio nDim a = 2%Z -> (forall b, b <> a -> len oc b <> 0%Z) ->
  (some (o_flx oc a false) = true \/ o_s oc a = first a) /\ (some (o_flx oc a true) = true \/ o_e oc a = last a).
Proof.
  intros nDim first last oc a [_ C] R2 NZ. split.
  - destruct (C a false R2) as [H|[H|(b & NE & H)]]; [left; exact H|right; exact H|]. exfalso. exact (NZ b NE H).
  - destruct (C a true R2) as [H|[H|(b & NE & H)]]; [left; exact H|right; exact H|]. exfalso. exact (NZ b NE H).
Qed.
Lemma Fstar_eq : forall nDim oc of F f a k j i v, Fstar nDim oc of F f a k j i v =
  F a k j i v - ind (onface oc a k j i) (F a k j i v - avgflx nDim of f a (k - o_s oc X3) (j - o_s oc X2) (i - o_s oc X1) v).
Proof. intros. unfold Fstar. destruct (onface oc a k j i); cbn [ind]; lra. Qed.

Lemma cor1_star : forall c nDim oc of first last r fc ff F f k j i v, paired c nDim oc of -> closed nDim first last oc -> stored_flx oc fc F -> stored_flx of ff f ->
  In v (vars c) -> act first last X1 i -> in3 oc k j i = false ->
  cor1 c nDim oc r fc ff false k j i v + cor1 c nDim oc r fc ff true k j i v = - (r * (dF (Fstar nDim oc of F f) X1 k j i v - dF F X1 k j i v)).
Proof.
  intros c nDim oc of first last r fc ff F f k j i v P C SC SF V A NI. unfold cor1, corrected. apply in_vars_spec in V. rewrite V, !andb_true_r.
  unfold dF. rewrite !Fstar_eq. unfold in3 in NI. cbn [onface] in *.
  destruct (inb oc X3 k && inb oc X2 j) eqn:B.
  2:{ rewrite !andb_false_r. cbn [andb ind]. lra. }
  cbn [andb] in *. rewrite !andb_true_r.
  pose proof (pd_len _ _ _ _ P X1) as [_ N1].
  assert (R2 : ratio nDim X1 = 2%Z) by (rewrite ratio2 by apply (pd_dim _ _ _ _ P); reflexivity).
  destruct (closed_side nDim first last oc X1 C R2) as [H0 H1]. { intros [] NE; try congruence; unfold inb, len in *; lia. }
  pose proof (line (o_s oc X1) (o_e oc X1) (first X1) (last X1) (some (o_flx oc X1 false)) (some (o_flx oc X1 true)) r) as LN.
  match goal with |- _ = - (r * (?p - ind ?c1 ?y - (?q - ind ?c2 ?x) - (?p - ?q))) => specialize (LN x y i N1 A H0 H1 NI); replace (- (r * (p - ind c1 y - (q - ind c2 x) - (p - q)))) with (r * (ind c1 y - ind c2 x)) by ring end.
  rewrite LN. clear LN. rewrite <- Rminus_0_r with (r := ind _ _ - ind _ _) at 1. rewrite Rminus_0_r. unfold Rminus at 3. f_equal.
  - cbn [side]. destruct (some (o_flx oc X1 false)) eqn:FL; [|reflexivity]. cbn [andb]. destruct (i =? o_s oc X1 - 1)%Z eqn:Q; [|reflexivity]. cbn [ind].
    rewrite (proj1 (SC false _ _ v)) by (try exact FL; unfold inb, len in *; lia). rewrite (proj1 (stored_avg c nDim oc of ff f false _ _ v P SF)) by (try exact FL; unfold inb, len in *; lia).
    cbn [sgn bface]. replace (o_s oc X3 + (k - o_s oc X3))%Z with k by lia. replace (o_s oc X2 + (j - o_s oc X2))%Z with j by lia. replace (i + 1)%Z with (o_s oc X1) by lia. ring.
  - cbn [side]. destruct (some (o_flx oc X1 true)) eqn:FL; [|cbn; ring]. cbn [andb]. destruct (i =? o_e oc X1 + 1)%Z eqn:Q; [|cbn; ring]. cbn [ind].
    rewrite (proj1 (SC true _ _ v)) by (try exact FL; unfold inb, len in *; lia). rewrite (proj1 (stored_avg c nDim oc of ff f true _ _ v P SF)) by (try exact FL; unfold inb, len in *; lia).
    cbn [sgn bface]. replace (o_s oc X3 + (k - o_s oc X3))%Z with k by lia. replace (o_s oc X2 + (j - o_s oc X2))%Z with j by lia. replace i with (o_e oc X1 + 1)%Z by lia. ring.
Qed.
Lemma perm2 : forall a b c, a && b && c = a && c && b. Proof. intros [] [] []; reflexivity. Qed.
Lemma perm3 : forall a b c, a && b && c = b && c && a. Proof. intros [] [] []; reflexivity. Qed.
Lemma cor2_star : forall c nDim oc of first last r fc ff F f k j i v, paired c nDim oc of -> closed nDim first last oc -> stored_flx oc fc F -> stored_flx of ff f ->
  In v (vars c) -> (2 <= nDim)%nat -> act first last X2 j -> in3 oc k j i = false ->
  cor2 c nDim oc r fc ff false k j i v + cor2 c nDim oc r fc ff true k j i v = - (r * (dF (Fstar nDim oc of F f) X2 k j i v - dF F X2 k j i v)).
Proof.
  intros c nDim oc of first last r fc ff F f k j i v P C SC SF V ND A NI. unfold cor2, corrected. apply in_vars_spec in V. rewrite V, !andb_true_r.
  unfold dF. rewrite !Fstar_eq. unfold in3 in NI. cbn [onface] in *.
  rewrite !(perm2 _ (btw _ _ _)). rewrite (perm2 (inb oc X3 k)) in NI. destruct (inb oc X3 k && inb oc X1 i) eqn:B.
  2:{ rewrite !andb_false_r. cbn [andb ind]. lra. }
  cbn [andb] in *. rewrite !andb_true_r.
  pose proof (pd_len _ _ _ _ P X2) as [_ N1].
  assert (R2 : ratio nDim X2 = 2%Z) by (rewrite ratio2 by apply (pd_dim _ _ _ _ P); replace (2 <=? nDim)%nat with true by lia; reflexivity).
  destruct (closed_side nDim first last oc X2 C R2) as [H0 H1]. { intros [] NE; try congruence; unfold inb, len in *; lia. }
  pose proof (line (o_s oc X2) (o_e oc X2) (first X2) (last X2) (some (o_flx oc X2 false)) (some (o_flx oc X2 true)) r) as LN.
  match goal with |- _ = - (r * (?p - ind ?c1 ?y - (?q - ind ?c2 ?x) - (?p - ?q))) => specialize (LN x y j N1 A H0 H1 NI); replace (- (r * (p - ind c1 y - (q - ind c2 x) - (p - q)))) with (r * (ind c1 y - ind c2 x)) by ring end.
  rewrite LN. clear LN. rewrite <- Rminus_0_r with (r := ind _ _ - ind _ _) at 1. rewrite Rminus_0_r. unfold Rminus at 3. f_equal.
  - cbn [side]. destruct (some (o_flx oc X2 false)) eqn:FL; [|reflexivity]. cbn [andb]. destruct (j =? o_s oc X2 - 1)%Z eqn:Q; [|reflexivity]. cbn [ind].
    rewrite (proj1 (proj2 (SC false _ _ v))) by (try exact FL; unfold inb, len in *; lia). rewrite (proj1 (proj2 (stored_avg c nDim oc of ff f false _ _ v P SF))) by (try exact FL; unfold inb, len in *; lia).
    cbn [sgn bface]. replace (o_s oc X3 + (k - o_s oc X3))%Z with k by lia. replace (o_s oc X1 + (i - o_s oc X1))%Z with i by lia. replace (j + 1)%Z with (o_s oc X2) by lia. ring.
  - cbn [side]. destruct (some (o_flx oc X2 true)) eqn:FL; [|cbn; ring]. cbn [andb]. destruct (j =? o_e oc X2 + 1)%Z eqn:Q; [|cbn; ring]. cbn [ind].
    rewrite (proj1 (proj2 (SC true _ _ v))) by (try exact FL; unfold inb, len in *; lia). rewrite (proj1 (proj2 (stored_avg c nDim oc of ff f true _ _ v P SF))) by (try exact FL; unfold inb, len in *; lia).
    cbn [sgn bface]. replace (o_s oc X3 + (k - o_s oc X3))%Z with k by lia. replace (o_s oc X1 + (i - o_s oc X1))%Z with i by lia. replace j with (o_e oc X2 + 1)%Z by lia. ring.
Qed.
Lemma cor3_star : forall c nDim oc of first last r fc ff F f k j i v, paired c nDim oc of -> closed nDim first last oc -> stored_flx oc fc F -> stored_flx of ff f ->
  In v (vars c) -> (3 <= nDim)%nat -> act first last X3 k -> in3 oc k j i = false ->
  cor3 c nDim oc r fc ff false k j i v + cor3 c nDim oc r fc ff true k j i v = - (r * (dF (Fstar nDim oc of F f) X3 k j i v - dF F X3 k j i v)).
Proof.
  intros c nDim oc of first last r fc ff F f k j i v P C SC SF V ND A NI. unfold cor3, corrected. apply in_vars_spec in V. rewrite V, !andb_true_r.
  unfold dF. rewrite !Fstar_eq. unfold in3 in NI. cbn [onface] in *.
  rewrite !(perm3 (btw _ _ _)). rewrite perm3 in NI. destruct (inb oc X2 j && inb oc X1 i) eqn:B.
  2:{ rewrite !andb_false_r. cbn [andb ind]. lra. }
  cbn [andb] in *. rewrite !andb_true_r.
  pose proof (pd_len _ _ _ _ P X3) as [_ N1].
  assert (R2 : ratio nDim X3 = 2%Z) by (rewrite ratio2 by apply (pd_dim _ _ _ _ P); replace (3 <=? nDim)%nat with true by lia; reflexivity).
  destruct (closed_side nDim first last oc X3 C R2) as [H0 H1]. { intros [] NE; try congruence; unfold inb, len in *; lia. }
  pose proof (line (o_s oc X3) (o_e oc X3) (first X3) (last X3) (some (o_flx oc X3 false)) (some (o_flx oc X3 true)) r) as LN.
  match goal with |- _ = - (r * (?p - ind ?c1 ?y - (?q - ind ?c2 ?x) - (?p - ?q))) => specialize (LN x y k N1 A H0 H1 NI); replace (- (r * (p - ind c1 y - (q - ind c2 x) - (p - q)))) with (r * (ind c1 y - ind c2 x)) by ring end.
  rewrite LN. clear LN. rewrite <- Rminus_0_r with (r := ind _ _ - ind _ _) at 1. rewrite Rminus_0_r. unfold Rminus at 3. f_equal.
  - cbn [side]. destruct (some (o_flx oc X3 false)) eqn:FL; [|reflexivity]. cbn [andb]. destruct (k =? o_s oc X3 - 1)%Z eqn:Q; [|reflexivity]. cbn [ind].
    rewrite (proj2 (proj2 (SC false _ _ v))) by (try exact FL; unfold inb, len in *; lia). rewrite (proj2 (proj2 (stored_avg c nDim oc of ff f false _ _ v P SF))) by (try exact FL; unfold inb, len in *; lia).
    cbn [sgn bface]. replace (o_s oc X1 + (i - o_s oc X1))%Z with i by lia. replace (o_s oc X2 + (j - o_s oc X2))%Z with j by lia. replace (k + 1)%Z with (o_s oc X3) by lia. ring.
  - cbn [side]. destruct (some (o_flx oc X3 true)) eqn:FL; [|cbn; ring]. cbn [andb]. destruct (k =? o_e oc X3 + 1)%Z eqn:Q; [|cbn; ring]. cbn [ind].
    rewrite (proj2 (proj2 (SC true _ _ v))) by (try exact FL; unfold inb, len in *; lia). rewrite (proj2 (proj2 (stored_avg c nDim oc of ff f true _ _ v P SF))) by (try exact FL; unfold inb, len in *; lia).
    cbn [sgn bface]. replace (o_s oc X1 + (i - o_s oc X1))%Z with i by lia. replace (o_s oc X2 + (j - o_s oc X2))%Z with j by lia. replace k with (o_e oc X3 + 1)%Z by lia. ring.
Qed.

(** The variables that are updated by fluxes (with MHD in two and three dimensions not the field components evolved by EMFs). *)
Definition by_flux (c : cfg) (nDim : nat) (v : var) : Prop :=
  In v (vars c) /\ match v with VB1 | VB2 => nDim = 1%nat | VB3 => nDim <> 3%nat | _ => True end.
(** A step of a Grid: the data are [U] minus the outflow. *)
Definition advanced (c : cfg) (nDim : nat) (r1 r2 r3 : R) (U : Z -> Z -> Z -> var -> R) (F : fluxes) (g : gst) (k j i : Z) : Prop :=
  forall v, by_flux c nDim v -> gU g k j i v = U k j i v - out nDim r1 r2 r3 F k j i v.

Lemma newU_star : forall c nDim oc of first last r1 r2 r3 fc ff F f U u g gf k j i v, paired c nDim oc of -> closed nDim first last oc ->
  stored_flx oc fc F -> stored_flx of ff f -> by_flux c nDim v ->
  (forall k j i, inside of k j i -> advanced c nDim (2 * r1) (2 * r2) (2 * r3) u f gf k j i) ->
  act first last X3 k -> act first last X2 j -> act first last X1 i -> advanced c nDim r1 r2 r3 U F g k j i ->
  newU c nDim oc of r1 r2 r3 fc ff g gf k j i v = Ustart nDim oc of U u k j i v - out nDim r1 r2 r3 (Fstar nDim oc of F f) k j i v.
Proof.
  intros c nDim oc of first last r1 r2 r3 fc ff F f U u g gf k j i v P C SC SF V AF AK AJ AI AC. unfold newU, Ustart. pose proof (proj1 V) as V1.
  pose proof (proj2 (in_vars_spec c v) V1) as ->. rewrite andb_true_r.
  destruct (in3 oc k j i) eqn:IN.
  - rewrite cor_inside by (apply in3_inside; exact IN). apply in3_inside in IN. destruct IN as (IK & IJ & II).
    rewrite (inside_avg c nDim oc of gf u f r1 r2 r3 _ _ _ v P) by (try (unfold len; lia); intros; apply AF; assumption).
    rewrite Rplus_0_r. unfold Rminus. f_equal. f_equal. unfold out, dF, Fstar. cbn [onface].
    replace (inb oc X3 k) with true by (unfold inb; lia). replace (inb oc X2 j) with true by (unfold inb; lia). replace (inb oc X1 i) with true by (unfold inb; lia).
    replace (btw (o_s oc X1) i (o_e oc X1 + 1)) with true by (unfold btw; lia). replace (btw (o_s oc X1) (i + 1) (o_e oc X1 + 1)) with true by (unfold btw; lia).
    replace (btw (o_s oc X2) j (o_e oc X2 + 1)) with true by (unfold btw; lia). replace (btw (o_s oc X2) (j + 1) (o_e oc X2 + 1)) with true by (unfold btw; lia).
    replace (btw (o_s oc X3) k (o_e oc X3 + 1)) with true by (unfold btw; lia). replace (btw (o_s oc X3) (k + 1) (o_e oc X3 + 1)) with true by (unfold btw; lia).
    cbn [andb]. replace (i + 1 - o_s oc X1)%Z with (i - o_s oc X1 + 1)%Z by lia. replace (j + 1 - o_s oc X2)%Z with (j - o_s oc X2 + 1)%Z by lia. replace (k + 1 - o_s oc X3)%Z with (k - o_s oc X3 + 1)%Z by lia. reflexivity.
  - rewrite (AC v V). unfold cor.
    assert (C2 : cor2 c nDim oc r2 fc ff false k j i v + cor2 c nDim oc r2 fc ff true k j i v = if (2 <=? nDim)%nat then - (r2 * (dF (Fstar nDim oc of F f) X2 k j i v - dF F X2 k j i v)) else 0).
    { destruct (2 <=? nDim)%nat eqn:Q; [apply (cor2_star c nDim oc of first last); try assumption; lia|].
      unfold cor2, corrected. rewrite !(pd_flx _ _ _ _ P X2) by (rewrite ratio2 by apply (pd_dim _ _ _ _ P); rewrite Q; reflexivity). cbn [some andb ind]. lra. }
    assert (C3 : cor3 c nDim oc r3 fc ff false k j i v + cor3 c nDim oc r3 fc ff true k j i v = if (3 <=? nDim)%nat then - (r3 * (dF (Fstar nDim oc of F f) X3 k j i v - dF F X3 k j i v)) else 0).
    { destruct (3 <=? nDim)%nat eqn:Q; [apply (cor3_star c nDim oc of first last); try assumption; lia|].
      unfold cor3, corrected. rewrite !(pd_flx _ _ _ _ P X3) by (rewrite ratio2 by apply (pd_dim _ _ _ _ P); rewrite Q; reflexivity). cbn [some andb ind]. lra. }
    pose proof (cor1_star c nDim oc of first last r1 fc ff F f k j i v P C SC SF V1 AI IN) as C1.
    unfold out. clear - C1 C2 C3. set (d1 := dF (Fstar nDim oc of F f) X1 k j i v) in *. set (d2 := dF (Fstar nDim oc of F f) X2 k j i v) in *. set (d3 := dF (Fstar nDim oc of F f) X3 k j i v) in *. 
    set (e1 := dF F X1 k j i v) in *. set (e2 := dF F X2 k j i v) in *. set (e3 := dF F X3 k j i v) in *. clearbody d1 d2 d3 e1 e2 e3.
    destruct (2 <=? nDim)%nat, (3 <=? nDim)%nat; lra.
Qed.

(** *** C42: restriction, the volume integrals and conservation.  After a step of both Grids with the fluxes [F] and [f], with
    time steps over cell sizes r and 2r, the parent Grid is advanced by the fluxes of the fine Grid where there is one. *)
Theorem C42_conserve : forall ng c root nDim pa gp ch gc oc of first last r1 r2 r3 fc ff F f U u g gf,
  aligned nDim pa gp ch gc -> cgrid ng c root nDim pa gp ch gc = Some oc -> pgrid ng c root nDim pa gp ch gc = Some of ->
  wide c nDim oc -> closed nDim first last oc -> stored_flx oc fc F -> stored_flx of ff f ->
  (forall k j i, inside of k j i -> advanced c nDim (2 * r1) (2 * r2) (2 * r3) u f gf k j i) ->
  (forall k j i, act first last X3 k -> act first last X2 j -> act first last X1 i -> advanced c nDim r1 r2 r3 U F g k j i) ->
  exists g', correct_RC c nDim oc last r1 r2 r3 fc g (pack_RC c nDim of gf ff) = Some (g', []) /\
    (forall k j i, act first last X3 k -> act first last X2 j -> act first last X1 i ->
       advanced c nDim r1 r2 r3 (Ustart nDim oc of U u) (Fstar nDim oc of F f) g' k j i).
Proof.
  intros ng c root nDim pa gp ch gc oc of first last r1 r2 r3 fc ff F f U u g gf A HC HP W C SC SF AF AC.
  pose proof (C72_paired _ _ _ _ _ _ _ _ _ _ A HC HP) as P.
  assert (M : c_mhd c = true /\ (2 <= nDim)%nat \/ (c_mhd c = false \/ nDim = 1%nat)) by (pose proof (proj1 A); destruct (c_mhd c); [|auto]; assert (2 <= nDim \/ nDim = 1)%nat by lia; tauto).
  destruct M as [[M ND]|M].
  - destruct (correct_mhd c nDim oc of last r1 r2 r3 fc g gf ff P W M ND) as (g' & E & H & _). exists g'. split; [exact E|].
    intros k j i AK AJ AI v V. rewrite H by apply V. apply (newU_star c nDim oc of first last); try assumption. apply AC; assumption.
  - destruct (correct_hyd c nDim oc of last r1 r2 r3 fc g gf ff P M) as (g' & E & H & _). exists g'. split; [exact E|].
    intros k j i AK AJ AI v V. rewrite H. apply (newU_star c nDim oc of first last); try assumption. apply AC; assumption.
Qed.
Print Assumptions C42_conserve.

Definition total (first last : vec) (q : Z -> Z -> Z -> R) : R :=
  sumZ (first X3) (last X3) (fun k => sumZ (first X2) (last X2) (fun j => sumZ (first X1) (last X1) (fun i => q k j i))).
(** Net outflow through the boundary of the Grid. *)
Definition net (nDim : nat) (first last : vec) (r1 r2 r3 : R) (F : fluxes) (v : var) : R :=
  r1 * sumZ (first X3) (last X3) (fun k => sumZ (first X2) (last X2) (fun j => F X1 k j (last X1 + 1)%Z v - F X1 k j (first X1) v)) +
  (if (2 <=? nDim)%nat then r2 * sumZ (first X3) (last X3) (fun k => sumZ (first X1) (last X1) (fun i => F X2 k (last X2 + 1)%Z i v - F X2 k (first X2) i v)) else 0) +
  (if (3 <=? nDim)%nat then r3 * sumZ (first X2) (last X2) (fun j => sumZ (first X1) (last X1) (fun i => F X3 (last X3 + 1)%Z j i v - F X3 (first X3) j i v)) else 0).
Lemma total_out : forall nDim first last r1 r2 r3 F v, (forall a, (first a <= last a)%Z) ->
  total first last (fun k j i => out nDim r1 r2 r3 F k j i v) = net nDim first last r1 r2 r3 F v.
Proof.
  intros nDim first last r1 r2 r3 F v L. unfold total, net, out.
  assert (T1 : sumZ (first X3) (last X3) (fun k => sumZ (first X2) (last X2) (fun j => sumZ (first X1) (last X1) (fun i => dF F X1 k j i v))) =
    sumZ (first X3) (last X3) (fun k => sumZ (first X2) (last X2) (fun j => F X1 k j (last X1 + 1)%Z v - F X1 k j (first X1) v))).
  { apply sumZ_ext. intros k _. apply sumZ_ext. intros j _. unfold dF. apply (sumZ_tele _ _ (fun i => F X1 k j i v)). specialize (L X1). lia. }
  assert (T2 : sumZ (first X3) (last X3) (fun k => sumZ (first X2) (last X2) (fun j => sumZ (first X1) (last X1) (fun i => dF F X2 k j i v))) =
    sumZ (first X3) (last X3) (fun k => sumZ (first X1) (last X1) (fun i => F X2 k (last X2 + 1)%Z i v - F X2 k (first X2) i v))).
  { apply sumZ_ext. intros k _. rewrite sumZ_swap. apply sumZ_ext. intros i _. unfold dF. apply (sumZ_tele _ _ (fun j => F X2 k j i v)). specialize (L X2). lia. }
  assert (T3 : sumZ (first X3) (last X3) (fun k => sumZ (first X2) (last X2) (fun j => sumZ (first X1) (last X1) (fun i => dF F X3 k j i v))) =
    sumZ (first X2) (last X2) (fun j => sumZ (first X1) (last X1) (fun i => F X3 (last X3 + 1)%Z j i v - F X3 (first X3) j i v))).
  { rewrite sumZ_swap. apply sumZ_ext. intros j _. rewrite sumZ_swap. apply sumZ_ext. intros i _. unfold dF. apply (sumZ_tele _ _ (fun k => F X3 k j i v)). specialize (L X3). lia. }
  rewrite <- T1, <- T2, <- T3. clear T1 T2 T3.
  assert (S : forall (a b c : Z -> Z -> Z -> R), 
    sumZ (first X3) (last X3) (fun k => sumZ (first X2) (last X2) (fun j => sumZ (first X1) (last X1) (fun i => a k j i + b k j i + c k j i))) =
    sumZ (first X3) (last X3) (fun k => sumZ (first X2) (last X2) (fun j => sumZ (first X1) (last X1) (fun i => a k j i))) +
    sumZ (first X3) (last X3) (fun k => sumZ (first X2) (last X2) (fun j => sumZ (first X1) (last X1) (fun i => b k j i))) +
    sumZ (first X3) (last X3) (fun k => sumZ (first X2) (last X2) (fun j => sumZ (first X1) (last X1) (fun i => c k j i)))).
  { intros a b c. rewrite <- !sumZ_plus. apply sumZ_ext. intros k _. rewrite <- !sumZ_plus. apply sumZ_ext. intros j _. rewrite <- !sumZ_plus. reflexivity. }
  assert (Q : forall x (a : Z -> Z -> Z -> R), sumZ (first X3) (last X3) (fun k => sumZ (first X2) (last X2) (fun j => sumZ (first X1) (last X1) (fun i => x * a k j i))) =
    x * sumZ (first X3) (last X3) (fun k => sumZ (first X2) (last X2) (fun j => sumZ (first X1) (last X1) (fun i => a k j i)))).
  { intros x a. rewrite <- sumZ_scal. apply sumZ_ext. intros k _. rewrite <- sumZ_scal. apply sumZ_ext. intros j _. rewrite <- sumZ_scal. reflexivity. }
  assert (Zr : sumZ (first X3) (last X3) (fun k => sumZ (first X2) (last X2) (fun j => sumZ (first X1) (last X1) (fun i => 0))) = 0).
  { transitivity (sumZ (first X3) (last X3) (fun _ => 0)); [|apply sumZ_zero]. apply sumZ_ext. intros k _. transitivity (sumZ (first X2) (last X2) (fun _ => 0)); [|apply sumZ_zero]. apply sumZ_ext. intros j _. apply sumZ_zero. }
  rewrite S, Q. f_equal; [f_equal|].
  - destruct (2 <=? nDim)%nat; [apply Q|apply Zr].
  - destruct (3 <=? nDim)%nat; [apply Q|apply Zr].
Qed.
(** *** C42: the total over the Grid changes only by the fluxes through its boundary, the fine fluxes where there are any. *)
Theorem C42_total : forall ng c root nDim pa gp ch gc oc of first last r1 r2 r3 fc ff F f U u g gf,
  aligned nDim pa gp ch gc -> cgrid ng c root nDim pa gp ch gc = Some oc -> pgrid ng c root nDim pa gp ch gc = Some of ->
  wide c nDim oc -> closed nDim first last oc -> stored_flx oc fc F -> stored_flx of ff f ->
  (forall k j i, inside of k j i -> advanced c nDim (2 * r1) (2 * r2) (2 * r3) u f gf k j i) ->
  (forall k j i, act first last X3 k -> act first last X2 j -> act first last X1 i -> advanced c nDim r1 r2 r3 U F g k j i) ->
  exists g', correct_RC c nDim oc last r1 r2 r3 fc g (pack_RC c nDim of gf ff) = Some (g', []) /\
    forall v, by_flux c nDim v -> total first last (fun k j i => gU g' k j i v) =
      total first last (fun k j i => Ustart nDim oc of U u k j i v) - net nDim first last r1 r2 r3 (Fstar nDim oc of F f) v.
Proof.
  intros ng c root nDim pa gp ch gc oc of first last r1 r2 r3 fc ff F f U u g gf A HC HP W C SC SF AF AC.
  destruct (C42_conserve ng c root nDim pa gp ch gc oc of first last r1 r2 r3 fc ff F f U u g gf A HC HP W C SC SF AF AC) as (g' & E & H).
  exists g'. split; [exact E|]. intros v V. rewrite <- total_out by apply C. unfold total.
  rewrite <- sumZ_minus. apply sumZ_ext. intros k K. rewrite <- sumZ_minus. apply sumZ_ext. intros j J. rewrite <- sumZ_minus. apply sumZ_ext. intros i I.
  apply (H k j i K J I v V).
Qed.
Print Assumptions C42_total.
