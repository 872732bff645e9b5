(** * Facts about Jacobi's iteration and the discrete Poisson equation *)
From Coq Require Import Reals ZArith List Bool Lra Lia Psatz.
From Verif Require Import MgModel MgSpec.
Import ListNotations.
Open Scope R_scope.

Lemma act_iff g k j i : act g k j i = true <-> active g k j i.
Proof. unfold act, inside, active. rewrite !andb_true_iff, !Z.leb_le. lia. Qed.
Lemma act_no g k j i : act g k j i = false <-> ~ active g k j i.
Proof. rewrite <- act_iff. destruct (act g k j i); split; intros; try congruence; try discriminate; try now contradict H. Qed.

(** The mean of the six neighbours, with the weights of the cell sizes. *)
Section Mean.
Variables w1 w2 w3 : R.
Hypothesis P1 : 0 < w1.
Hypothesis P2 : 0 < w2.
Hypothesis P3 : 0 < w3.
Definition nb (d : fld) (k j i : Z) : R :=
  w1 * (d k j (i + 1)%Z + d k j (i - 1)%Z) + w2 * (d k (j + 1)%Z i + d k (j - 1)%Z i) + w3 * (d (k + 1)%Z j i + d (k - 1)%Z j i).
Definition wsum := 2 * (w1 + w2 + w3).

(** At a maximum the neighbours have the same value. *)
Lemma nb_max d k j i M :
  wsum * M <= nb d k j i ->
  d k j (i + 1)%Z <= M -> d k j (i - 1)%Z <= M -> d k (j + 1)%Z i <= M -> d k (j - 1)%Z i <= M ->
  d (k + 1)%Z j i <= M -> d (k - 1)%Z j i <= M -> d k j (i + 1)%Z = M.
Proof.
  unfold nb, wsum. intros. apply Rle_antisym; [assumption|].
  apply Rnot_lt_le. intro L. nra.
Qed.
Lemma nb_le d k j i M :
  d k j (i + 1)%Z <= M -> d k j (i - 1)%Z <= M -> d k (j + 1)%Z i <= M -> d k (j - 1)%Z i <= M ->
  d (k + 1)%Z j i <= M -> d (k - 1)%Z j i <= M -> nb d k j i <= wsum * M.
Proof. unfold nb, wsum. intros. nra. Qed.
End Mean.

Lemma Rabs_le_inv x e : Rabs x <= e -> - e <= x <= e.
Proof. intro H. pose proof (Rle_abs x). pose proof (Rle_abs (- x)) as N. rewrite Rabs_Ropp in N. lra. Qed.

Lemma argmax {A} (f : A -> R) (l : list A) : l <> [] -> exists x, In x l /\ forall y, In y l -> f y <= f x.
Proof.
  induction l as [|a l IH]; [congruence|]. intros _. destruct l as [|b l].
  - exists a. split; [now left|]. intros y [->|[]]. lra.
  - destruct IH as (x & X & H); [discriminate|]. destruct (Rle_dec (f a) (f x)) as [L|L].
    + exists x. split; [now right|]. intros y [->|Y]; [exact L | now apply H].
    + exists a. split; [now left|]. intros y [->|Y]; [lra|]. specialize (H y Y). lra.
Qed.

Lemma in_cells lo hi x : In x (cells lo hi) <-> (lo <= x <= hi)%Z.
Proof.
  unfold cells. rewrite in_map_iff. split.
  - intros (n & <- & H). apply in_seq in H. lia.
  - intro H. exists (Z.to_nat (x - lo)). split; [lia|]. apply in_seq. lia.
Qed.

Section Grid.
Variable g : mgrid.
Hypothesis OK : mg_ok g.
Definition v1 := / (dx1 g * dx1 g).
Definition v2 := / (dx2 g * dx2 g).
Definition v3 := / (dx3 g * dx3 g).
Notation nbg := (nb v1 v2 v3).
Notation ws := (wsum v1 v2 v3).
Lemma v_pos : 0 < v1 /\ 0 < v2 /\ 0 < v3.
Proof. destruct OK. repeat split; apply Rinv_0_lt_compat; nra. Qed.

Lemma lap_nb p k j i : laplacian g p k j i = nbg p k j i - ws * p k j i.
Proof. unfold laplacian, nb, wsum, v1, v2, v3. destruct OK. field. lra. Qed.

Lemma ws_pos : 0 < ws.
Proof. destruct v_pos as (A & B & C). unfold wsum. lra. Qed.

Lemma jacobi3_nb p k j i : active g k j i -> jacobi3 g p k j i = (nbg p k j i - rhs g k j i) / ws.
Proof.
  intro A. unfold jacobi3. apply act_iff in A. rewrite A.
  pose proof ws_pos as W. unfold nb, wsum, v1, v2, v3 in *. f_equal; unfold Rdiv; ring.
Qed.
Lemma jacobi3_out p k j i : ~ active g k j i -> jacobi3 g p k j i = p k j i.
Proof. intro A. unfold jacobi3. apply act_no in A. now rewrite A. Qed.

Lemma jacobi3_diff s p k j i : solves g s -> active g k j i ->
  jacobi3 g p k j i - s k j i = nbg (fun k j i => p k j i - s k j i) k j i / ws.
Proof.
  intros S A. rewrite jacobi3_nb by exact A. specialize (S k j i A). rewrite lap_nb in S.
  pose proof ws_pos as W.
  replace (nbg (fun k j i => p k j i - s k j i) k j i) with (nbg p k j i - nbg s k j i) by (unfold nb; ring).
  rewrite <- S. field. lra.
Qed.

Lemma jacobi3_fixed p k j i : active g k j i ->
  jacobi3 g p k j i = p k j i <-> laplacian g p k j i = rhs g k j i.
Proof.
  intro A. rewrite jacobi3_nb by exact A. rewrite lap_nb. pose proof ws_pos as W. split; intro H.
  - assert (E : nbg p k j i - rhs g k j i = ws * p k j i) by (rewrite <- H; field; lra). lra.
  - replace (nbg p k j i - rhs g k j i) with (ws * p k j i) by lra. field. lra.
Qed.

Lemma Jacobi_iter p : Jacobi g p = Nat.iter 11 (jacobi3 g) p.
Proof.
  unfold Jacobi. destruct OK.
  assert ((1 <? Nx3 g)%Z = true) as -> by (apply Z.ltb_lt; lia).
  assert ((Nx3 g =? 1)%Z = false) as -> by (apply Z.eqb_neq; lia). reflexivity.
Qed.

Lemma iter_inv (P : fld -> Prop) : (forall p, P p -> P (jacobi3 g p)) -> forall n p, P p -> P (Nat.iter n (jacobi3 g) p).
Proof. intros H n p Hp. induction n as [|n IH]; [exact Hp|]. cbn [Nat.iter nat_rect]. now apply H. Qed.

Lemma Jacobi_solution p : solves g p -> forall k j i, Jacobi g p k j i = p k j i.
Proof.
  intro S. rewrite Jacobi_iter. apply (iter_inv (fun q => forall k j i, q k j i = p k j i)); [|reflexivity].
  intros q Hq k j i. destruct (act g k j i) eqn:A.
  - apply act_iff in A.
    assert (jacobi3 g q k j i - p k j i = 0); [|lra].
    rewrite (jacobi3_diff p q k j i S A). unfold nb. rewrite !Hq.
    pose proof ws_pos. field. lra.
  - apply act_no in A. rewrite jacobi3_out by exact A. apply Hq.
Qed.

(** ** Bounds that the iteration keeps *)
Lemma nbr_in k j i : active g k j i ->
  forall k' j' i', ((k' = k /\ j' = j /\ (i' = i + 1 \/ i' = i - 1)) \/ (k' = k /\ i' = i /\ (j' = j + 1 \/ j' = j - 1)) \/
                    (j' = j /\ i' = i /\ (k' = k + 1 \/ k' = k - 1)))%Z -> active g k' j' i' \/ edge g k' j' i'.
Proof.
  intros A k' j' i' H. destruct (act g k' j' i') eqn:B; [left; now apply act_iff|right].
  apply act_no in B. split; [|exact B]. unfold active in A. lia.
Qed.

Lemma all_le (P : Z -> Z -> Z -> Prop) k j i : active g k j i ->
  (forall k j i, active g k j i \/ edge g k j i -> P k j i) ->
  P k j (i + 1)%Z /\ P k j (i - 1)%Z /\ P k (j + 1)%Z i /\ P k (j - 1)%Z i /\ P (k + 1)%Z j i /\ P (k - 1)%Z j i.
Proof. intros A H. repeat split; apply H; apply (nbr_in k j i A); lia. Qed.

Lemma Jacobi_error s p E : solves g s -> 0 <= E ->
  (forall k j i, active g k j i -> Rabs (p k j i - s k j i) <= E) ->
  (forall k j i, edge g k j i -> p k j i = s k j i) ->
  (forall k j i, active g k j i -> Rabs (Jacobi g p k j i - s k j i) <= E) /\
  (forall k j i, ~ active g k j i -> Jacobi g p k j i = p k j i).
Proof.
  intros S HE HA HB. rewrite Jacobi_iter.
  assert (G : (forall k j i, active g k j i -> Rabs (Nat.iter 11 (jacobi3 g) p k j i - s k j i) <= E) /\
              (forall k j i, ~ active g k j i -> Nat.iter 11 (jacobi3 g) p k j i = p k j i)); [|exact G].
  apply (iter_inv (fun q => (forall k j i, active g k j i -> Rabs (q k j i - s k j i) <= E) /\
                            (forall k j i, ~ active g k j i -> q k j i = p k j i))); [|auto].
  intros q [Q1 Q2]. split; [|intros; rewrite jacobi3_out by assumption; auto].
  intros k j i A. rewrite (jacobi3_diff s q k j i S A).
  destruct v_pos as (V1 & V2 & V3). pose proof ws_pos as W.
  assert (B : forall k j i, active g k j i \/ edge g k j i -> Rabs (q k j i - s k j i) <= E).
  { intros a b c [X|X]; [auto|]. rewrite Q2 by apply X. rewrite HB by exact X.
    replace (s a b c - s a b c) with 0 by ring. rewrite Rabs_R0. exact HE. }
  set (d := fun k j i => q k j i - s k j i).
  assert (U : nbg d k j i <= ws * E).
  { destruct (all_le (fun k j i => d k j i <= E) k j i A) as (? & ? & ? & ? & ? & ?).
    { intros a b c X. specialize (B a b c X). unfold d. apply Rabs_le_inv in B. lra. }
    now apply nb_le. }
  assert (L : nbg (fun k j i => - d k j i) k j i <= ws * E).
  { destruct (all_le (fun k j i => - d k j i <= E) k j i A) as (? & ? & ? & ? & ? & ?).
    { intros a b c X. specialize (B a b c X). unfold d. apply Rabs_le_inv in B. lra. }
    now apply nb_le. }
  assert (N : nbg (fun k j i => - d k j i) k j i = - nbg d k j i) by (unfold nb; ring).
  rewrite N in L. unfold Rdiv.
  apply Rabs_le. split.
  - apply Rmult_le_reg_r with ws; [exact W|]. rewrite Rmult_assoc, Rinv_l by lra. lra.
  - apply Rmult_le_reg_r with ws; [exact W|]. rewrite Rmult_assoc, Rinv_l by lra. lra.
Qed.

(** ** The maximum principle *)
Lemma max_principle d M0 :
  (forall k j i, active g k j i -> 0 <= laplacian g d k j i) ->
  (forall k j i, edge g k j i -> d k j i <= M0) ->
  forall k j i, active g k j i ->
    d k j i <= M0 /\ ((forall k j i, edge g k j i -> d k j i < M0) -> d k j i < M0).
Proof.
  intros HL HE.
  set (l := list_prod (cells 1 (Nx3 g)) (list_prod (cells 1 (Nx2 g)) (cells 1 (Nx1 g)))).
  assert (In_l : forall k j i, In (k, (j, i)) l <-> active g k j i).
  { intros k j i. unfold l. rewrite !in_prod_iff, !in_cells. unfold active. tauto. }
  assert (NE : l <> []).
  { intro E. assert (X : In (1, (1, 1))%Z l) by (apply In_l; destruct OK; unfold active; lia). rewrite E in X. destruct X. }
  destruct (argmax (fun t => let '(k, (j, i)) := t in d k j i) l NE) as ((k0 & j0 & i0) & X & MAX).
  apply In_l in X. set (M := d k0 j0 i0) in *.
  assert (MX : forall k j i, active g k j i -> d k j i <= M).
  { intros k j i A. exact (MAX (k, (j, i)) (proj2 (In_l k j i) A)). }
  destruct v_pos as (V1 & V2 & V3).
  assert (WALK : (forall k j i, edge g k j i -> d k j i <= M) ->
     forall n : nat, (i0 + Z.of_nat n <= Nx1 g + 1)%Z -> d k0 j0 (i0 + Z.of_nat n)%Z = M).
  { intros HM. induction n as [|n IH]; intro Hn.
    - now rewrite Z.add_0_r.
    - assert (A : active g k0 j0 (i0 + Z.of_nat n)%Z) by (unfold active in *; lia).
      specialize (IH ltac:(lia)).
      replace (i0 + Z.of_nat (S n))%Z with (i0 + Z.of_nat n + 1)%Z by lia.
      destruct (all_le (fun k j i => d k j i <= M) _ _ _ A) as (B1 & B2 & B3 & B4 & B5 & B6).
      { intros a b c [Y|Y]; auto. }
      eapply (nb_max v1 v2 v3); eauto.
      specialize (HL _ _ _ A). rewrite lap_nb in HL. rewrite IH in HL. lra. }
  assert (TOP : (forall k j i, edge g k j i -> d k j i <= M) -> exists k j i, edge g k j i /\ d k j i = M).
  { intro HM. exists k0, j0, (Nx1 g + 1)%Z. split.
    - unfold active in X. split; [lia|]. unfold active. lia.
    - pose proof (WALK HM (Z.to_nat (Nx1 g + 1 - i0))) as E. unfold active in X.
      rewrite Z2Nat.id in E by lia. replace (i0 + (Nx1 g + 1 - i0))%Z with (Nx1 g + 1)%Z in E by lia. apply E. lia. }
  intros k j i A. specialize (MX k j i A). split.
  - apply Rnot_lt_le. intro N.
    destruct TOP as (a & b & c & Y & E); [intros a b c Y; specialize (HE a b c Y); lra|].
    specialize (HE a b c Y). lra.
  - intro HS. apply Rnot_le_lt. intro N.
    destruct TOP as (a & b & c & Y & E); [intros a b c Y; specialize (HE a b c Y); lra|].
    specialize (HS a b c Y). lra.
Qed.
End Grid.
