(** Loops of array assignments.  A nest of C for-loops over assignments
    [A[t] = f(A[s])] or [A[t] = const] is represented by the list of its assignments in
    program order; [run] executes them one after the other on an array (a total function
    from the indices [k][j][i]). *)
From Coq Require Import ZArith List Bool Lia.
Import ListNotations.
Open Scope Z_scope.

Definition idx : Type := (Z * Z * Z)%type.
Definition idx_eqb (a b : idx) : bool :=
  match a, b with (k, j, i), (k', j', i') => (k =? k') && (j =? j') && (i =? i') end.
Definition arr (V : Type) := idx -> V.
Definition set {V} (A : arr V) (c : idx) (v : V) : arr V := fun c' => if idx_eqb c c' then v else A c'.
Inductive rhs (V : Type) := Const (v : V) | Copy (s : idx) (f : V -> V).
Arguments Const {V} v.
Arguments Copy {V} s f.
Definition asg (V : Type) : Type := (idx * rhs V)%type.
Definition eval {V} (A : arr V) (r : rhs V) : V := match r with Const v => v | Copy s f => f (A s) end.
Definition exec {V} (A : arr V) (a : asg V) : arr V := set A (fst a) (eval A (snd a)).
Definition run {V} (L : list (asg V)) (A : arr V) : arr V := fold_left exec L A.

(** for (x=lo; x<=hi; x++) body *)
Definition zrange (lo hi : Z) : list Z := map (fun k => lo + Z.of_nat k) (seq 0 (Z.to_nat (hi - lo + 1))).
Definition for_ {B} (lo hi : Z) (body : Z -> list B) : list B := flat_map body (zrange lo hi).

Lemma in_zrange : forall lo hi x, In x (zrange lo hi) <-> lo <= x <= hi.
Proof.
  intros. unfold zrange. rewrite in_map_iff. split.
  - intros (k & E & I). apply in_seq in I. lia.
  - intros H. exists (Z.to_nat (x - lo)). split; [lia|]. apply in_seq. lia.
Qed.
Lemma in_for : forall B lo hi (body : Z -> list B) a, In a (for_ lo hi body) <-> exists x, lo <= x <= hi /\ In a (body x).
Proof.
  intros. unfold for_. rewrite in_flat_map. split; intros (x & I & J); exists x; rewrite in_zrange in *; auto.
Qed.
Lemma idx_eqb_spec : forall a b, reflect (a = b) (idx_eqb a b).
Proof.
  intros [[k j] i] [[k' j'] i']. cbn [idx_eqb].
  destruct (Z.eqb_spec k k'), (Z.eqb_spec j j'), (Z.eqb_spec i i'); cbn [andb]; constructor; congruence.
Qed.
Lemma set_same : forall V (A : arr V) c v, set A c v c = v.
Proof. intros. unfold set. destruct (idx_eqb_spec c c); congruence. Qed.
Lemma set_other : forall V (A : arr V) c v c', c <> c' -> set A c v c' = A c'.
Proof. intros. unfold set. destruct (idx_eqb_spec c c'); congruence. Qed.

Definition sources_safe {V} (L : list (asg V)) : Prop :=
  forall a b s f, In a L -> In b L -> snd a = Copy s f -> fst b <> s.
Lemma eval_ext : forall V (A B : arr V) r, (forall s f, r = Copy s f -> A s = B s) -> eval A r = eval B r.
Proof. intros V A B [v|s f] H; cbn; auto. rewrite (H s f); auto. Qed.
(** A cell no assignment writes keeps its value. *)
Lemma run_miss : forall V (L : list (asg V)) A c, (forall a, In a L -> fst a <> c) -> run L A c = A c.
Proof.
  intros V. induction L as [|a L IH]; intros A c H; [reflexivity|]. cbn [run fold_left]. fold (run L (exec A a)).
  rewrite IH by (intros; apply H; right; auto). unfold exec. apply set_other. apply H. left. auto.
Qed.
(** A written cell has the value of the assignment, taken from the initial array, if no
    assignment reads a written cell and assignments to one cell agree. *)
Lemma run_hit : forall V (L : list (asg V)) A a, sources_safe L ->
  (forall b c, In b L -> In c L -> fst b = fst c -> eval A (snd b) = eval A (snd c)) ->
  In a L -> run L A (fst a) = eval A (snd a).
Proof.
  intros V. induction L as [|m M IHM]; intros B x S F I; [contradiction|]. cbn [run fold_left]. fold (run M (exec B m)).
  assert (E : forall c, In c (m :: M) -> eval (exec B m) (snd c) = eval B (snd c)).
  { intros c C. apply eval_ext. intros s f E. unfold exec. apply set_other. apply (S c m s f); auto. left. auto. }
  destruct (existsb (fun c => idx_eqb (fst c) (fst x)) M) eqn:X.
  - apply existsb_exists in X. destruct X as (c & C & EC). destruct (idx_eqb_spec (fst c) (fst x)) as [Q|]; [|discriminate].
    rewrite <- Q. rewrite IHM; auto.
    + rewrite E by (right; auto). apply F; auto. right. auto.
    + intros p q s f P0 Q0. apply S; right; auto.
    + intros p q P0 Q0 PQ. rewrite !E by (right; auto). apply F; auto; right; auto.
  - assert (N : forall c, In c M -> fst c <> fst x).
    { intros c C Q. assert (existsb (fun c => idx_eqb (fst c) (fst x)) M = true); [|congruence]. apply existsb_exists. exists c. split; auto. destruct (idx_eqb_spec (fst c) (fst x)); auto. }
    rewrite run_miss by auto. destruct I as [->|I]; [unfold exec; apply set_same|]. exfalso. apply (N x I). reflexivity.
Qed.
