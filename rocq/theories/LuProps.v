(** C50: LU decomposition with partial pivoting solves every nonsingular system, and InverseMatrix
    inverts every nonsingular matrix. *)
From Coq Require Import Arith List Bool Reals Lia Lra.
From Verif Require Import CStr GasModel ConvProps LuModel.
Open Scope R_scope.

(** * Specification *)

Fixpoint rsum (f : nat -> R) (n : nat) : R := match n with O => 0 | S m => rsum f m + f m end.
(** (A x)_i = b_i for i < n *)
Definition solves (n : nat) (A : mat) (x b : vec) : Prop := forall i, (i < n)%nat -> rsum (fun c => A i c * x c) n = b i.
(** A has trivial kernel. *)
Definition nonsingular (n : nat) (A : mat) : Prop :=
  forall x, solves n A x (fun _ => 0) -> forall i, (i < n)%nat -> x i = 0.
Definition delta (i j : nat) : R := if (i =? j)%nat then 1 else 0.

(** * Sums and loops *)

Lemma rsum_ext : forall f g n, (forall k, (k < n)%nat -> f k = g k) -> rsum f n = rsum g n.
Proof. induction n as [|n IH]; intros H; cbn [rsum]; [reflexivity|]. rewrite IH by (intros; apply H; lia). rewrite H by lia. reflexivity. Qed.
Lemma rsum_trunc : forall f m n, (m <= n)%nat -> (forall k, (m <= k < n)%nat -> f k = 0) -> rsum f n = rsum f m.
Proof.
  intros f m n H. induction H as [|n H IH]; intros Z; [reflexivity|]. cbn [rsum]. rewrite Z by lia. rewrite IH by (intros; apply Z; lia). ring.
Qed.
Lemma rsum_0 : forall f n, (forall k, (k < n)%nat -> f k = 0) -> rsum f n = 0.
Proof. intros. rewrite (rsum_trunc f 0 n); [reflexivity|lia|intros; apply H; lia]. Qed.
Lemma rsum_plus : forall f g n, rsum (fun k => f k + g k) n = rsum f n + rsum g n.
Proof. induction n as [|n IH]; cbn [rsum]; [ring|]. rewrite IH. ring. Qed.
Lemma rsum_scal : forall c f n, rsum (fun k => c * f k) n = c * rsum f n.
Proof. induction n as [|n IH]; cbn [rsum]; [ring|]. rewrite IH. ring. Qed.
Lemma rsum_exch : forall f m n, rsum (fun i => rsum (fun j => f i j) n) m = rsum (fun j => rsum (fun i => f i j) m) n.
Proof.
  intros f m n. induction m as [|m IH]; cbn [rsum]; [symmetry; apply rsum_0; auto|]. rewrite IH. symmetry. apply rsum_plus.
Qed.
Lemma rsum_shift : forall f lo n, rsum (fun t => f (lo + t)%nat) n = rsum f (lo + n) - rsum f lo.
Proof.
  intros. induction n as [|n IH]; cbn [rsum]; [rewrite Nat.add_0_r; ring|]. rewrite Nat.add_succ_r. cbn [rsum]. rewrite IH. ring.
Qed.
Lemma for_n_end : forall S (body : nat -> S -> S) n i st, for_n i (Datatypes.S n) body st = body (i + n)%nat (for_n i n body st).
Proof.
  intros S body. induction n as [|n IH]; intros i st; [cbn; f_equal; lia|].
  change (for_n (Datatypes.S i) (Datatypes.S n) body (body i st) = body (i + Datatypes.S n)%nat (for_n (Datatypes.S i) n body (body i st))).
  rewrite IH. f_equal. lia.
Qed.
Lemma for_n_inv : forall S (P : nat -> S -> Prop) body i n st, P i st ->
  (forall x s, (i <= x < i + n)%nat -> P x s -> P (Datatypes.S x) (body x s)) -> P (i + n)%nat (for_n i n body st).
Proof.
  intros S P body i n. induction n as [|n IH]; intros st H0 HS; [rewrite Nat.add_0_r; exact H0|].
  rewrite for_n_end, Nat.add_succ_r. apply HS; [lia|]. apply IH; auto. intros; apply HS; auto; lia.
Qed.
Lemma minus_dot_eq : forall a i b lo n s, minus_dot a i b lo n s = s - rsum (fun t => a i (lo + t)%nat * b (lo + t)%nat) n.
Proof.
  intros. unfold minus_dot. induction n as [|n IH]; [cbn; ring|]. rewrite for_n_end, IH. cbn [rsum]. ring.
Qed.
Lemma mset_same : forall a i j v, mset a i j v i j = v.
Proof. intros. unfold mset. rewrite !Nat.eqb_refl. reflexivity. Qed.
Lemma mset_other : forall a i j v r c, (r <> i \/ c <> j) -> mset a i j v r c = a r c.
Proof. intros. unfold mset. destruct (Nat.eqb_spec r i), (Nat.eqb_spec c j); cbn; auto; lia. Qed.
Lemma vset_same : forall V (b : nat -> V) i v, vset b i v i = v.
Proof. intros. unfold vset. rewrite Nat.eqb_refl. reflexivity. Qed.
Lemma vset_other : forall V (b : nat -> V) i v r, r <> i -> vset b i v r = b r.
Proof. intros. unfold vset. destruct (Nat.eqb_spec r i); auto; lia. Qed.

(** * Triangular factors held in one array *)

Definition Lm (a : mat) (r k : nat) : R := if (k <? r)%nat then a r k else if (k =? r)%nat then 1 else 0.
Definition Um (a : mat) (k c : nat) : R := if (k <=? c)%nat then a k c else 0.
Lemma rsum_L : forall a r g n, (r < n)%nat -> rsum (fun k => Lm a r k * g k) n = rsum (fun k => a r k * g k) r + g r.
Proof.
  intros a r g n H. rewrite (rsum_trunc _ (S r) n); [|lia|].
  - cbn [rsum]. f_equal; [apply rsum_ext; intros k Hk; unfold Lm; destruct (Nat.ltb_spec k r); auto; lia|].
    unfold Lm. rewrite Nat.ltb_irrefl, Nat.eqb_refl. ring.
  - intros k Hk. unfold Lm. destruct (Nat.ltb_spec k r), (Nat.eqb_spec k r); try lia. ring.
Qed.
Lemma rsum_U : forall a r x n, (r < n)%nat ->
  rsum (fun c => Um a r c * x c) n = a r r * x r + rsum (fun t => a r (S r + t)%nat * x (S r + t)%nat) (n - S r).
Proof.
  intros a r x n H. rewrite (rsum_shift (fun c => a r c * x c) (S r) (n - S r)).
  replace (S r + (n - S r))%nat with n by lia.
  assert (G : forall m, rsum (fun c => Um a r c * x c) m = if (m <=? r)%nat then 0 else rsum (fun c => a r c * x c) m - rsum (fun c => a r c * x c) r).
  { induction m as [|m IH]; [reflexivity|]. cbn [rsum]. rewrite IH. unfold Um.
    destruct (Nat.leb_spec m r), (Nat.leb_spec (S m) r), (Nat.leb_spec r m); try lia; try ring.
    assert (m = r) as -> by lia. ring. }
  rewrite G. destruct (Nat.leb_spec n r); [lia|]. cbn [rsum]. ring.
Qed.

(** * Back substitution *)

Lemma bwd_ok : forall a n y m b, (forall i, (i < n)%nat -> a i i <> 0) -> (m <= n)%nat ->
  (forall i, (i < m)%nat -> b i = y i) ->
  (forall i, (m <= i < n)%nat -> rsum (fun c => Um a i c * b c) n = y i) ->
  forall i, (i < n)%nat -> rsum (fun c => Um a i c * bwd a n m b c) n = y i.
Proof.
  intros a n y m. induction m as [|m IH]; intros b Hd Hm H1 H2 i Hi; cbn [bwd]; [apply H2; lia|].
  apply IH; auto; try lia.
  - intros k Hk. rewrite vset_other by lia. apply H1. lia.
  - intros k Hk. destruct (Nat.eq_dec k m) as [->|N].
    + rewrite rsum_U by lia. rewrite vset_same, minus_dot_eq. rewrite (H1 m) by lia.
      rewrite (rsum_ext (fun t => a m (S m + t)%nat * vset b m _ (S m + t)%nat) (fun t => a m (S m + t)%nat * b (S m + t)%nat))
        by (intros; rewrite vset_other by lia; reflexivity).
      field. apply Hd. lia.
    + rewrite <- (H2 k) by lia. apply rsum_ext. intros c Hc. unfold Um. destruct (Nat.leb_spec k c); [|ring].
      rewrite vset_other by lia. reflexivity.
Qed.
Lemma bwd_solves : forall a n y, (forall i, (i < n)%nat -> a i i <> 0) ->
  forall i, (i < n)%nat -> rsum (fun c => Um a i c * bwd a n n y c) n = y i.
Proof. intros a n y Hd. apply bwd_ok; auto; intros; lia. Qed.

(** * Row permutations *)

Definition sw (j m r : nat) : nat := if (r =? j)%nat then m else if (r =? m)%nat then j else r.
Fixpoint perm (indx : nat -> nat) (j r : nat) : nat := match j with O => r | S j' => perm indx j' (sw j' (indx j') r) end.
Lemma sw_sw : forall j m r, sw j m (sw j m r) = r.
Proof. intros. unfold sw. destruct (Nat.eqb_spec r j); [destruct (Nat.eqb_spec m j); try congruence; rewrite Nat.eqb_refl; congruence|].
  destruct (Nat.eqb_spec r m); [rewrite Nat.eqb_refl; congruence|]. destruct (Nat.eqb_spec r j), (Nat.eqb_spec r m); congruence. Qed.
Lemma sw_bound : forall j m r n, (j < n)%nat -> (m < n)%nat -> (r < n)%nat -> (sw j m r < n)%nat.
Proof. intros. unfold sw. destruct (r =? j)%nat, (r =? m)%nat; auto. Qed.
Lemma sw_low : forall j m r, (r < j)%nat -> (j <= m)%nat -> sw j m r = r.
Proof. intros. unfold sw. destruct (Nat.eqb_spec r j), (Nat.eqb_spec r m); auto; lia. Qed.
Lemma sw_high : forall j m r, (j <= r)%nat -> (j <= m)%nat -> (j <= sw j m r)%nat.
Proof. intros. unfold sw. destruct (Nat.eqb_spec r j), (Nat.eqb_spec r m); auto; lia. Qed.
Lemma perm_bound : forall indx n j r, (j <= n)%nat -> (forall k, (k < j)%nat -> (k <= indx k < n)%nat) -> (r < n)%nat -> (perm indx j r < n)%nat.
Proof.
  intros indx n j. induction j as [|j IH]; intros r Hj H Hr; cbn [perm]; auto. pose proof (H j). apply IH; try lia; [intros; apply H; lia|].
  apply sw_bound; lia.
Qed.
Lemma perm_onto : forall indx n j r, (j <= n)%nat -> (forall k, (k < j)%nat -> (k <= indx k < n)%nat) -> (r < n)%nat ->
  exists i, (i < n)%nat /\ perm indx j i = r.
Proof.
  intros indx n j. induction j as [|j IH]; intros r Hj H Hr; [exists r; auto|].
  destruct (IH r) as (i & Hi & E); try lia; [intros; apply H; lia|]. exists (sw j (indx j) i). pose proof (H j). split; [apply sw_bound; lia|].
  cbn [perm]. rewrite sw_sw. exact E.
Qed.
Lemma perm_ext : forall f g j r, (forall k, (k < j)%nat -> f k = g k) -> perm f j r = perm g j r.
Proof. intros f g j. induction j as [|j IH]; intros r H; cbn [perm]; [reflexivity|]. rewrite (H j) by lia. apply IH. intros; apply H; lia. Qed.

(** * One column of the decomposition *)

Lemma upper_ok : forall j a, (forall r c, (c <> j \/ j <= r)%nat -> upper_block j a r c = a r c) /\
  (forall r, (r < j)%nat -> upper_block j a r j = a r j - rsum (fun k => a r k * upper_block j a k j) r).
Proof.
  intros j a. unfold upper_block.
  pose proof (for_n_inv mat (fun i a' => (forall r c, (c <> j \/ i <= r)%nat -> a' r c = a r c) /\
     (forall r, (r < i)%nat -> (r < j)%nat -> a' r j = a r j - rsum (fun k => a r k * a' k j) r))
     (fun i a => mset a i j (minus_dot a i (fun k => a k j) 0 i (a i j))) 0 j a) as T.
  cbn [Nat.add] in T. destruct T as [T1 T2]; [split; auto; intros; lia| |split; [exact T1|intros; apply T2; auto]].
  intros i s Hi [I1 I2]. split.
  - intros r c Hrc. rewrite mset_other by lia. apply I1. lia.
  - intros r Hr Hrj. destruct (Nat.eq_dec r i) as [->|N].
    + rewrite mset_same, minus_dot_eq. cbn [Nat.add]. rewrite I1 by lia. f_equal. apply rsum_ext. intros k Hk.
      rewrite mset_other by lia. rewrite (I1 i k) by lia. reflexivity.
    + rewrite mset_other by lia. rewrite I2 by lia. f_equal. apply rsum_ext. intros k Hk. rewrite mset_other by lia. reflexivity.
Qed.
Lemma lower_ok : forall n j rs a imax a' big imax', (j < n)%nat -> (forall r, (r < n)%nat -> 0 < rs r) ->
  lower_block n j rs a imax = (a', big, imax') ->
  (forall r c, (c <> j \/ r < j \/ n <= r)%nat -> a' r c = a r c) /\
  (forall r, (j <= r < n)%nat -> a' r j = a r j - rsum (fun k => a r k * a k j) j) /\
  (j <= imax' < n)%nat /\ (a' imax' j = 0 -> forall r, (j <= r < n)%nat -> a' r j = 0).
Proof.
  intros n j rs a imax a' big imax' Hj Hrs E. unfold lower_block in E.
  set (body := fun (i : nat) '(a, big, imax) => _) in E.
  set (P := fun (i : nat) (st : mat * R * nat) => let '(a', big, imax) := st in
     (forall r c, (c <> j \/ r < j \/ i <= r)%nat -> a' r c = a r c) /\
     (forall r, (j <= r < i)%nat -> a' r j = a r j - rsum (fun k => a r k * a k j) j) /\
     (i = j -> big = 0) /\ 0 <= big /\ ((j < i)%nat -> (j <= imax < i)%nat /\ big = rs imax * Rabs (a' imax j)) /\
     (forall r, (j <= r < i)%nat -> rs r * Rabs (a' r j) <= big)).
  assert (T : P (j + (n - j))%nat (for_n j (n - j) body (a, 0, imax))).
  { apply for_n_inv.
    - unfold P. repeat split; auto; try lra; intros; lia.
    - intros i [[s b] im] Hi (I1 & I2 & I3 & I4 & I5 & I6). unfold body.
      set (v := minus_dot s i (fun k => s k j) 0 j (s i j)).
      assert (Ev : v = a i j - rsum (fun k => a i k * a k j) j).
      { unfold v. rewrite minus_dot_eq. cbn [Nat.add]. rewrite I1 by lia. f_equal. apply rsum_ext. intros k Hk. rewrite !I1 by lia. reflexivity. }
      assert (J1 : forall r c, (c <> j \/ r < j \/ S i <= r)%nat -> mset s i j v r c = a r c)
        by (intros r c Hrc; rewrite mset_other by lia; apply I1; lia).
      assert (J2 : forall r, (j <= r < S i)%nat -> mset s i j v r j = a r j - rsum (fun k => a r k * a k j) j).
      { intros r Hr. destruct (Nat.eq_dec r i) as [->|N]; [rewrite mset_same; exact Ev|]. rewrite mset_other by lia. apply I2. lia. }
      assert (J3 : 0 <= rs i * Rabs v) by (apply Rmult_le_pos; [left; apply Hrs; lia|apply Rabs_pos]).
      destruct (Rle_dec b (rs i * Rabs v)) as [L|L]; unfold P; repeat split; auto; try lra; try lia.
      + rewrite mset_same. reflexivity.
      + intros r Hr. destruct (Nat.eq_dec r i) as [->|N]; [rewrite mset_same; lra|]. rewrite mset_other by lia.
        specialize (I6 r ltac:(lia)). lra.
      + destruct (Nat.eq_dec i j) as [->|]; [specialize (I3 eq_refl); lra|]. apply I5. lia.
      + destruct (Nat.eq_dec i j) as [->|]; [specialize (I3 eq_refl); lra|]. destruct I5; lia.
      + destruct (Nat.eq_dec i j) as [->|]; [specialize (I3 eq_refl); lra|]. destruct I5 as [I5 I5']; [lia|].
        rewrite mset_other by lia. exact I5'.
      + intros r Hr. destruct (Nat.eq_dec r i) as [->|N]; [rewrite mset_same; lra|]. rewrite mset_other by lia. apply I6. lia. }
  rewrite E in T. replace (j + (n - j))%nat with n in T by lia. destruct T as (T1 & T2 & T3 & T4 & T5 & T6).
  destruct T5 as [T5 T5']; [lia|]. repeat split; auto; try lia.
  intros Z r Hr. specialize (T6 r Hr). rewrite T5', Z, Rabs_R0, Rmult_0_r in T6.
  destruct (Req_dec (a' r j) 0) as [|N]; auto. pose proof (Rabs_pos_lt _ N). specialize (Hrs r ltac:(lia)).
  pose proof (Rmult_lt_0_compat _ _ Hrs H). lra.
Qed.
Lemma swap_ok : forall n j m a r c, swap_rows n j m a r c = if (c <? n)%nat then a (sw j m r) c else a r c.
Proof.
  intros n j m a. unfold swap_rows.
  pose proof (for_n_inv mat (fun i a' => forall r c, a' r c = if (c <? i)%nat then a (sw j m r) c else a r c)
    (fun k a => mset (mset a m k (a j k)) j k (a m k)) 0 n a) as T. cbn [Nat.add] in T. apply T; [reflexivity|].
  intros i s Hi I r c. unfold mset. rewrite !I. rewrite Nat.ltb_irrefl.
  destruct (Nat.eqb_spec c i) as [->|N].
  - rewrite andb_true_r. destruct (Nat.ltb_spec i (S i)); [|lia]. unfold sw. rewrite andb_true_r.
    destruct (Nat.eqb_spec r j); [reflexivity|]. destruct (Nat.eqb_spec r m); [reflexivity|]. rewrite Nat.ltb_irrefl. reflexivity.
  - rewrite !andb_false_r. destruct (Nat.ltb_spec c i), (Nat.ltb_spec c (S i)); auto; lia.
Qed.
Lemma scale_ok : forall n j a, (forall r c, (c <> j \/ r <= j \/ n <= r)%nat -> scale_col n j a r c = a r c) /\
  (forall r, (j < r < n)%nat -> scale_col n j a r j = a r j * (1 / a j j)).
Proof.
  intros n j a. unfold scale_col. set (dum := 1 / a j j). destruct (le_lt_dec n j) as [L|L].
  - replace (n - S j)%nat with O by lia. cbn [for_n]. split; intros; auto; lia.
  - pose proof (for_n_inv mat (fun i a' => (forall r c, (c <> j \/ r <= j \/ i <= r)%nat -> a' r c = a r c) /\
       (forall r, (j < r < i)%nat -> a' r j = a r j * dum)) (fun i a => mset a i j (a i j * dum)) (S j) (n - S j) a) as T.
    replace (S j + (n - S j))%nat with n in T by lia. apply T; [split; auto; intros; lia|].
    intros i s Hi [I1 I2]. split.
    + intros r c Hrc. rewrite mset_other by lia. apply I1. lia.
    + intros r Hr. destruct (Nat.eq_dec r i) as [->|N]; [rewrite mset_same, I1 by lia; reflexivity|]. rewrite mset_other by lia. apply I2. lia.
Qed.

(** Invariant: the first j columns are factored, the others hold the permuted matrix. *)
Definition lu_inv (n : nat) (A : mat) (j : nat) (s : lu) : Prop :=
  (forall k, (k < j)%nat -> (k <= l_indx s k < n)%nat) /\
  (forall r, (r < n)%nat -> 0 < l_scale s r) /\
  (forall r c, (r < n)%nat -> (c < j)%nat ->
     A (perm (l_indx s) j r) c = rsum (fun k => Lm (l_a s) r k * Um (l_a s) k c) n) /\
  (forall r c, (r < n)%nat -> (j <= c < n)%nat -> A (perm (l_indx s) j r) c = l_a s r c) /\
  (forall c, (c < j)%nat -> l_a s c c <> 0) /\
  (l_d s = 1 \/ l_d s = -1).

(** A zero pivot column makes the matrix singular. *)
Lemma pivot_nonzero : forall n A s j a1, nonsingular n A -> (j < n)%nat -> lu_inv n A j s ->
  (forall r, (r < j)%nat -> a1 r j = l_a s r j - rsum (fun k => l_a s r k * a1 k j) r) ->
  (forall r, (j <= r < n)%nat -> a1 r j = l_a s r j - rsum (fun k => l_a s r k * a1 k j) j) ->
  ~ (forall r, (j <= r < n)%nat -> a1 r j = 0).
Proof.
  intros n A s j a1 HA Hj (J1 & J2 & J3 & J4 & J5 & J6) H1 H2 HZ.
  set (a := l_a s) in *. set (u := fun k => a1 k j). set (y := bwd a j j u).
  assert (Y : forall k, (k < j)%nat -> rsum (fun c => Um a k c * y c) j = u k) by (intros; apply bwd_solves; auto).
  set (v := fun c => if (c <? j)%nat then y c else if (c =? j)%nat then -1 else 0).
  assert (V : solves n A v (fun _ => 0)).
  { intros i Hi. destruct (perm_onto (l_indx s) n j i) as (r & Hr & <-); auto; [lia|].
    rewrite (rsum_trunc _ (S j) n); [|lia|].
    2:{ intros k Hk. unfold v. destruct (Nat.ltb_spec k j), (Nat.eqb_spec k j); try lia. ring. }
    cbn [rsum]. replace (v j) with (-1) by (unfold v; rewrite Nat.ltb_irrefl, Nat.eqb_refl; reflexivity).
    rewrite (rsum_ext _ (fun c => rsum (fun k => Lm a r k * (Um a k c * y c)) n)).
    2:{ intros c Hc. rewrite J3 by lia. unfold v. destruct (Nat.ltb_spec c j); [|lia].
        rewrite Rmult_comm, <- rsum_scal. apply rsum_ext. intros; ring. }
    rewrite rsum_exch.
    rewrite (rsum_ext _ (fun k => Lm a r k * (if (k <? j)%nat then u k else 0))).
    2:{ intros k Hk. rewrite rsum_scal. destruct (Nat.ltb_spec k j); [rewrite Y by auto; reflexivity|].
        rewrite rsum_0; [reflexivity|]. intros c Hc. unfold Um. destruct (Nat.leb_spec k c); [lia|ring]. }
    rewrite rsum_L by auto. rewrite J4 by lia. fold a.
    destruct (Nat.ltb_spec r j).
    - rewrite (rsum_ext _ (fun k => a r k * a1 k j)) by (intros k Hk; destruct (Nat.ltb_spec k j); [reflexivity|lia]).
      unfold u. rewrite (H1 r) by auto. ring.
    - rewrite (rsum_trunc _ j r); [|lia|intros k Hk; destruct (Nat.ltb_spec k j); [lia|ring]].
      rewrite (rsum_ext _ (fun k => a r k * a1 k j)) by (intros k Hk; destruct (Nat.ltb_spec k j); [reflexivity|lia]).
      specialize (H2 r ltac:(lia)). rewrite HZ in H2 by lia. lra. }
  specialize (HA v V j Hj). unfold v in HA. rewrite Nat.ltb_irrefl, Nat.eqb_refl in HA. lra.
Qed.

Lemma lu_col_inv : forall n A j s, nonsingular n A -> (j < n)%nat -> lu_inv n A j s -> lu_inv n A (S j) (lu_col n j s).
Proof.
  intros n A j s HA Hj I. pose proof I as (J1 & J2 & J3 & J4 & J5 & J6). unfold lu_col.
  destruct (upper_ok j (l_a s)) as [U1 U2]. set (a0 := upper_block j (l_a s)) in *.
  destruct (lower_block n j (l_scale s) a0 (l_imax s)) as [[a1 big] imax] eqn:E.
  destruct (lower_ok _ _ _ _ _ _ _ _ Hj J2 E) as (D1 & D2 & D3 & D4).
  (* the two blocks of column j *)
  assert (B1 : forall r c, (c <> j)%nat -> a1 r c = l_a s r c) by (intros; rewrite D1 by lia; apply U1; lia).
  assert (B2 : forall r, (r < j)%nat -> a1 r j = l_a s r j - rsum (fun k => l_a s r k * a1 k j) r).
  { intros r Hr. rewrite D1 by lia. rewrite U2 by auto. f_equal. apply rsum_ext. intros k Hk. rewrite (D1 k j) by lia. reflexivity. }
  assert (B3 : forall r, (j <= r < n)%nat -> a1 r j = l_a s r j - rsum (fun k => l_a s r k * a1 k j) j).
  { intros r Hr. rewrite D2 by auto. rewrite U1 by lia. f_equal. apply rsum_ext. intros k Hk. rewrite U1 by lia. rewrite (D1 k j) by lia. reflexivity. }
  assert (NP : a1 imax j <> 0).
  { intros Z. apply (pivot_nonzero n A s j a1); auto. }
  (* the exchange *)
  set (t := if (j =? imax)%nat then (a1, l_d s, l_scale s) else (swap_rows n j imax a1, - l_d s, vset (l_scale s) imax (l_scale s j))).
  assert (W : exists a2 d rs, t = (a2, d, rs) /\ (forall r c, (c < n)%nat -> a2 r c = a1 (sw j imax r) c) /\ (d = 1 \/ d = -1) /\
     (forall r, (r < n)%nat -> 0 < rs r)).
  { unfold t. destruct (Nat.eqb_spec j imax) as [Ej|Nj].
    - subst imax. do 3 eexists. split; [reflexivity|]. split; [|split; auto]. intros r c Hc. unfold sw. destruct (Nat.eqb_spec r j); congruence.
    - do 3 eexists. split; [reflexivity|]. split; [|split].
      + intros r c Hc. rewrite swap_ok. destruct (Nat.ltb_spec c n); [reflexivity|lia].
      + lra.
      + intros r Hr. unfold vset. destruct (r =? imax)%nat; auto. }
  destruct W as (a2 & d & rs & -> & W1 & W2 & W3). cbn [l_a l_scale l_indx l_d].
  assert (SJ : sw j imax j = imax) by (unfold sw; rewrite Nat.eqb_refl; reflexivity).
  destruct (Req_EM_T (a2 j j) 0) as [Z|_]; [rewrite W1, SJ in Z by lia; congruence|].
  assert (PV : a2 j j <> 0) by (rewrite W1, SJ by lia; exact NP).
  destruct (scale_ok n j a2) as [S1 S2]. set (a3 := scale_col n j a2) in *.
  set (indx := vset (l_indx s) j imax).
  assert (PE : forall r, perm indx (S j) r = perm (l_indx s) j (sw j imax r)).
  { intros r. cbn [perm]. unfold indx at 2. rewrite vset_same. apply perm_ext. intros k Hk. unfold indx. rewrite vset_other by lia. reflexivity. }
  assert (SB : forall r, (r < n)%nat -> (sw j imax r < n)%nat) by (intros; apply sw_bound; lia).
  (* entries of the new array *)
  assert (A3 : forall r c, (c < n)%nat -> (c <> j)%nat -> a3 r c = l_a s (sw j imax r) c)
    by (intros r c Hc N; rewrite S1 by lia; rewrite W1 by lia; apply B1; lia).
  assert (A3u : forall r, (r <= j)%nat -> a3 r j = a1 (sw j imax r) j) by (intros r Hr; rewrite S1 by lia; rewrite W1 by lia; reflexivity).
  assert (A3l : forall r, (j < r < n)%nat -> a3 r j * a3 j j = a1 (sw j imax r) j).
  { intros r Hr. rewrite S2 by auto. rewrite (S1 j j) by lia. rewrite W1 by lia. field. exact PV. }
  assert (A3row : forall r c, (r < j)%nat -> (c < n)%nat -> (c <> j)%nat -> a3 r c = l_a s r c)
    by (intros r c Hr Hc N; rewrite A3 by auto; rewrite sw_low by lia; reflexivity).
  split; [|split; [|split; [|split; [|split]]]]; cbn [l_a l_scale l_indx l_d].
  - intros k Hk. unfold indx, vset. destruct (Nat.eqb_spec k j); [subst; lia|]. apply J1. lia.
  - exact W3.
  - intros r c Hr Hc. fold indx. rewrite PE.
    assert (Lk : forall k, (k < j)%nat -> Lm a3 r k = Lm (l_a s) (sw j imax r) k).
    { intros k Hk. unfold Lm. destruct (le_lt_dec j r) as [G|G].
      - pose proof (sw_high j imax r G ltac:(lia)). destruct (Nat.ltb_spec k r), (Nat.ltb_spec k (sw j imax r)); try lia. apply A3; lia.
      - rewrite sw_low by lia. destruct (Nat.ltb_spec k r); [|reflexivity]. apply A3row; lia. }
    destruct (Nat.eq_dec c j) as [->|N].
    + rewrite J4 by (auto; lia).
      rewrite (rsum_trunc _ (S j) n); [|lia|intros k Hk; unfold Um; destruct (Nat.leb_spec k j); [lia|ring]].
      cbn [rsum].
      rewrite (rsum_ext _ (fun k => Lm (l_a s) (sw j imax r) k * a1 k j)).
      2:{ intros k Hk. rewrite Lk by auto. unfold Um. destruct (Nat.leb_spec k j); [|lia]. rewrite A3u by lia. rewrite (sw_low j imax k) by lia. reflexivity. }
      destruct (le_lt_dec j r) as [G|G].
      * pose proof (sw_high j imax r G ltac:(lia)) as G'. pose proof (SB r Hr) as G''.
        rewrite (rsum_ext _ (fun k => l_a s (sw j imax r) k * a1 k j)) by (intros k Hk; unfold Lm; destruct (Nat.ltb_spec k (sw j imax r)); [reflexivity|lia]).
        pose proof (B3 (sw j imax r) ltac:(lia)) as B.
        assert (Eq : Lm a3 r j * Um a3 j j = a1 (sw j imax r) j).
        { unfold Lm, Um. rewrite Nat.leb_refl. destruct (Nat.ltb_spec j r); [apply A3l; lia|].
          destruct (Nat.eqb_spec j r); [|lia]. subst r. rewrite A3u by lia. ring. }
        rewrite Eq. lra.
      * rewrite sw_low by lia.
        replace (Lm a3 r j) with 0 by (unfold Lm; destruct (Nat.ltb_spec j r), (Nat.eqb_spec j r); try lia; reflexivity).
        rewrite (rsum_L (l_a s) r (fun k => a1 k j) j) by auto. rewrite (B2 r) by auto. ring.
    + rewrite J3 by (auto; lia). apply rsum_ext. intros k Hk. unfold Um. destruct (Nat.leb_spec k c); [|ring].
      rewrite Lk by lia. rewrite (A3row k c) by lia. reflexivity.
  - intros r c Hr Hc. fold indx. rewrite PE, J4 by (auto; lia). rewrite A3 by lia. reflexivity.
  - intros c Hc. destruct (Nat.eq_dec c j) as [->|N]; [rewrite S1 by lia; exact PV|]. rewrite A3row by lia. apply J5. lia.
  - exact W2.
Qed.

Lemma row_big_ok : forall a n i, (0 <= row_big a n i)%R /\ (row_big a n i = 0 -> forall j, (j < n)%nat -> a i j = 0).
Proof.
  intros a n i. unfold row_big.
  pose proof (for_n_inv R (fun m big => 0 <= big /\ (big = 0 -> forall j, (j < m)%nat -> a i j = 0))
    (fun j big => let temp := Rabs (a i j) in if Rlt_dec big temp then temp else big) 0 n 0) as T. cbn [Nat.add] in T.
  apply T; [split; [lra|intros; lia]|]. intros x s Hx [I1 I2]. cbv zeta. destruct (Rlt_dec s (Rabs (a i x))); split; try lra.
  intros Z j Hj. destruct (Nat.eq_dec j x) as [->|]; [|apply I2; auto; lia].
  destruct (Req_dec (a i x) 0) as [|N]; auto. apply Rabs_pos_lt in N. lra.
Qed.

Lemma lu_run : forall n A rs indx0 imax0, nonsingular n A -> (forall r, (r < n)%nat -> 0 < rs r) ->
  lu_inv n A n (for_n 0 n (lu_col n) (LU A rs indx0 1 imax0)).
Proof.
  intros n A rs indx0 imax0 HA Hrs.
  apply (for_n_inv lu (fun j s => lu_inv n A j s) (lu_col n) 0 n).
  - repeat split; cbn [l_a l_scale l_indx l_d perm]; auto; intros; lia.
  - intros j s Hj I. apply lu_col_inv; auto. lia.
Qed.

(** * Substitution *)

Lemma fwd_ok : forall a n indx b, (forall k, (k < n)%nat -> (k <= indx k < n)%nat) ->
  let y := fst (fwd a n indx b) in
  forall r, (r < n)%nat -> y r + rsum (fun k => a r k * y k) r = b (perm indx n r).
Proof.
  intros a n indx b H. unfold fwd.
  set (body := fun (i : nat) '(b, ii) => _).
  pose proof (for_n_inv (vec * option nat) (fun i st => 
     (forall r, (r < i)%nat -> fst st r + rsum (fun k => a r k * fst st k) r = b (perm indx i r)) /\
     (forall r, (i <= r < n)%nat -> fst st r = b (perm indx i r)) /\
     match snd st with None => forall r, (r < i)%nat -> fst st r = 0 | Some m => (m < i)%nat /\ forall r, (r < m)%nat -> fst st r = 0 end)
     body 0 n (b, None)) as T. cbn [Nat.add] in T.
  match type of T with ?P -> ?Q -> ?C => assert (G : Q) end; [clear T|assert (T0 := T (conj (fun r (h : (r < 0)%nat) => match Nat.nlt_0_r r h with end) (conj (fun r _ => eq_refl) (fun r (h : (r < 0)%nat) => match Nat.nlt_0_r r h with end))) G);
    exact (proj1 T0)].
  intros i [s ii] Hi (I1 & I2 & I3). unfold body. cbn [fst snd] in I1, I2, I3. pose proof (H i ltac:(lia)) as Hip.
  set (s1 := vset s (indx i) (s i)).
  assert (L : forall r, (r < i)%nat -> s1 r = s r) by (intros; unfold s1; apply vset_other; lia).
  assert (Z : forall v ii', v = s (indx i) - rsum (fun k => a i k * s k) i ->
     (match ii' with None => (forall r, (r < S i)%nat -> vset s1 i v r = 0) | Some m => (m < S i)%nat /\ forall r, (r < m)%nat -> vset s1 i v r = 0 end) ->
     (forall r, (r < S i)%nat -> vset s1 i v r + rsum (fun k => a r k * vset s1 i v k) r = b (perm indx (S i) r)) /\
     (forall r, (S i <= r < n)%nat -> vset s1 i v r = b (perm indx (S i) r)) /\
     match ii' with None => (forall r, (r < S i)%nat -> vset s1 i v r = 0) | Some m => (m < S i)%nat /\ forall r, (r < m)%nat -> vset s1 i v r = 0 end).
  { intros v ii' Ev Hii. split; [|split; [|exact Hii]].
    - intros r Hr. cbn [perm]. destruct (Nat.eq_dec r i) as [->|N].
      + rewrite vset_same. unfold sw. rewrite Nat.eqb_refl.
        rewrite (rsum_ext _ (fun k => a i k * s k)) by (intros k Hk; rewrite vset_other by lia; rewrite L by lia; reflexivity).
        rewrite Ev, I2 by lia. ring.
      + rewrite sw_low by lia. rewrite vset_other, L by lia. rewrite <- I1 by lia. f_equal. apply rsum_ext. intros k Hk.
        rewrite vset_other, L by lia. reflexivity.
    - intros r Hr. cbn [perm]. rewrite vset_other by lia. unfold s1, sw, vset. destruct (Nat.eqb_spec r i); [lia|].
      destruct (Nat.eqb_spec r (indx i)); apply I2; lia. }
  destruct ii as [m|]; cbn [fst snd].
  - apply (Z _ (Some m)).
    + rewrite minus_dot_eq. f_equal.
      rewrite (rsum_ext _ (fun t => (fun k => a i k * s k) (m + t)%nat)) by (intros t Ht; rewrite L by lia; reflexivity).
      rewrite (rsum_shift (fun k => a i k * s k)). replace (m + (i - m))%nat with i by lia.
      rewrite (rsum_0 _ m); [ring|]. intros k Hk. destruct I3 as [_ I3]. rewrite I3 by auto. ring.
    + destruct I3 as [I3 I3']. split; [lia|]. intros r Hr. rewrite vset_other, L by lia. apply I3'. auto.
  - destruct (Req_EM_T (s (indx i)) 0) as [E|E]; cbn [fst snd].
    + apply (Z _ None).
      * rewrite (rsum_0 _ i); [ring|]. intros k Hk. rewrite I3 by auto. ring.
      * intros r Hr. destruct (Nat.eq_dec r i) as [->|]; [rewrite vset_same; exact E|]. rewrite vset_other, L by lia. apply I3. lia.
    + apply (Z _ (Some i)).
      * rewrite (rsum_0 _ i); [ring|]. intros k Hk. rewrite I3 by auto. ring.
      * split; [lia|]. intros r Hr. rewrite vset_other, L by lia. apply I3. lia.
Qed.
Lemma lubksb_ok : forall n A s b, lu_inv n A n s -> solves n A (lubksb (l_a s) n (l_indx s) b) b.
Proof.
  intros n A s b (J1 & J2 & J3 & J4 & J5 & J6). unfold lubksb. set (y := fst (fwd (l_a s) n (l_indx s) b)).
  pose proof (fwd_ok (l_a s) n (l_indx s) b J1) as F. cbv zeta in F. fold y in F.
  pose proof (bwd_solves (l_a s) n y J5) as B. set (x := bwd (l_a s) n n y) in *.
  intros i Hi. destruct (perm_onto (l_indx s) n n i) as (r & Hr & <-); auto.
  rewrite (rsum_ext _ (fun c => rsum (fun k => Lm (l_a s) r k * (Um (l_a s) k c * x c)) n)).
  2:{ intros c Hc. rewrite J3 by auto. rewrite Rmult_comm, <- rsum_scal. apply rsum_ext. intros; ring. }
  rewrite rsum_exch. rewrite (rsum_ext _ (fun k => Lm (l_a s) r k * y k)) by (intros k Hk; rewrite rsum_scal, B by auto; reflexivity).
  rewrite rsum_L by auto. rewrite <- F by auto. ring.
Qed.
Lemma scalings_ok : forall n A rs0, nonsingular n A -> exists rs, scalings A n rs0 = Ok rs /\ forall r, (r < n)%nat -> 0 < rs r.
Proof.
  intros n A rs0 HA.
  assert (Row : forall i, (i < n)%nat -> row_big A n i <> 0).
  { intros i Hi Z. pose proof (lu_run n A (fun _ => 1) (fun k => k) 0 HA ltac:(intros; lra)) as I.
    pose proof (lubksb_ok n A _ (fun r => if (r =? i)%nat then 1 else 0) I i Hi) as E. cbv beta in E. rewrite Nat.eqb_refl in E.
    rewrite rsum_0 in E; [lra|]. intros k Hk. rewrite (proj2 (row_big_ok A n i) Z k Hk). ring. }
  unfold scalings.
  pose proof (for_n_inv (res vec) (fun i r => exists rs, r = Ok rs /\ forall r, (r < i)%nat -> 0 < rs r)
    (fun i r => rs <- r;; let big := row_big A n i in if Req_EM_T big 0 then Fatal else Ok (vset rs i (1 / big))) 0 n (Ok rs0)) as T.
  cbn [Nat.add] in T. apply T; [exists rs0; split; auto; intros; lia|]. clear T.
  intros i s Hi (rs & -> & I). cbn [bind]. cbv zeta. destruct (Req_EM_T (row_big A n i) 0) as [Z|Z]; [elim (Row i); auto; lia|].
  eexists; split; [reflexivity|]. intros r Hr. unfold vset. destruct (Nat.eqb_spec r i); [|apply I; lia].
  pose proof (proj1 (row_big_ok A n i)). apply Rdiv_lt_0_compat; lra.
Qed.

(** * The properties *)

(** ludcmp accepts every nonsingular matrix, and lubksb then solves A x = b for every right-hand side. *)
Theorem C50_solve : forall n A rs0 indx0 imax0, nonsingular n A ->
  exists a indx d, ludcmp A n rs0 indx0 imax0 = Ok (a, indx, d) /\ (d = 1 \/ d = -1) /\
    forall b, solves n A (lubksb a n indx b) b.
Proof.
  intros n A rs0 indx0 imax0 HA. unfold ludcmp. destruct (scalings_ok n A rs0 HA) as (rs & -> & Hrs). cbn [bind]. cbv zeta.
  pose proof (lu_run n A rs indx0 imax0 HA Hrs) as I. set (s := for_n 0 n (lu_col n) _) in *.
  do 3 eexists. split; [reflexivity|]. split; [apply I|]. intros b. apply lubksb_ok. exact I.
Qed.
Print Assumptions C50_solve.
(** The factorisation itself: P A = L U with L unit lower triangular, U upper triangular, nonzero pivots. *)
Theorem C50_factors : forall n A rs0 indx0 imax0, nonsingular n A ->
  exists a indx d, ludcmp A n rs0 indx0 imax0 = Ok (a, indx, d) /\
    (forall i, (i < n)%nat -> a i i <> 0) /\ (forall k, (k < n)%nat -> (k <= indx k < n)%nat) /\
    forall r c, (r < n)%nat -> (c < n)%nat ->
      A (perm indx n r) c = rsum (fun k => (if (k <? r)%nat then a r k else if (k =? r)%nat then 1 else 0) * (if (k <=? c)%nat then a k c else 0)) n.
Proof.
  intros n A rs0 indx0 imax0 HA. unfold ludcmp. destruct (scalings_ok n A rs0 HA) as (rs & -> & Hrs). cbn [bind]. cbv zeta.
  pose proof (lu_run n A rs indx0 imax0 HA Hrs) as (J1 & J2 & J3 & J4 & J5 & J6). set (s := for_n 0 n (lu_col n) _) in *.
  do 3 eexists. split; [reflexivity|]. split; [exact J5|]. split; [exact J1|]. intros r c Hr Hc. apply J3; auto.
Qed.
Print Assumptions C50_factors.

Lemma inverse_right : forall n A b0 col0 rs0 indx0 imax0, nonsingular n A ->
  exists B, InverseMatrix A n b0 col0 rs0 indx0 imax0 = Ok B /\
    (forall i j, (n <= i \/ n <= j)%nat -> B i j = b0 i j) /\
    forall i j, (i < n)%nat -> (j < n)%nat -> rsum (fun k => A i k * B k j) n = delta i j.
Proof.
  intros n A b0 col0 rs0 indx0 imax0 HA. unfold InverseMatrix.
  destruct (C50_solve n A rs0 indx0 imax0 HA) as (a & indx & d & -> & _ & S). cbn [bind].
  eexists. split; [reflexivity|].
  set (body := fun (j : nat) '(b, col) => _).
  pose proof (for_n_inv (mat * vec) (fun j st => (forall i c, (n <= i \/ j <= c)%nat -> fst st i c = b0 i c) /\
     forall i c, (i < n)%nat -> (c < j)%nat -> rsum (fun k => A i k * fst st k c) n = delta i c) body 0 n (b0, col0)) as T.
  cbn [Nat.add] in T. apply T; [split; intros; auto; lia|]. clear T.
  intros j [B col] Hj [I1 I2]. unfold body. cbn [fst] in *.
  set (col1 := for_n 0 n (fun i c => vset c i 0) col).
  assert (C1 : forall i, (i < n)%nat -> col1 i = 0).
  { pose proof (for_n_inv vec (fun m c => forall i, (i < m)%nat -> c i = 0) (fun i c => vset c i 0) 0 n col) as T. cbn [Nat.add] in T.
    apply T; [intros; lia|]. intros x s Hx Ix i Hi. unfold vset. destruct (Nat.eqb_spec i x); [reflexivity|]. apply Ix. lia. }
  set (x := lubksb a n indx (vset col1 j 1)).
  assert (X : forall i, (i < n)%nat -> rsum (fun k => A i k * x k) n = delta i j).
  { intros i Hi. unfold x. rewrite S by auto. unfold vset, delta. destruct (Nat.eqb_spec i j); [reflexivity|]. apply C1. auto. }
  assert (M : forall r c, for_n 0 n (fun i b => mset b i j (x i)) B r c = if ((r <? n) && (c =? j))%nat then x r else B r c).
  { pose proof (for_n_inv mat (fun m b => forall r c, b r c = if ((r <? m) && (c =? j))%nat then x r else B r c) (fun i b => mset b i j (x i)) 0 n B) as T.
    cbn [Nat.add] in T. apply T; [reflexivity|]. intros i s Hi I r c. unfold mset. rewrite I.
    destruct (Nat.eqb_spec r i), (Nat.eqb_spec c j), (Nat.ltb_spec r i), (Nat.ltb_spec r (Datatypes.S i)); cbn; auto; try lia; congruence. }
  split.
  - intros i c H. rewrite M. destruct (Nat.ltb_spec i n), (Nat.eqb_spec c j); cbn [andb]; try lia; apply I1; lia.
  - intros i c Hi Hc.
    rewrite (rsum_ext _ (fun k => A i k * (if (c =? j)%nat then x k else B k c))).
    2:{ intros k Hk. rewrite M. destruct (Nat.ltb_spec k n); [reflexivity|lia]. }
    destruct (Nat.eqb_spec c j); [subst; apply X; auto|]. apply I2; auto. lia.
Qed.
(** InverseMatrix returns a two-sided inverse of every nonsingular matrix, whatever its work arrays and the result array
    held before, and writes nothing outside the n by n block. *)
Theorem C50_inverse : forall n A b0 col0 rs0 indx0 imax0, nonsingular n A ->
  exists B, InverseMatrix A n b0 col0 rs0 indx0 imax0 = Ok B /\
    (forall i j, (i < n)%nat -> (j < n)%nat -> rsum (fun k => A i k * B k j) n = delta i j) /\
    (forall i j, (i < n)%nat -> (j < n)%nat -> rsum (fun k => B i k * A k j) n = delta i j) /\
    (forall i j, (n <= i \/ n <= j)%nat -> B i j = b0 i j).
Proof.
  intros n A b0 col0 rs0 indx0 imax0 HA. destruct (inverse_right n A b0 col0 rs0 indx0 imax0 HA) as (B & E & O & RI).
  exists B. split; [exact E|]. split; [exact RI|]. split; [|exact O]. intros i j Hi Hj.
  set (x := fun r => rsum (fun k => B r k * A k j) n - delta r j).
  assert (X : solves n A x (fun _ => 0)).
  { intros r Hr. unfold x.
    rewrite (rsum_ext _ (fun c => rsum (fun k => (A r c * B c k) * A k j) n + (-1) * (A r c * delta c j))).
    2:{ intros c Hc. rewrite (rsum_ext (fun k => A r c * B c k * A k j) (fun k => A r c * (B c k * A k j))) by (intros; ring). rewrite rsum_scal. ring. }
    rewrite rsum_plus, rsum_scal, rsum_exch.
    rewrite (rsum_ext _ (fun k => delta r k * A k j)).
    2:{ intros k Hk. rewrite <- RI by auto. rewrite (rsum_ext _ (fun c => A k j * (A r c * B c k))) by (intros; ring). rewrite rsum_scal. ring. }
    assert (P1 : rsum (fun k => delta r k * A k j) n = A r j).
    { clear - Hr. revert Hr. generalize n. induction n0 as [|m IH]; intros H; [lia|]. cbn [rsum]. unfold delta at 2. destruct (Nat.eqb_spec r m) as [->|N].
      - rewrite rsum_0; [ring|]. intros k Hk. unfold delta. destruct (Nat.eqb_spec m k); [lia|ring].
      - rewrite IH by lia. ring. }
    assert (P2 : rsum (fun c => A r c * delta c j) n = A r j).
    { clear - Hj. revert Hj. generalize n. induction n0 as [|m IH]; intros H; [lia|]. cbn [rsum]. unfold delta at 2. destruct (Nat.eqb_spec m j) as [->|N].
      - rewrite rsum_0; [ring|]. intros k Hk. unfold delta. destruct (Nat.eqb_spec k j); [lia|ring].
      - rewrite IH by lia. ring. }
    rewrite P1, P2. ring. }
  specialize (HA x X i Hi). unfold x in HA. lra.
Qed.
Print Assumptions C50_inverse.
(** MatrixMult computes the product and touches nothing else. *)
Theorem C50_mult : forall a b m n l c i j,
  MatrixMult a b m n l c i j = if ((i <? m) && (j <? l))%nat then rsum (fun k => a i k * b k j) n else c i j.
Proof.
  intros a b m n l c. unfold MatrixMult.
  pose proof (for_n_inv mat (fun i0 c' => forall i j, c' i j = if ((i <? i0) && (j <? l))%nat then rsum (fun k => a i k * b k j) n else c i j)
    (fun i c => for_n 0 l (fun j c => for_n 0 n (fun k c => mset c i j (c i j + a i k * b k j)) (mset c i j 0)) c) 0 m c) as T.
  cbn [Nat.add] in T. apply T; [reflexivity|]. clear T. intros i s Hi I.
  pose proof (for_n_inv mat (fun j0 c' => forall r q, c' r q = if ((r =? i) && (q <? j0))%nat then rsum (fun k => a i k * b k q) n else s r q)
    (fun j c => for_n 0 n (fun k c => mset c i j (c i j + a i k * b k j)) (mset c i j 0)) 0 l s) as T.
  cbn [Nat.add] in T.
  assert (T' : forall r q, for_n 0 l (fun j c => for_n 0 n (fun k c => mset c i j (c i j + a i k * b k j)) (mset c i j 0)) s r q =
     if ((r =? i) && (q <? l))%nat then rsum (fun k => a i k * b k q) n else s r q).
  { apply T; [intros r q; rewrite andb_false_r; reflexivity|]. clear T. intros j s' Hj I'.
    pose proof (for_n_inv mat (fun k0 c' => forall r q, c' r q = if ((r =? i) && (q =? j))%nat then rsum (fun k => a i k * b k j) k0 else s' r q)
      (fun k c => mset c i j (c i j + a i k * b k j)) 0 n (mset s' i j 0)) as T.
    cbn [Nat.add] in T.
    assert (T' : forall r q, for_n 0 n (fun k c => mset c i j (c i j + a i k * b k j)) (mset s' i j 0) r q =
       if ((r =? i) && (q =? j))%nat then rsum (fun k => a i k * b k j) n else s' r q).
    { apply T; [reflexivity|]. clear T. intros k s'' Hk I'' r q. unfold mset. rewrite !I''. rewrite !Nat.eqb_refl. cbn [andb rsum].
      destruct ((r =? i) && (q =? j))%nat; reflexivity. }
    intros r q. rewrite T', I'. destruct (Nat.eqb_spec r i), (Nat.eqb_spec q j), (Nat.ltb_spec q j), (Nat.ltb_spec q (S j)); cbn [andb]; subst; auto; lia. }
  intros r q. rewrite T', I. destruct (Nat.eqb_spec r i), (Nat.ltb_spec r i), (Nat.ltb_spec r (S i)), (Nat.ltb_spec q l); cbn [andb]; subst; auto; lia.
Qed.
Print Assumptions C50_mult.
(** The hypothesis is met by a matrix that needs row exchanges. *)
Example ex_lu : nonsingular 2 (fun i j => if ((i =? 0) && (j =? 0))%nat then 0 else INR (i + j)).
Proof.
  intros x H i Hi. pose proof (H 0%nat ltac:(lia)) as H0. pose proof (H 1%nat ltac:(lia)) as H1. cbn in H0, H1.
  assert (x 1%nat = 0) by lra. destruct i as [|[|i]]; try lia; lra.
Qed.
(** A zero row is reported. *)
Example ex_lu_singular : forall rs0 indx0 imax0, ludcmp (fun _ _ => 0) 1 rs0 indx0 imax0 = Fatal.
Proof.
  intros. unfold ludcmp, scalings, row_big. cbn [for_n bind]. rewrite Rabs_R0. destruct (Rlt_dec 0 0); [lra|].
  destruct (Req_EM_T 0 0); [reflexivity|lra].
Qed.
