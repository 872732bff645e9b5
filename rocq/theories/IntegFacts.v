(** * Facts about loops and sums, and proof automation for the integrators *)
From Coq Require Import Reals ZArith List Bool Lia Lra.
From Verif Require Import GasModel IntegModel IntegSpec.
Open Scope R_scope.

Lemma within_in : forall l u i, (l <= i <= u)%Z -> within l u i = true.
Proof. intros. unfold within. apply andb_true_intro; split; apply Z.leb_le; lia. Qed.
Lemma within_out : forall l u i, (i < l \/ u < i)%Z -> within l u i = false.
Proof. intros. unfold within. apply andb_false_iff. rewrite !Z.leb_gt. lia. Qed.
Lemma loop1_in : forall A l u (f old : Z -> A) i, (l <= i <= u)%Z -> loop1 l u f old i = f i.
Proof. intros. unfold loop1. rewrite within_in; auto. Qed.
Lemma loop1_out : forall A l u (f old : Z -> A) i, (i < l \/ u < i)%Z -> loop1 l u f old i = old i.
Proof. intros. unfold loop1. rewrite within_out; auto. Qed.
Lemma loop2_in : forall A jl ju il iu (f old : Z -> Z -> A) j i,
  (jl <= j <= ju)%Z -> (il <= i <= iu)%Z -> loop2 jl ju il iu f old j i = f j i.
Proof. intros. unfold loop2. rewrite !within_in; auto. Qed.
Lemma loop2_out : forall A jl ju il iu (f old : Z -> Z -> A) j i,
  (j < jl \/ ju < j \/ i < il \/ iu < i)%Z -> loop2 jl ju il iu f old j i = old j i.
Proof.
  intros. unfold loop2.
  destruct (Z_lt_dec j jl); [rewrite within_out by lia; reflexivity|].
  destruct (Z_lt_dec ju j); [rewrite within_out by lia; reflexivity|].
  rewrite (within_out il iu) by lia. rewrite andb_false_r. reflexivity.
Qed.
Lemma loop3_in : forall A kl ku jl ju il iu (f old : Z -> Z -> Z -> A) k j i,
  (kl <= k <= ku)%Z -> (jl <= j <= ju)%Z -> (il <= i <= iu)%Z -> loop3 kl ku jl ju il iu f old k j i = f k j i.
Proof. intros. unfold loop3. rewrite !within_in; auto. Qed.
Lemma loop3_out : forall A kl ku jl ju il iu (f old : Z -> Z -> Z -> A) k j i,
  (k < kl \/ ku < k \/ j < jl \/ ju < j \/ i < il \/ iu < i)%Z -> loop3 kl ku jl ju il iu f old k j i = old k j i.
Proof.
  intros. unfold loop3.
  destruct (Z_lt_dec k kl); [rewrite within_out by lia; reflexivity|].
  destruct (Z_lt_dec ku k); [rewrite within_out by lia; reflexivity|].
  destruct (Z_lt_dec j jl); [rewrite (within_out jl ju) by lia; rewrite andb_false_r; reflexivity|].
  destruct (Z_lt_dec ju j); [rewrite (within_out jl ju) by lia; rewrite andb_false_r; reflexivity|].
  rewrite (within_out il iu) by lia. rewrite !andb_false_r. reflexivity.
Qed.

(** ** Sums *)
Lemma sumZ_empty : forall l u f, (u < l)%Z -> sumZ l u f = 0.
Proof. intros. unfold sumZ. replace (Z.to_nat (u - l + 1)) with 0%nat by lia. reflexivity. Qed.
Lemma fold_map_seq_S : forall (f : nat -> R) n a,
  fold_right Rplus 0 (map f (seq a (S n))) = fold_right Rplus 0 (map f (seq a n)) + f (a + n)%nat.
Proof.
  intros f n; induction n; intros a.
  - cbn. rewrite Nat.add_0_r. lra.
  - change (seq a (S (S n))) with (a :: seq (S a) (S n)).
    cbn [map fold_right]. rewrite IHn.
    change (seq a (S n)) with (a :: seq (S a) n). cbn [map fold_right].
    replace (S a + n)%nat with (a + S n)%nat by lia. lra.
Qed.
Lemma sumZ_last : forall l u f, (l <= u)%Z -> sumZ l u f = sumZ l (u - 1) f + f u.
Proof.
  intros. unfold sumZ.
  replace (Z.to_nat (u - l + 1)) with (S (Z.to_nat (u - 1 - l + 1))) by lia.
  rewrite fold_map_seq_S. f_equal. f_equal. lia.
Qed.
Lemma sumZ_ind : forall (P : Z -> Prop) l,
  (forall u, (u < l)%Z -> P u) -> (forall u, (l <= u)%Z -> P (u - 1)%Z -> P u) -> forall u, P u.
Proof.
  intros P l H0 HS u. destruct (Z_lt_dec u l) as [Hlt|Hge]; [auto|].
  replace u with (l + Z.of_nat (Z.to_nat (u - l)))%Z by lia.
  generalize (Z.to_nat (u - l)). intro n; induction n.
  - rewrite Z.add_0_r. apply HS; [lia|]. apply H0; lia.
  - apply HS; [lia|]. replace (l + Z.of_nat (S n) - 1)%Z with (l + Z.of_nat n)%Z by lia. exact IHn.
Qed.
Lemma sumZ_ext : forall l u f g, (forall i, (l <= i <= u)%Z -> f i = g i) -> sumZ l u f = sumZ l u g.
Proof.
  intros l u f g. apply (sumZ_ind (fun u => (forall i, (l <= i <= u)%Z -> f i = g i) -> sumZ l u f = sumZ l u g) l).
  - intros. rewrite !sumZ_empty by lia. reflexivity.
  - intros v Hv IH H. rewrite (sumZ_last l v f), (sumZ_last l v g) by lia.
    rewrite IH by (intros; apply H; lia). rewrite H by lia. reflexivity.
Qed.
Lemma sumZ_plus : forall l u f g, sumZ l u (fun i => f i + g i) = sumZ l u f + sumZ l u g.
Proof.
  intros l u f g. apply (sumZ_ind (fun u => sumZ l u (fun i => f i + g i) = sumZ l u f + sumZ l u g) l).
  - intros. rewrite !sumZ_empty by lia. lra.
  - intros v Hv IH. rewrite (sumZ_last l v), (sumZ_last l v f), (sumZ_last l v g) by lia. rewrite IH. lra.
Qed.
Lemma sumZ_scal : forall l u a f, sumZ l u (fun i => a * f i) = a * sumZ l u f.
Proof.
  intros l u a f. apply (sumZ_ind (fun u => sumZ l u (fun i => a * f i) = a * sumZ l u f) l).
  - intros. rewrite !sumZ_empty by lia. lra.
  - intros v Hv IH. rewrite (sumZ_last l v), (sumZ_last l v f) by lia. rewrite IH. lra.
Qed.
Lemma sumZ_minus : forall l u f g, sumZ l u (fun i => f i - g i) = sumZ l u f - sumZ l u g.
Proof.
  intros. rewrite (sumZ_ext l u (fun i => f i - g i) (fun i => f i + (-1) * g i)) by (intros; lra).
  rewrite sumZ_plus, sumZ_scal. lra.
Qed.
Lemma sumZ_zero : forall l u, sumZ l u (fun _ => 0) = 0.
Proof. intros. rewrite (sumZ_ext l u _ (fun i => 0 * 0)) by (intros; lra). rewrite (sumZ_scal l u 0 (fun _ => 0)). lra. Qed.
(** Telescoping. *)
Lemma sumZ_tele : forall l u F, (l <= u + 1)%Z -> sumZ l u (fun i => F (i + 1)%Z - F i) = F (u + 1)%Z - F l.
Proof.
  intros l u F. apply (sumZ_ind (fun u => (l <= u + 1)%Z -> sumZ l u (fun i => F (i + 1)%Z - F i) = F (u + 1)%Z - F l) l).
  - intros v Hv H. rewrite sumZ_empty by lia. replace (v + 1)%Z with l by lia. lra.
  - intros v Hv IH _. rewrite (sumZ_last l v) by lia. rewrite IH by lia.
    replace (v - 1 + 1)%Z with v by lia. lra.
Qed.
(** Exchanging the order of summation. *)
Lemma sumZ_swap : forall l u l' u' (f : Z -> Z -> R),
  sumZ l u (fun j => sumZ l' u' (fun i => f j i)) = sumZ l' u' (fun i => sumZ l u (fun j => f j i)).
Proof.
  intros l u l' u' f.
  apply (sumZ_ind (fun u => sumZ l u (fun j => sumZ l' u' (fun i => f j i)) = sumZ l' u' (fun i => sumZ l u (fun j => f j i))) l).
  - intros. rewrite sumZ_empty by lia. rewrite (sumZ_ext l' u' _ (fun _ => 0)), sumZ_zero; [reflexivity|].
    intros. apply sumZ_empty; lia.
  - intros v Hv IH. rewrite (sumZ_last l v) by lia. rewrite IH.
    rewrite (sumZ_ext l' u' (fun i => sumZ l v (fun j => f j i)) (fun i => sumZ l (v - 1) (fun j => f j i) + f v i)).
    2:{ intros. apply (sumZ_last l v (fun j => f j i)); lia. }
    rewrite sumZ_plus. reflexivity.
Qed.

Lemma sub_s_nth : forall a s r l n, (n < length s)%nat ->
  nth n (sub_s a s r l) 0 = nth n s 0 - a * (nth n r 0 - nth n l 0).
Proof.
  intros. unfold sub_s.
  set (f := fun n0 => nth n0 s 0 - a * (nth n0 r 0 - nth n0 l 0)).
  rewrite (nth_indep _ 0 (f 0%nat)) by (rewrite map_length, seq_length; auto).
  rewrite map_nth. rewrite seq_nth by auto. reflexivity.
Qed.
Lemma sub_s_length : forall a s r l, length (sub_s a s r l) = length s.
Proof. intros. unfold sub_s. rewrite map_length, seq_length. reflexivity. Qed.

(** Two cells are equal if all their densities are. *)
Lemma cons_ext : forall u v : cons, length (cs u) = length (cs v) -> (forall q, (forall n, q = Scal n -> (n < length (cs v))%nat) -> density q u = density q v) -> u = v.
Proof.
  intros u v L H.
  pose proof (H Mass ltac:(discriminate)). pose proof (H Mom1 ltac:(discriminate)). pose proof (H Mom2 ltac:(discriminate)).
  pose proof (H Mom3 ltac:(discriminate)). pose proof (H Energy ltac:(discriminate)). pose proof (H Fld1 ltac:(discriminate)).
  pose proof (H Fld2 ltac:(discriminate)). pose proof (H Fld3 ltac:(discriminate)).
  assert (Hs : cs u = cs v).
  { apply nth_ext with (d := 0) (d' := 0); [exact L|]. intros n Hn. apply (H (Scal n)). intros m E; injection E as <-. lia. }
  destruct u, v; cbn in *. congruence.
Qed.

(** Put index expressions in the form base + offset. *)
Ltac offs := rewrite <- ?Z.add_sub_assoc, <- ?Z.add_assoc.
