(** * C14, C15: the I/O baton *)
From Coq Require Import Arith Bool Lia List.
From Verif Require Import BatonModel.
Import ListNotations.

(** ** Specification *)
(** [l] lists different processes that are all inside the regulated section. *)
Definition all_inside (N : nat) (s : bst) (l : list nat) : Prop :=
  NoDup l /\ forall r, In r l -> r < N /\ ph s r = Inside.
(** Every process has passed baton_stop [K] times and none waits for anything. *)
Definition all_done (N K : nat) (s : bst) : Prop :=
  forall r, r < N -> ph s r = Idle /\ rnd s r = K.
(** No message is in flight. *)
Definition all_delivered (N Nb : nat) (s : bst) : Prop :=
  forall r, r < N -> r + Nb < N -> sent s r = got s (r + Nb).

Definition busy (p : phase) : nat := match p with Idle => 0 | _ => 1 end.
Definition sending (p : phase) : nat := match p with Sending => 1 | _ => 0 end.
Definition inv (N Nb K : nat) (s : bst) : Prop :=
  forall r, r < N ->
    (sent s r = if signals N Nb r then rnd s r + sending (ph s r) else 0) /\
    (got s r = if waits Nb r then rnd s r + busy (ph s r) else 0) /\
    (waits Nb r = true -> got s r <= sent s (r - Nb)) /\
    rnd s r + busy (ph s r) <= K /\
    (ph s r = Sending -> signals N Nb r = true).

Lemma upd_same : forall A (f : nat -> A) i x, upd f i x i = x.
Proof. intros. unfold upd. rewrite Nat.eqb_refl. reflexivity. Qed.
Lemma upd_other : forall A (f : nat -> A) i x j, j <> i -> upd f i x j = f j.
Proof. intros. unfold upd. destruct (Nat.eqb_spec j i); congruence. Qed.
Lemma waits_spec : forall Nb r, waits Nb r = true <-> 0 < Nb /\ Nb <= r.
Proof. intros. unfold waits. rewrite andb_true_iff, Nat.ltb_lt, Nat.leb_le. reflexivity. Qed.
Lemma signals_spec : forall N Nb r, signals N Nb r = true <-> 0 < Nb /\ r + Nb < N.
Proof. intros. unfold signals. rewrite andb_true_iff, !Nat.ltb_lt. reflexivity. Qed.
Lemma waits_signals : forall N Nb r, r < N -> waits Nb r = true -> signals N Nb (r - Nb) = true.
Proof. intros. apply waits_spec in H0. apply signals_spec. lia. Qed.

Lemma inv_init : forall N Nb K, inv N Nb K b_init.
Proof.
  intros N Nb K r Hr. simpl. repeat split; try lia; try discriminate;
    [destruct (signals N Nb r)|destruct (waits Nb r)]; auto.
Qed.

Ltac updc x r := destruct (Nat.eq_dec x r) as [->|?]; rewrite ?upd_same; rewrite ?upd_other by lia.

Lemma inv_step : forall N Nb K s s', inv N Nb K s -> bstep N Nb K s s' -> inv N Nb K s'.
Proof.
  intros N Nb K s s' I H.
  assert (FIN : forall r, r < N -> ph s r = Sending ->
     inv N Nb K (BSt (upd (ph s) r Idle) (upd (rnd s) r (S (rnd s r))) (sent s) (got s))).
  { intros r R P x X. destruct (I r R) as (A1 & A2 & A3 & A4 & A5).
    specialize (A5 P). rewrite P in *. simpl in A1, A2, A4.
    destruct (I x X) as (B1 & B2 & B3 & B4 & B5). cbn [ph rnd sent got].
    destruct (Nat.eq_dec x r) as [->|NE].
    - rewrite !upd_same. simpl. rewrite A5 in *. repeat split; try lia; try discriminate; auto.
      destruct (waits Nb r); lia.
    - rewrite !upd_other by lia. auto 10. }
  inversion H; subst; clear H; intros x X; try (apply (FIN r); auto; fail);
    destruct (I r H0) as (A1 & A2 & A3 & A4 & A5);
    destruct (I x X) as (B1 & B2 & B3 & B4 & B5); cbn [ph rnd sent got];
    rewrite H1 in *; simpl in A1, A2, A4.
  - destruct (Nat.eq_dec x r) as [->|NE]; rewrite ?upd_same, ?upd_other by lia; auto.
    simpl. rewrite H3 in *. repeat split; try lia; try discriminate; auto.
  - destruct (Nat.eq_dec x r) as [->|NE]; rewrite ?upd_same, ?upd_other by lia; auto 10.
    simpl. rewrite H3 in *. repeat split; try lia; try discriminate; auto.
  - destruct (Nat.eq_dec x r) as [->|NE]; rewrite ?upd_same, ?upd_other by lia; auto.
    simpl. rewrite H2 in *. repeat split; try lia; try discriminate; auto.
    destruct (waits Nb r); lia.
  - destruct (Nat.eq_dec x r) as [->|NE].
    + rewrite !upd_same. simpl. rewrite H2 in *. repeat split; auto; try lia.
      intros W. specialize (A3 W). apply waits_spec in W. rewrite upd_other by lia. exact A3.
    + rewrite !(upd_other _ _ r _ x) by lia. repeat split; auto.
      intros W. specialize (B3 W). unfold upd. destruct (x - Nb =? r) eqn:E; [|exact B3].
      apply Nat.eqb_eq in E. subst r. lia.
Qed.
Lemma inv_exec : forall N Nb K n s, bexec N Nb K n s -> inv N Nb K s.
Proof. induction 1; [apply inv_init|eapply inv_step; eauto]. Qed.

(** ** C14 *)
Lemma got_left : forall N Nb s r, inv N Nb 1 s -> 0 < Nb -> Nb <= r -> r < N ->
  busy (ph s r) + rnd s r >= 1 -> ph s (r - Nb) <> Inside /\ busy (ph s (r - Nb)) + rnd s (r - Nb) >= 1.
Proof.
  intros N Nb s r I P L R B.
  destruct (I r R) as (A1 & A2 & A3 & A4 & A5).
  assert (W : waits Nb r = true) by (apply waits_spec; lia).
  destruct (I (r - Nb) ltac:(lia)) as (B1 & B2 & B3 & B4 & B5).
  rewrite (waits_signals N Nb r R W) in B1. rewrite W in A2. specialize (A3 W).
  destruct (ph s (r - Nb)); simpl in *; split; try discriminate; lia.
Qed.
Lemma before_left : forall N Nb s k r, inv N Nb 1 s -> 0 < Nb -> r < N -> (S k) * Nb <= r ->
  busy (ph s r) + rnd s r >= 1 -> ph s (r - S k * Nb) <> Inside /\ busy (ph s (r - S k * Nb)) + rnd s (r - S k * Nb) >= 1.
Proof.
  induction k as [|k IH]; intros r I P R L B.
  - replace (1 * Nb) with Nb by lia. eapply got_left; eauto. lia.
  - destruct (IH r I P R) as [_ C]; [lia|auto|].
    replace (r - S (S k) * Nb) with ((r - S k * Nb) - Nb) by lia.
    eapply got_left; eauto; lia.
Qed.

Theorem C14_at_most_Nb_inside : forall N Nb n s l, 0 < Nb -> bexec N Nb 1 n s ->
  all_inside N s l -> length l <= Nb.
Proof.
  intros N Nb n s l P H [ND AI]. assert (I := inv_exec _ _ _ _ _ H).
  assert (D : forall a b, In a l -> In b l -> a < b -> a mod Nb <> b mod Nb).
  { intros a b HA HB L E. destruct (AI a HA) as [_ PA]. destruct (AI b HB) as [NB PB].
    assert (EA := Nat.div_mod a Nb ltac:(lia)). assert (EB := Nat.div_mod b Nb ltac:(lia)).
    assert (exists k, b = a + S k * Nb) as [k Hk].
    { exists (b / Nb - a / Nb - 1). assert (a / Nb < b / Nb) by nia. nia. }
    destruct (before_left N Nb s k b I P NB) as [C _]; [lia|rewrite PB; simpl; lia|].
    replace (b - S k * Nb) with a in C by lia. congruence. }
  rewrite <- (map_length (fun r => r mod Nb) l). apply Nat.le_trans with (length (seq 0 Nb)); [|rewrite seq_length; lia].
  apply NoDup_incl_length.
  - clear - ND D. induction l as [|x l IH]; cbn [map]; [constructor|]. inversion ND; subst. constructor.
    + intros X. apply in_map_iff in X. destruct X as (y & E & HY). cbv beta in E.
      destruct (Nat.lt_trichotomy x y) as [L|[L|L]].
      * apply (D x y); [left; reflexivity|right; exact HY|exact L|symmetry; exact E].
      * subst; auto.
      * apply (D y x); [right; exact HY|left; reflexivity|exact L|exact E].
    + apply IH; auto. intros a b HA HB. apply D; right; auto.
  - intros y HY. apply in_map_iff in HY. destruct HY as (x & <- & _). apply in_seq.
    assert (X := Nat.mod_upper_bound x Nb). lia.
Qed.
Print Assumptions C14_at_most_Nb_inside.

(** Used twice in a row (K = 2) the bound does not hold: with two processes and one
    baton, process 0 can be in its second section while process 1 is in its first. *)
Theorem C14_successive_uses_refuted : exists n s, bexec 2 1 2 n s /\ ph s 0 = Inside /\ ph s 1 = Inside.
Proof.
  eexists 5, _. split.
  - eapply bxS; [eapply bxS; [eapply bxS; [eapply bxS; [eapply bxS; [apply bx0|]|]|]|]|].
    + apply (b_start 2 1 2 _ 0); auto.
    + apply (b_stop_send 2 1 2 _ 0); auto.
    + apply (b_send_buffered 2 1 2 _ 0); auto.
    + apply (b_start 2 1 2 _ 0); auto.
    + apply (b_start_recv 2 1 2 _ 1); auto.
  - split; reflexivity.
Qed.
Print Assumptions C14_successive_uses_refuted.

(** ** C15 *)
(** A minimum over the ranks satisfying a decidable condition. *)
Lemma find_min : forall (f : nat -> nat) (P : nat -> bool) N,
  (exists r, r < N /\ P r = true) ->
  exists r, r < N /\ P r = true /\ forall q, q < N -> P q = true -> f r < f q \/ (f r = f q /\ r <= q).
Proof.
  intros f P. induction N as [|N IH]; intros (r & L & H); [lia|].
  destruct (existsb P (seq 0 N)) eqn:E.
  - apply existsb_exists in E. destruct E as (x & X1 & X2). apply in_seq in X1.
    destruct IH as (m & M1 & M2 & M3); [exists x; split; [lia|auto]|].
    destruct (P N) eqn:PN.
    + destruct (Nat.lt_ge_cases (f N) (f m)) as [LT|GE].
      * exists N. split; [lia|]. split; auto. intros q Q PQ.
        destruct (Nat.eq_dec q N) as [->|NE]; [right; lia|]. destruct (M3 q); auto; try lia.
      * exists m. split; [lia|]. split; auto. intros q Q PQ.
        destruct (Nat.eq_dec q N) as [->|NE]; [|apply M3; auto; lia]. destruct (Nat.eq_dec (f m) (f N)); [right|left]; lia.
    + exists m. split; [lia|]. split; auto. intros q Q PQ.
      destruct (Nat.eq_dec q N) as [->|NE]; [congruence|apply M3; auto; lia].
  - exists r. assert (r = N).
    { destruct (Nat.eq_dec r N); auto. exfalso. assert (existsb P (seq 0 N) = true).
      { apply existsb_exists. exists r. split; auto. apply in_seq. lia. } congruence. }
    subst r. split; auto. split; auto. intros q Q PQ. right.
    destruct (Nat.eq_dec q N) as [->|NE]; [lia|]. exfalso. assert (existsb P (seq 0 N) = true).
    { apply existsb_exists. exists q. split; auto. apply in_seq. lia. } congruence.
Qed.

Definition unfinished (K : nat) (s : bst) (r : nat) : bool :=
  match ph s r with Idle => rnd s r <? K | _ => true end.

Theorem C15_no_deadlock : forall N Nb K n s, bexec N Nb K n s ->
  all_done N K s \/ exists s', bstep_sync N Nb K s s'.
Proof.
  intros N Nb K n s H. assert (I := inv_exec _ _ _ _ _ H).
  destruct (existsb (unfinished K s) (seq 0 N)) eqn:E.
  - right. apply existsb_exists in E. destruct E as (x & X1 & X2). apply in_seq in X1.
    destruct (find_min (rnd s) (unfinished K s) N) as (r & R & U & M); [exists x; split; [lia|auto]|].
    destruct (I r R) as (A1 & A2 & A3 & A4 & A5).
    unfold unfinished in U. destruct (ph s r) eqn:P.
    + apply Nat.ltb_lt in U. destruct (waits Nb r) eqn:W; [|eexists; apply (s_start N Nb K s r); auto].
      simpl in A2. eexists; apply (s_start_recv N Nb K s r); auto.
      assert (W' := W). apply waits_spec in W.
      destruct (I (r - Nb) ltac:(lia)) as (B1 & _ & _ & B4 & B5).
      rewrite (waits_signals N Nb r R W') in B1.
      destruct (unfinished K s (r - Nb)) eqn:UU.
      * apply M in UU; [|lia]. assert (rnd s r < rnd s (r - Nb)) by lia. lia.
      * unfold unfinished in UU. destruct (ph s (r - Nb)); try discriminate.
        apply Nat.ltb_ge in UU. simpl in B1, B4. lia.
    + destruct (signals N Nb r) eqn:SG; eexists; [apply (s_stop_send N Nb K s r)|apply (s_stop N Nb K s r)]; auto.
    + specialize (A5 eq_refl). rewrite A5 in A1. simpl in A1, A4.
      assert (SG := A5). apply signals_spec in SG.
      destruct (I (r + Nb) ltac:(lia)) as (B1 & B2 & B3 & B4 & B5).
      assert (W : waits Nb (r + Nb) = true) by (apply waits_spec; lia).
      rewrite W in B2. specialize (B3 W). replace (r + Nb - Nb) with r in B3 by lia.
      destruct (Nat.eq_dec (got s (r + Nb)) (sent s r)) as [EQ|NE];
        [eexists; apply (s_send_matched N Nb K s r); auto|].
      assert (UU : rnd s r <= rnd s (r + Nb)).
      { destruct (unfinished K s (r + Nb)) eqn:UU; [apply M in UU; lia|].
        unfold unfinished in UU. destruct (ph s (r + Nb)); try discriminate. apply Nat.ltb_ge in UU. lia. }
      assert (P2 : ph s (r + Nb) = Idle) by (destruct (ph s (r + Nb)); auto; simpl in B2; lia).
      eexists. apply (s_start_recv N Nb K s (r + Nb)); auto; try lia.
      replace (r + Nb - Nb) with r by lia. lia.
  - left. intros r R. destruct (I r R) as (_ & _ & _ & A4 & _).
    assert (U : unfinished K s r = false).
    { destruct (unfinished K s r) eqn:U; auto. assert (existsb (unfinished K s) (seq 0 N) = true).
      { apply existsb_exists. exists r. split; auto. apply in_seq. lia. } congruence. }
    unfold unfinished in U. destruct (ph s r); try discriminate. apply Nat.ltb_ge in U. simpl in A4.
    split; auto. lia.
Qed.
Print Assumptions C15_no_deadlock.

(** Progress made by a rank. *)
Definition val (p : phase) : nat := match p with Idle => 0 | Inside => 1 | Sending => 2 end.
Definition prog (s : bst) (r : nat) : nat := 3 * rnd s r + val (ph s r).
Fixpoint sum (f : nat -> nat) (n : nat) : nat := match n with O => 0 | S m => f m + sum f m end.
Lemma sum_le : forall f g n, (forall r, r < n -> f r <= g r) -> sum f n <= sum g n.
Proof. induction n; intros H; simpl; [lia|]. assert (f n <= g n) by auto. assert (sum f n <= sum g n) by auto. lia. Qed.
Lemma sum_lt : forall f g n r, r < n -> (forall q, q < n -> f q <= g q) -> f r < g r -> sum f n < sum g n.
Proof.
  induction n; intros r R H L; [lia|]. simpl. destruct (Nat.eq_dec r n) as [->|NE].
  - assert (sum f n <= sum g n) by (apply sum_le; auto). lia.
  - assert (f n <= g n) by auto. assert (sum f n < sum g n) by (apply (IHn r); auto; lia). lia.
Qed.
Lemma step_prog : forall N Nb K s s', bstep N Nb K s s' -> sum (prog s) N < sum (prog s') N.
Proof.
  intros N Nb K s s' H. inversion H; subst; clear H; apply (sum_lt _ _ _ r); auto;
    unfold prog; cbn [ph rnd]; intros; try (rewrite ?upd_same, H1; simpl; lia);
    unfold upd; destruct (q =? r) eqn:E; auto; apply Nat.eqb_eq in E; subst; rewrite H1; simpl; lia.
Qed.

Lemma sync_step : forall N Nb K s s', bstep_sync N Nb K s s' -> bstep N Nb K s s'.
Proof.
  intros N Nb K s s' X. destruct X;
    [apply b_start|apply b_start_recv|apply b_stop|apply b_stop_send|apply b_send_matched]; auto.
Qed.

(** Every execution is finite; one that cannot be continued has let every process
    through exactly [K] times and has delivered every message. *)
Theorem C15_every_process_gets_its_turn : forall N Nb K n s, bexec N Nb K n s ->
  n <= N * (3 * K) /\
  ((forall s', ~ bstep N Nb K s s') -> all_done N K s /\ all_delivered N Nb s).
Proof.
  intros N Nb K n s H. split.
  - assert (B : n <= sum (prog s) N).
    { clear - H. induction H; [lia|]. assert (X := step_prog _ _ _ _ _ H0). lia. }
    assert (I := inv_exec _ _ _ _ _ H).
    assert (C : sum (prog s) N <= sum (fun _ => 3 * K) N).
    { apply sum_le. intros r R. destruct (I r R) as (_ & _ & _ & A & _). unfold prog.
      destruct (ph s r); simpl in *; lia. }
    assert (D : forall m, sum (fun _ => 3 * K) m = m * (3 * K)) by (induction m; simpl in *; lia).
    rewrite D in C. lia.
  - intros NS. destruct (C15_no_deadlock _ _ _ _ _ H) as [D|[s' X]].
    + split; auto. intros r R1 R2. assert (I := inv_exec _ _ _ _ _ H).
      destruct (D r R1) as [P1 Q1]. destruct (D (r + Nb) R2) as [P2 Q2].
      destruct (I r R1) as (A1 & _). destruct (I (r + Nb) R2) as (_ & B2 & _).
      rewrite P1 in A1. rewrite P2 in B2. simpl in A1, B2. rewrite Q1 in A1. rewrite Q2 in B2.
      destruct (Nat.eq_dec Nb 0) as [->|NZ].
      * assert (signals N 0 r = false) by reflexivity. rewrite H0 in A1.
        assert (waits 0 (r + 0) = false) by reflexivity. rewrite H1 in B2. lia.
      * assert (signals N Nb r = true) by (apply signals_spec; lia). rewrite H0 in A1.
        assert (waits Nb (r + Nb) = true) by (apply waits_spec; lia). rewrite H1 in B2. lia.
    + exfalso. apply (NS s'). apply sync_step. exact X.
Qed.
Print Assumptions C15_every_process_gets_its_turn.

(** A run of three processes with two batons that reaches the end. *)
Example C15_example : exists n s, bexec 3 2 1 n s /\ all_done 3 1 s /\
  exists n' s', bexec 3 2 1 n' s' /\ all_inside 3 s' [0; 1].
Proof.
  eexists 7, _. split.
  - eapply bxS; [eapply bxS; [eapply bxS; [eapply bxS; [eapply bxS; [eapply bxS; [eapply bxS; [apply bx0|]|]|]|]|]|]|].
    + apply (b_start 3 2 1 _ 0); auto.
    + apply (b_start 3 2 1 _ 1); auto.
    + apply (b_stop_send 3 2 1 _ 0); auto.
    + apply (b_start_recv 3 2 1 _ 2); auto.
    + apply (b_send_matched 3 2 1 _ 0); auto.
    + apply (b_stop 3 2 1 _ 1); auto.
    + apply (b_stop 3 2 1 _ 2); auto.
  - split; [intros [|[|[|r]]] R; try lia; split; reflexivity|].
    eexists 2, _. split.
    + eapply bxS; [eapply bxS; [apply bx0|]|].
      * apply (b_start 3 2 1 _ 0); auto.
      * apply (b_start 3 2 1 _ 1); auto.
    + split; [repeat constructor; simpl; intuition lia|]. intros r [<-|[<-|[]]]; split; auto.
Qed.
