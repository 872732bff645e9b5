(** * C13: all processes agree on stopping *)
From Coq Require Import Arith Bool Lia List.
From Verif Require Import SigModel.
Import ListNotations.

(** ** Specification *)
Definition reachable (N L : nat) (s : sst) : Prop := sruns N L s_init s.
(** The process has left the loop, by request or because the run is complete. *)
Definition out_of_loop (L : nat) (s : sst) (r : nat) : Prop :=
  spc_of s r = Stopped \/ (spc_of s r = Top /\ calls s r = L).
(** The process is asked to stop: a signal is pending or its wall time is over. *)
Definition asked (s : sst) (r : nat) : Prop := caught s r <> 0 \/ iquit s r <> 0.

Lemma supd_same : forall A (f : nat -> A) i x, supd f i x i = x.
Proof. intros. unfold supd. rewrite Nat.eqb_refl. reflexivity. Qed.
Lemma supd_other : forall A (f : nat -> A) i x j, j <> i -> supd f i x j = f j.
Proof. intros. unfold supd. destruct (Nat.eqb_spec j i); congruence. Qed.
Lemma supd2_same : forall A (f : nat -> nat -> A) i k x, supd2 f i k x i k = x.
Proof. intros. unfold supd2. rewrite !Nat.eqb_refl. reflexivity. Qed.
Lemma supd2_other : forall A (f : nat -> nat -> A) i k x j m, j <> i \/ m <> k -> supd2 f i k x j m = f j m.
Proof.
  intros. unfold supd2. destruct (Nat.eqb_spec j i); destruct (Nat.eqb_spec m k); auto.
  exfalso. intuition.
Qed.
Lemma maxf_ext : forall N f g, (forall q, q < N -> f q = g q) -> maxf N f = maxf N g.
Proof. induction N; intros; simpl; auto. rewrite (H N), (IHN f g); auto. Qed.
Lemma maxf_ge : forall N f q, q < N -> f q <= maxf N f.
Proof.
  induction N; intros f q L; simpl; [lia|]. destruct (Nat.eq_dec q N) as [->|NE]; [lia|].
  assert (f q <= maxf N f) by (apply IHN; lia). lia.
Qed.
Lemma maxf_zero : forall N f, (forall q, q < N -> f q = 0) -> maxf N f = 0.
Proof. induction N; intros; simpl; auto. rewrite (H N), IHN; auto. Qed.

Definition inflight (p : spc) : nat := match p with Posted | Got => 1 | _ => 0 end.
Definition result (N : nat) (s : sst) (k : nat) : nat := maxf N (fun q => contrib s q k).
Definition in_call (p : spc) : Prop := match p with Tested _ | Posted | Got => True | _ => False end.
Record sinv (N L : nat) (s : sst) : Prop := SInv {
  i_posted : forall r, r < N -> posted s r = calls s r + inflight (spc_of s r);
  i_ret : forall r k, r < N -> k < calls s r -> ret s r k = result N s k;
  i_all : forall r k q, r < N -> k < calls s r -> q < N -> k < posted s q;
  i_got : forall r, r < N -> spc_of s r = Got -> iquit s r = result N s (calls s r);
  i_gotall : forall r q, r < N -> spc_of s r = Got -> q < N -> calls s r < posted s q;
  i_zero : forall r k, r < N -> k < calls s r -> (spc_of s r <> Stopped \/ S k < calls s r) -> ret s r k = 0;
  i_stop : forall r, r < N -> spc_of s r = Stopped -> 0 < calls s r /\ ret s r (calls s r - 1) <> 0;
  i_le : forall r, r < N -> calls s r <= L;
  i_lt : forall r, r < N -> in_call (spc_of s r) -> calls s r < L }.

Lemma sinv_init : forall N L, sinv N L s_init.
Proof. intros. constructor; simpl; intros; try lia; try discriminate; contradiction. Qed.

Lemma result_same : forall N s s' k,
  (forall q, q < N -> contrib s' q k = contrib s q k) -> result N s' k = result N s k.
Proof. intros. apply maxf_ext. auto. Qed.

Lemma sinv_step : forall N L s s', sinv N L s -> sstep N L s s' -> sinv N L s'.
Proof.
  intros N L s s' I H. destruct I as [Ip Ir Ia Ig Iga Iz Is Il Ilt].
  destruct H as [s r R|s r R P C|s r R P C|s r b R P|s r R P Q|s r R P].
  - constructor; cbn [spc_of calls caught iquit posted contrib ret]; auto.
  - constructor; cbn [spc_of calls caught iquit posted contrib ret]; auto.
    intros x X G. rewrite supd_other by (intros ->; congruence). apply Ig; auto.
  - constructor; cbn [spc_of calls caught iquit posted contrib ret]; auto.
    + intros x X. destruct (Nat.eq_dec x r) as [->|NE].
      * rewrite supd_same. rewrite (Ip r), P by auto. reflexivity.
      * rewrite supd_other by auto. auto.
    + intros x X G. destruct (Nat.eq_dec x r) as [->|NE]; [rewrite supd_same in G; discriminate|].
      rewrite supd_other in G by auto. apply Ig; auto.
    + intros x q X G Qq. destruct (Nat.eq_dec x r) as [->|NE]; [rewrite supd_same in G; discriminate|].
      rewrite supd_other in G by auto. eauto.
    + intros x k X K D. destruct (Nat.eq_dec x r) as [->|NE].
      * apply Iz; auto. left. rewrite P. discriminate.
      * rewrite supd_other in D by auto. auto.
    + intros x X D. destruct (Nat.eq_dec x r) as [->|NE]; [rewrite supd_same in D; discriminate|].
      rewrite supd_other in D by auto. auto.
    + intros x X D. destruct (Nat.eq_dec x r) as [->|NE]; auto.
      rewrite supd_other in D by auto. auto.
  - assert (PR : posted s r = calls s r) by (rewrite Ip, P by auto; simpl; lia).
    assert (OLD : forall k x, x < N -> k < calls s x ->
      result N (SSt (supd (spc_of s) r Posted) (calls s) (caught s) (iquit s) (supd (posted s) r (S (posted s r)))
        (supd2 (contrib s) r (posted s r) (if b then caught s r else iquit s r)) (ret s)) k = result N s k).
    { intros k x X K. apply result_same. intros q Qq. cbn [contrib]. apply supd2_other.
      destruct (Nat.eq_dec q r) as [->|]; auto. right. assert (k < posted s r) by (apply (Ia x k r); auto). lia. }
    assert (OLD2 : forall x, x < N -> spc_of s x = Got ->
      result N (SSt (supd (spc_of s) r Posted) (calls s) (caught s) (iquit s) (supd (posted s) r (S (posted s r)))
        (supd2 (contrib s) r (posted s r) (if b then caught s r else iquit s r)) (ret s)) (calls s x) = result N s (calls s x)).
    { intros x X G. apply result_same. intros q Qq. cbn [contrib]. apply supd2_other.
      destruct (Nat.eq_dec q r) as [->|]; auto. right. assert (calls s x < posted s r) by (apply (Iga x r); auto). lia. }
    assert (MON : forall q k, k < posted s q -> k < supd (posted s) r (S (posted s r)) q).
    { intros q k K. destruct (Nat.eq_dec q r) as [->|]; [rewrite supd_same; lia|rewrite supd_other; auto]. }
    constructor; cbn [spc_of calls caught iquit posted contrib ret].
    + intros x X. destruct (Nat.eq_dec x r) as [->|NE].
      * rewrite !supd_same. simpl. lia.
      * rewrite !supd_other by auto. auto.
    + intros x k X K. rewrite (OLD k x) by auto. auto.
    + intros x k q X K Qq. apply MON. eauto.
    + intros x X G. destruct (Nat.eq_dec x r) as [->|NE]; [rewrite supd_same in G; discriminate|].
      rewrite supd_other in G by auto. rewrite OLD2 by auto. auto.
    + intros x q X G Qq. destruct (Nat.eq_dec x r) as [->|NE]; [rewrite supd_same in G; discriminate|].
      rewrite supd_other in G by auto. apply MON. eauto.
    + intros x k X K D. destruct (Nat.eq_dec x r) as [->|NE].
      * apply Iz; auto. left. rewrite P. discriminate.
      * rewrite supd_other in D by auto. auto.
    + intros x X D. destruct (Nat.eq_dec x r) as [->|NE]; [rewrite supd_same in D; discriminate|].
      rewrite supd_other in D by auto. auto.
    + auto.
    + intros x X D. destruct (Nat.eq_dec x r) as [->|NE].
      * apply Ilt; auto. rewrite P. exact I.
      * rewrite supd_other in D by auto. auto.
  - constructor; cbn [spc_of calls caught iquit posted contrib ret]; auto.
    + intros x X. destruct (Nat.eq_dec x r) as [->|NE].
      * rewrite supd_same. simpl. rewrite (Ip r), P by auto. reflexivity.
      * rewrite supd_other by auto. auto.
    + intros x X G. destruct (Nat.eq_dec x r) as [->|NE]; [rewrite supd_same; reflexivity|].
      rewrite supd_other in G by auto. rewrite supd_other by auto. apply Ig; auto.
    + intros x q X G Qq. destruct (Nat.eq_dec x r) as [->|NE]; [auto|].
      rewrite supd_other in G by auto. eauto.
    + intros x k X K D. destruct (Nat.eq_dec x r) as [->|NE].
      * apply Iz; auto. left. rewrite P. discriminate.
      * rewrite supd_other in D by auto. auto.
    + intros x X D. destruct (Nat.eq_dec x r) as [->|NE]; [rewrite supd_same in D; discriminate|].
      rewrite supd_other in D by auto. auto.
    + intros x X D. destruct (Nat.eq_dec x r) as [->|NE].
      * apply Ilt; auto. rewrite P. exact I.
      * rewrite supd_other in D by auto. auto.
  - assert (CL : calls s r < L) by (apply Ilt; auto; rewrite P; exact I).
    constructor; cbn [spc_of calls caught iquit posted contrib ret].
    + intros x X. destruct (Nat.eq_dec x r) as [->|NE].
      * rewrite !supd_same. rewrite (Ip r), P by auto. destruct (iquit s r =? 0); simpl; lia.
      * rewrite !supd_other by auto. auto.
    + intros x k X K. change (result N _ k) with (result N s k).
      destruct (Nat.eq_dec x r) as [->|NE].
      * rewrite supd_same in K. destruct (Nat.eq_dec k (calls s r)) as [->|NK].
        -- rewrite supd2_same. auto.
        -- rewrite supd2_other by auto. apply Ir; auto. lia.
      * rewrite supd_other in K by auto. rewrite supd2_other by auto. auto.
    + intros x k q X K Qq. destruct (Nat.eq_dec x r) as [->|NE].
      * rewrite supd_same in K. destruct (Nat.eq_dec k (calls s r)) as [->|NK]; [apply Iga; auto|].
        apply (Ia r); auto. lia.
      * rewrite supd_other in K by auto. eauto.
    + intros x X G. change (result N _ ?k) with (result N s k). destruct (Nat.eq_dec x r) as [->|NE].
      * rewrite supd_same in G. destruct (iquit s r =? 0); discriminate.
      * rewrite supd_other in G by auto. rewrite supd_other by auto. apply Ig; auto.
    + intros x q X G Qq. destruct (Nat.eq_dec x r) as [->|NE].
      * rewrite supd_same in G. destruct (iquit s r =? 0); discriminate.
      * rewrite supd_other in G by auto. rewrite supd_other by auto. eauto.
    + intros x k X K D. destruct (Nat.eq_dec x r) as [->|NE].
      * rewrite supd_same in K. rewrite !supd_same in D. destruct (Nat.eq_dec k (calls s r)) as [->|NK].
        -- rewrite supd2_same. destruct (Nat.eqb_spec (iquit s r) 0); auto. exfalso. destruct D; [auto|lia].
        -- rewrite supd2_other by auto. apply Iz; auto; [lia|]. left. rewrite P. discriminate.
      * rewrite supd_other in K by auto. rewrite !supd_other in D by auto. rewrite supd2_other by auto. auto.
    + intros x X D. destruct (Nat.eq_dec x r) as [->|NE].
      * rewrite supd_same in D. rewrite supd_same. destruct (Nat.eqb_spec (iquit s r) 0); [discriminate|].
        split; [lia|]. replace (S (calls s r) - 1) with (calls s r) by lia. rewrite supd2_same. auto.
      * rewrite supd_other in D by auto. rewrite supd_other by auto. rewrite supd2_other by auto. auto.
    + intros x X. destruct (Nat.eq_dec x r) as [->|NE]; [rewrite supd_same; lia|rewrite supd_other by auto; auto].
    + intros x X D. destruct (Nat.eq_dec x r) as [->|NE].
      * rewrite supd_same in D. destruct (iquit s r =? 0); contradiction.
      * rewrite supd_other in D by auto. rewrite supd_other by auto. auto.
Qed.

Lemma sinv_run : forall N L s s', sruns N L s s' -> sinv N L s -> sinv N L s'.
Proof. intros N L s s' H I. induction H as [|s s1 s2 R IH ST]; auto. apply (sinv_step N L s1); auto. Qed.
Lemma sinv_reach : forall N L s, reachable N L s -> sinv N L s.
Proof. intros. eapply sinv_run; eauto. apply sinv_init. Qed.

(** ** All processes get the same answer from the same call. *)
Theorem C13_same_decision : forall N L s r q k, reachable N L s -> r < N -> q < N ->
  k < calls s r -> k < calls s q -> ret s r k = ret s q k.
Proof.
  intros N L s r q k H R Q K1 K2. apply sinv_reach in H. destruct H.
  rewrite (i_ret0 r k), (i_ret0 q k); auto.
Qed.
Print Assumptions C13_same_decision.

(** ** No process is left alone: the run can always continue until all processes
    have left the loop, and then all of them left it after the same cycle. *)
Lemma find_min : forall (f : nat -> nat) (P : nat -> Prop) N, (forall r, {P r} + {~ P r}) ->
  (forall r, r < N -> ~ P r) \/
  exists r, r < N /\ P r /\ forall q, q < N -> P q -> f r <= f q.
Proof.
  intros f P N D. induction N as [|N IH]; [left; intros; lia|].
  destruct (D N) as [PN|NN].
  - right. destruct IH as [A|(r & R & PR & M)].
    + exists N. split; [lia|]. split; auto. intros q Q PQ. destruct (Nat.eq_dec q N) as [->|]; auto.
      exfalso. apply (A q); auto. lia.
    + destruct (Nat.le_gt_cases (f r) (f N)).
      * exists r. split; [lia|]. split; auto. intros q Q PQ. destruct (Nat.eq_dec q N) as [->|]; auto. apply M; auto. lia.
      * exists N. split; [lia|]. split; auto. intros q Q PQ. destruct (Nat.eq_dec q N) as [->|]; auto.
        assert (f r <= f q) by (apply M; auto; lia). lia.
  - destruct IH as [A|(r & R & PR & M)].
    + left. intros r R. destruct (Nat.eq_dec r N) as [->|]; auto. apply A. lia.
    + right. exists r. split; [lia|]. split; auto. intros q Q PQ. destruct (Nat.eq_dec q N) as [->|]; [contradiction|].
      apply M; auto. lia.
Qed.
Lemma out_dec : forall L s r, {~ out_of_loop L s r} + {~ ~ out_of_loop L s r}.
Proof.
  intros. unfold out_of_loop. destruct (spc_of s r); destruct (Nat.eq_dec (calls s r) L);
    try (left; intros [X|[X Y]]; congruence); right; intros N; apply N; auto.
Qed.
Lemma out_dec' : forall L s r, ~ ~ out_of_loop L s r -> out_of_loop L s r.
Proof.
  intros L s r H. unfold out_of_loop in *. destruct (spc_of s r) eqn:E; destruct (Nat.eq_dec (calls s r) L); auto;
    exfalso; apply H; intros [X|[X Y]]; congruence.
Qed.
Lemma first_unposted : forall (s : sst) k N, (forall q, q < N -> k < posted s q) \/ exists q, q < N /\ posted s q <= k.
Proof.
  intros s k. induction N as [|N IH]; [left; intros; lia|].
  destruct IH as [A|(q & Q & B)]; [|right; exists q; split; auto; lia].
  destruct (Nat.le_gt_cases (posted s N) k); [right; exists N; split; auto|].
  left. intros q Q. destruct (Nat.eq_dec q N) as [->|]; auto. apply A. lia.
Qed.

Theorem C13_nobody_left_waiting : forall N L s, reachable N L s ->
  (* either some process can take a step of its own (not a signal) ... *)
  (exists s' r, r < N /\ sstep N L s s' /\ (spc_of s' r <> spc_of s r)) \/
  (* ... or all have left the loop, after the same number of cycles *)
  ((forall r, r < N -> out_of_loop L s r) /\ (forall r q, r < N -> q < N -> calls s r = calls s q)).
Proof.
  intros N L s H. apply sinv_reach in H. destruct H as [Ip Ir Ia Ig Iga Iz Is Il Ilt].
  assert (SAME : forall r q k, r < N -> q < N -> k < calls s r -> k < calls s q -> ret s r k = ret s q k)
    by (intros; rewrite (Ir r k), (Ir q k); auto).
  destruct (find_min (calls s) (fun r => ~ out_of_loop L s r) N (out_dec L s)) as [A|(r & R & U & M)].
  - right. split; [intros; apply out_dec'; auto|]. intros r q R Q.
    assert (LE : forall r q, r < N -> q < N -> ~ calls s r < calls s q).
    { clear r q R Q. intros r q R Q LT. assert (O1 := out_dec' _ _ _ (A r R)).
      assert (Il' := Il q Q). destruct O1 as [S1|[S1 S2]]; [|lia].
      destruct (Is r R S1) as [P1 P2]. apply P2.
      rewrite (SAME r q) by (auto; lia). apply Iz; auto; [lia|]. right. lia. }
    assert (~ calls s r < calls s q) by auto. assert (~ calls s q < calls s r) by auto. lia.
  - left. destruct (spc_of s r) eqn:P.
    + assert (calls s r < L). { assert (X := Il r R). assert (calls s r <> L) by (intros E; apply U; right; auto). lia. }
      eexists. exists r. split; auto. split; [apply (st_test N L s r); auto|]. cbn. rewrite supd_same, P. discriminate.
    + eexists. exists r. split; auto. split; [apply (st_post N L s r b); auto|]. cbn. rewrite supd_same, P. discriminate.
    + assert (CL : calls s r < L) by (apply Ilt; auto; rewrite P; exact I).
      destruct (first_unposted s (calls s r) N) as [B|(q & Q & B)].
      * eexists. exists r. split; auto. split; [apply (st_recv N L s r); auto|]. cbn. rewrite supd_same, P. discriminate.
      * assert (Pq := Ip q Q). destruct (out_dec L s q) as [NO|O].
        -- assert (calls s r <= calls s q) by (apply M; auto).
           destruct (spc_of s q) eqn:E; simpl in Pq; try lia.
           ++ eexists. exists q. split; auto. split; [apply (st_test N L s q); auto; lia|]. cbn. rewrite supd_same, E. discriminate.
           ++ eexists. exists q. split; auto. split; [apply (st_post N L s q b); auto|]. cbn. rewrite supd_same, E. discriminate.
           ++ exfalso. apply NO. left. auto.
        -- apply out_dec' in O. destruct O as [S1|[S1 S2]]; [|lia].
           exfalso. destruct (Is q Q S1) as [P1 P2]. apply P2.
           rewrite (SAME q r) by (auto; lia). apply Iz; auto; [lia|]. left. rewrite P. discriminate.
    + eexists. exists r. split; auto. split; [apply (st_return N L s r); auto|]. cbn. rewrite supd_same, P.
      destruct (iquit s r =? 0); discriminate.
    + exfalso. apply U. left. auto.
Qed.
Print Assumptions C13_nobody_left_waiting.

(** ** A request that is there when the call starts is not overlooked. *)
Theorem C13_request_before_call_stops_all : forall N L s s' r q, reachable N L s ->
  r < N -> spc_of s r = Top -> asked s r -> sruns N L s s' ->
  q < N -> calls s r < calls s' q -> ret s' q (calls s r) <> 0.
Proof.
  intros N L s s' r q H R P A RUN Q K.
  assert (I := sinv_reach _ _ _ H).
  set (k := calls s r) in *.
  assert (J : sinv N L s' /\ k <= calls s' r /\
     ((calls s' r = k /\ spc_of s' r = Top /\ asked s' r) \/
      (calls s' r = k /\ exists b, spc_of s' r = Tested b /\ (if b then caught s' r else iquit s' r) <> 0) \/
      (k < posted s' r /\ contrib s' r k <> 0))).
  { clear K. induction RUN as [s|s s1 s2 RUN IH STEP].
    - split; [exact I|]. split; [unfold k; lia|]. left. auto.
    - specialize (IH H P A I). fold k in IH. destruct IH as (I1 & LE & C).
      assert (I2 := sinv_step _ _ _ _ I1 STEP). split; auto.
      destruct I1 as [Ip Ir Ia Ig Iga Iz Is Il Ilt]. assert (Ipr := Ip r R).
      destruct STEP as [s1 x X|s1 x X PX CX|s1 x X PX CX|s1 x b X PX|s1 x X PX QX|s1 x X PX];
        cbn [spc_of calls caught iquit posted contrib ret].
      + split; auto. destruct C as [(C1 & C2 & C3)|[(C1 & b & C2 & C3)|(C1 & C2)]].
        * left. repeat split; auto. unfold asked in *. cbn. destruct (Nat.eq_dec r x) as [<-|NE].
          -- rewrite supd_same. left. discriminate.
          -- rewrite supd_other by auto. auto.
        * right. left. split; auto. exists b. split; auto. destruct (Nat.eq_dec r x) as [<-|NE].
          -- rewrite supd_same. destruct b; auto. discriminate.
          -- rewrite supd_other by auto. auto.
        * right. right. auto.
      + split; auto. destruct C as [(C1 & C2 & C3)|[(C1 & b & C2 & C3)|(C1 & C2)]].
        * left. repeat split; auto. unfold asked in *. cbn. destruct (Nat.eq_dec r x) as [<-|NE].
          -- rewrite supd_same. right. discriminate.
          -- rewrite supd_other by auto. auto.
        * right. left. split; auto. exists b. split; auto. destruct (Nat.eq_dec r x) as [<-|NE]; [congruence|].
          rewrite supd_other by auto. auto.
        * right. right. auto.
      + split; auto. destruct (Nat.eq_dec r x) as [<-|NE].
        * destruct C as [(C1 & C2 & C3)|[(C1 & b & C2 & C3)|(C1 & C2)]]; [|congruence|right; right; auto].
          right. left. split; auto. rewrite supd_same. eexists. split; [reflexivity|].
          destruct C3; destruct (Nat.ltb_spec (iquit s1 r) (caught s1 r)); lia.
        * rewrite supd_other by auto. destruct C as [C|[C|C]]; auto.
      + split; auto. destruct (Nat.eq_dec r x) as [<-|NE].
        * rewrite !supd_same. rewrite PX in Ipr. simpl in Ipr.
          destruct C as [(C1 & C2 & C3)|[(C1 & b' & C2 & C3)|(C1 & C2)]]; [congruence| |].
          -- right. right. split; [lia|]. replace k with (posted s1 r) by lia. rewrite supd2_same. assert (b' = b) by congruence. subst b'. exact C3.
          -- right. right. split; [lia|]. rewrite supd2_other by lia. auto.
        * rewrite !supd_other by auto. destruct C as [C|[C|(C1 & C2)]]; auto.
          right. right. split; auto. rewrite supd2_other; auto.
      + split; auto. destruct (Nat.eq_dec r x) as [<-|NE].
        * destruct C as [(C1 & C2 & C3)|[(C1 & b' & C2 & C3)|(C1 & C2)]]; [congruence|congruence|auto].
        * unfold asked. cbn. rewrite !supd_other by auto. destruct C as [C|[C|C]]; auto.
      + destruct (Nat.eq_dec r x) as [<-|NE].
        * split; [rewrite supd_same; lia|].
          destruct C as [(C1 & C2 & C3)|[(C1 & b' & C2 & C3)|(C1 & C2)]]; [congruence|congruence|auto].
        * unfold asked. cbn. rewrite !supd_other by auto. split; auto. }
  destruct J as (I' & LE & C). destruct I' as [Ip Ir Ia Ig Iga Iz Is Il Ilt].
  assert (B : k < posted s' r) by (eapply Ia; [| exact K | auto]; auto).
  assert (Ipr := Ip r R). rewrite (Ir q k) by auto.
  destruct C as [(C1 & C2 & C3)|[(C1 & b' & C2 & C3)|(C1 & C2)]].
  - rewrite C2 in Ipr. simpl in Ipr. lia.
  - rewrite C2 in Ipr. simpl in Ipr. lia.
  - intros Z. apply C2. assert (X := maxf_ge N (fun q => contrib s' q k) r R). cbv beta in X. unfold result in Z. lia.
Qed.
Print Assumptions C13_request_before_call_stops_all.

(** ** The program never stops without having been asked. *)
Theorem C13_stop_has_cause : forall N L s r k, reachable N L s -> r < N -> k < calls s r -> ret s r k <> 0 ->
  exists s0 q, sruns N L s_init s0 /\ sruns N L s0 s /\ q < N /\
    (caught s0 q = SIGTERM \/ iquit s0 q = WALLQUIT).
Proof.
  intros N L s r k H R K Z.
  assert (J : (exists s0 q, sruns N L s_init s0 /\ sruns N L s0 s /\ q < N /\
                 (caught s0 q = SIGTERM \/ iquit s0 q = WALLQUIT)) \/
              ((forall q, caught s q = 0 /\ iquit s q = 0) /\ (forall q k, contrib s q k = 0 /\ ret s q k = 0))).
  { clear - H. unfold reachable in H. remember s_init as s0 eqn:E. induction H as [s|s s1 s2 RUN IH STEP]; subst.
    - right. split; intros; simpl; auto.
    - destruct (IH eq_refl) as [(s0 & q & A & B & C & D)|(A & B)]; [left; exists s0, q; split; auto; split; auto; eapply srS; eauto|].
      destruct STEP as [s1 x X|s1 x X PX CX|s1 x X PX CX|s1 x b X PX|s1 x X PX QX|s1 x X PX].
      + left. eexists. exists x. split; [eapply srS; [exact RUN|apply (st_signal N L s1 x); auto]|].
        split; [apply sr0|]. split; auto. left. cbn. apply supd_same.
      + left. eexists. exists x. split; [eapply srS; [exact RUN|apply (st_wall N L s1 x); auto]|].
        split; [apply sr0|]. split; auto. right. cbn. apply supd_same.
      + right. auto.
      + right. split; auto. intros q k. cbn. destruct (B q k) as [B1 B2]. split; auto. unfold supd2.
        destruct ((q =? x) && (k =? posted s1 x)); auto. destruct (A x). destruct b; auto.
      + right. split; auto. intros q. cbn. destruct (A q). split; auto. unfold supd. destruct (q =? x); auto.
        apply maxf_zero. intros y _. apply B.
      + right. cbn. split.
        * intros q. destruct (A q). split; auto. unfold supd. destruct (q =? x); auto.
        * intros q k. destruct (B q k). split; auto. unfold supd2. destruct ((q =? x) && (k =? calls s1 x)); auto. apply A. }
  destruct J as [J|[A B]]; auto. exfalso. apply Z. apply B.
Qed.
Print Assumptions C13_stop_has_cause.

(** ** A signal that arrives while ath_sig_act is running can be lost: the call
    returns 0 on every process, and afterwards no trace of the signal is left. *)
Theorem C13_signal_during_call_refuted : exists s1 s2 s3,
  reachable 2 2 s1 /\
  spc_of s1 0 = Posted /\ calls s1 0 = 0 /\ caught s1 0 = 0 /\
  s2 = SSt (spc_of s1) (calls s1) (supd (caught s1) 0 SIGTERM) (iquit s1) (posted s1) (contrib s1) (ret s1) /\
  sstep 2 2 s1 s2 /\ sruns 2 2 s2 s3 /\
  (forall r, r < 2 -> calls s3 r = 1 /\ ret s3 r 0 = 0 /\ spc_of s3 r = Top /\ caught s3 r = 0 /\ iquit s3 r = 0).
Proof.
  pose (a1 := SSt (supd (fun _ => Top) 0 (Tested false)) (fun _ => 0) (fun _ => 0) (fun _ => 0) (fun _ => 0) (fun _ _ => 0) (fun _ _ => 0)).
  pose (a2 := SSt (supd (spc_of a1) 0 Posted) (fun _ => 0) (fun _ => 0) (fun _ => 0) (supd (fun _ => 0) 0 1)
                  (supd2 (fun _ _ => 0) 0 0 0) (fun _ _ => 0)).
  pose (a3 := SSt (supd (spc_of a2) 1 (Tested false)) (fun _ => 0) (fun _ => 0) (fun _ => 0) (posted a2) (contrib a2) (fun _ _ => 0)).
  pose (a4 := SSt (supd (spc_of a3) 1 Posted) (fun _ => 0) (fun _ => 0) (fun _ => 0) (supd (posted a3) 1 1)
                  (supd2 (contrib a3) 1 0 0) (fun _ _ => 0)).
  pose (a5 := SSt (spc_of a4) (fun _ => 0) (supd (fun _ => 0) 0 SIGTERM) (fun _ => 0) (posted a4) (contrib a4) (fun _ _ => 0)).
  pose (a6 := SSt (supd (spc_of a5) 0 Got) (fun _ => 0) (caught a5) (supd (fun _ => 0) 0 0) (posted a4) (contrib a4) (fun _ _ => 0)).
  pose (a7 := SSt (supd (spc_of a6) 1 Got) (fun _ => 0) (caught a5) (supd (iquit a6) 1 0) (posted a4) (contrib a4) (fun _ _ => 0)).
  pose (a8 := SSt (supd (spc_of a7) 0 Top) (supd (fun _ => 0) 0 1) (supd (caught a5) 0 0) (iquit a7) (posted a4) (contrib a4) (supd2 (fun _ _ => 0) 0 0 0)).
  pose (a9 := SSt (supd (spc_of a8) 1 Top) (supd (calls a8) 1 1) (supd (caught a8) 1 0) (iquit a7) (posted a4) (contrib a4) (supd2 (ret a8) 1 0 0)).
  exists a4, a5, a9. repeat split; try reflexivity.
  - apply srS with a3; [apply srS with a2; [apply srS with a1; [apply srS with s_init; [apply sr0|]|]|]|].
    + exact (st_test 2 2 s_init 0 ltac:(auto) eq_refl ltac:(auto)).
    + exact (st_post 2 2 a1 0 false ltac:(auto) eq_refl).
    + exact (st_test 2 2 a2 1 ltac:(auto) eq_refl ltac:(auto)).
    + exact (st_post 2 2 a3 1 false ltac:(auto) eq_refl).
  - exact (st_signal 2 2 a4 0 ltac:(auto)).
  - apply srS with a8; [apply srS with a7; [apply srS with a6; [apply srS with a5; [apply sr0|]|]|]|].
    + apply (st_recv 2 2 a5 0); [auto|reflexivity|]. intros [|[|q]] Q; try lia; cbn; lia.
    + apply (st_recv 2 2 a6 1); [auto|reflexivity|]. intros [|[|q]] Q; try lia; cbn; lia.
    + exact (st_return 2 2 a7 0 ltac:(auto) eq_refl).
    + exact (st_return 2 2 a8 1 ltac:(auto) eq_refl).
  - destruct r as [|[|r]]; [reflexivity|reflexivity|lia].
  - destruct r as [|[|r]]; [reflexivity|reflexivity|lia].
  - destruct r as [|[|r]]; [reflexivity|reflexivity|lia].
  - destruct r as [|[|r]]; [reflexivity|reflexivity|lia].
  - destruct r as [|[|r]]; [reflexivity|reflexivity|lia].
Qed.
Print Assumptions C13_signal_during_call_refuted.

(** A run in which a signal on process 1 stops both processes. *)
Example C13_example : exists s s', reachable 2 5 s /\ spc_of s 1 = Top /\ asked s 1 /\ sruns 2 5 s s' /\
  calls s' 0 = 1 /\ ret s' 0 0 = SIGTERM /\ spc_of s' 0 = Stopped /\ spc_of s' 1 = Stopped.
Proof.
  pose (z := fun _ : nat => 0). pose (zz := fun _ _ : nat => 0).
  pose (b0 := SSt (fun _ => Top) z (supd z 1 SIGTERM) z z zz zz).
  pose (b1 := SSt (supd (fun _ => Top) 0 (Tested false)) z (caught b0) z z zz zz).
  pose (b2 := SSt (supd (spc_of b1) 1 (Tested true)) z (caught b0) z z zz zz).
  pose (b3 := SSt (supd (spc_of b2) 0 Posted) z (caught b0) z (supd z 0 1) (supd2 zz 0 0 0) zz).
  pose (b4 := SSt (supd (spc_of b3) 1 Posted) z (caught b0) z (supd (posted b3) 1 1) (supd2 (contrib b3) 1 0 15) zz).
  pose (b5 := SSt (supd (spc_of b4) 0 Got) z (caught b0) (supd z 0 15) (posted b4) (contrib b4) zz).
  pose (b6 := SSt (supd (spc_of b5) 1 Got) z (caught b0) (supd (iquit b5) 1 15) (posted b4) (contrib b4) zz).
  pose (b7 := SSt (supd (spc_of b6) 0 Stopped) (supd z 0 1) (supd (caught b0) 0 0) (iquit b6) (posted b4) (contrib b4) (supd2 zz 0 0 15)).
  pose (b8 := SSt (supd (spc_of b7) 1 Stopped) (supd (calls b7) 1 1) (supd (caught b7) 1 0) (iquit b6) (posted b4) (contrib b4) (supd2 (ret b7) 1 0 15)).
  exists b0, b8. split; [|split; [reflexivity|split; [left; discriminate|split; [|repeat split]]]].
  - apply srS with s_init; [apply sr0|]. exact (st_signal 2 5 s_init 1 ltac:(auto)).
  - apply srS with b7; [apply srS with b6; [apply srS with b5; [apply srS with b4; [apply srS with b3;
      [apply srS with b2; [apply srS with b1; [apply srS with b0; [apply sr0|]|]|]|]|]|]|]|].
    + exact (st_test 2 5 b0 0 ltac:(auto) eq_refl ltac:(unfold b0, z; simpl; lia)).
    + exact (st_test 2 5 b1 1 ltac:(auto) eq_refl ltac:(unfold b1, z; simpl; lia)).
    + exact (st_post 2 5 b2 0 false ltac:(auto) eq_refl).
    + exact (st_post 2 5 b3 1 true ltac:(auto) eq_refl).
    + apply (st_recv 2 5 b4 0); [auto|reflexivity|]. intros [|[|q]] Q; [change (0 < 1); lia|change (0 < 1); lia|lia].
    + apply (st_recv 2 5 b5 1); [auto|reflexivity|]. intros [|[|q]] Q; [change (0 < 1); lia|change (0 < 1); lia|lia].
    + exact (st_return 2 5 b6 0 ltac:(auto) eq_refl).
    + exact (st_return 2 5 b7 1 ltac:(auto) eq_refl).
Qed.
