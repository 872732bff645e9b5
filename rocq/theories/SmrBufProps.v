(** * The messages of mesh refinement and their buffers (C73) *)
From Coq Require Import ZArith Bool Arith Lia Permutation List.
From Verif Require Import CStr SmrBufModel.
Import ListNotations.
Open Scope Z_scope.

(** ** Specification *)
Definition lawful (L : links) : Prop := (l_my L <= length (l_w L))%nat /\ Forall (fun x => 0 <= x) (l_w L).
(** The overlaps with Grids of other processes that exchange a message. *)
Definition talks (L : links) (g : nat) : Prop := (l_my L <= g < length (l_w L))%nat /\ nth g (l_w L) 0 <> 0.
(** A buffer after some of the receives have been completed: receive q puts the message of its
    sender, msg (q_g q), at q_addr q. *)
Section Data.
Context {V : Type}.
Definition put (b : Z -> V) (a : Z) (l : list V) : Z -> V :=
  fun x => if (a <=? x) && (x <? a + Z.of_nat (length l)) then nth (Z.to_nat (x - a)) l (b x) else b x.
Definition deliver (msg : nat -> list V) (D : list req) (b : Z -> V) : Z -> V := fold_left (fun b q => put b (q_addr q) (msg (q_g q))) D b.
(** The n elements from a on. *)
Definition read (b : Z -> V) (a : Z) (n : nat) : list V := map (fun x => b (a + Z.of_nat x)) (seq 0 n).
End Data.

(** ** Posting and decoding *)
Definition nz (l : list Z) : nat := length (filter (fun x => negb (x =? 0)) l).
Lemma nz_zero : forall l, (nz l + nzero l)%nat = length l.
Proof. induction l as [|x l IH]; [reflexivity|]. unfold nz, nzero in *. cbn [filter]. destruct (x =? 0); cbn [negb length]; lia. Qed.
Lemma sumw_app : forall a b, sumw (a ++ b) = sumw a + sumw b.
Proof. induction a as [|x a IH]; intros b; cbn [app sumw fold_right]; [reflexivity|]. fold (sumw (a ++ b)) (sumw a). rewrite IH. ring. Qed.
Lemma sumw_cons : forall x l, sumw (x :: l) = x + sumw l. Proof. reflexivity. Qed.
Lemma sumw_nonneg : forall l, Forall (fun x => 0 <= x) l -> 0 <= sumw l.
Proof. induction 1; cbn [sumw fold_right]; [lia|]. fold (sumw l). lia. Qed.

Lemma post_in : forall w my i zero addr q, (my + zero <= i)%nat ->
  (In q (post my i zero addr w) <-> exists pre x suf, w = pre ++ x :: suf /\ x <> 0 /\ q = Req (i - my - zero + nz pre) (addr + sumw pre) x (i + length pre)).
Proof.
  induction w as [|x w IH]; intros my i zero addr q LE; cbn [post].
  - split; [intros []|]. intros (pre & x & suf & E & _). destruct pre; discriminate E.
  - destruct (x =? 0) eqn:X.
    + apply Z.eqb_eq in X. subst x. rewrite IH by lia. split.
      * intros (pre & x & suf & -> & NX & ->). exists (0 :: pre), x, suf. split; [reflexivity|]. split; [exact NX|]. unfold nz, sumw. cbn [filter negb Z.eqb length fold_right]. f_equal; try lia.
      * intros (pre & x & suf & E & NX & ->). destruct pre as [|y pre]; injection E as Ey Ew; [congruence|]. subst y w. exists pre, x, suf. split; [reflexivity|]. split; [exact NX|]. unfold nz, sumw. cbn [filter negb Z.eqb length fold_right]. f_equal; try lia.
    + apply Z.eqb_neq in X. cbn [In]. rewrite IH by lia. split.
      * intros [<-|(pre & y & suf & -> & NX & ->)].
        -- exists [], x, w. split; [reflexivity|]. split; [exact X|]. cbn. f_equal; lia.
        -- exists (x :: pre), y, suf. split; [reflexivity|]. split; [exact NX|]. unfold nz, sumw. cbn [filter]. apply Z.eqb_neq in X. rewrite X. cbn [negb length fold_right]. f_equal; try lia.
      * intros (pre & y & suf & E & NX & ->). destruct pre as [|z pre]; injection E as Ey Ew.
        -- left. subst. cbn. f_equal; lia.
        -- right. subst z w. exists pre, y, suf. split; [reflexivity|]. split; [exact NX|]. unfold nz, sumw. cbn [filter]. apply Z.eqb_neq in X. rewrite X. cbn [negb length fold_right]. f_equal; try lia.
Qed.
Lemma post_m : forall w my i zero addr, (my + zero <= i)%nat -> map q_m (post my i zero addr w) = seq (i - my - zero) (nz w).
Proof.
  induction w as [|x w IH]; intros my i zero addr LE; cbn [post]; [reflexivity|]. unfold nz. cbn [filter]. destruct (x =? 0) eqn:X; cbn [negb].
  - rewrite IH by lia. f_equal. lia.
  - cbn [map q_m length seq]. fold (nz w). rewrite IH by lia. f_equal. f_equal. lia.
Qed.
Lemma dec_at : forall pre x suf i, x <> 0 -> dec (pre ++ x :: suf) i (i + nz pre) = Some (i + length pre)%nat.
Proof.
  induction pre as [|y pre IH]; intros x suf i NX; cbn [app dec].
  - unfold nz. cbn [filter length]. rewrite Nat.add_0_r, Nat.leb_refl. apply Z.eqb_neq in NX. rewrite NX. destruct suf; cbn [dec]; rewrite (proj2 (Nat.leb_gt (S i) i)) by lia; reflexivity.
  - rewrite (proj2 (Nat.leb_le _ _)) by lia. unfold nz. cbn [filter length]. destruct (y =? 0) eqn:Y; cbn [negb length]; fold (nz pre).
    + replace (S (i + nz pre)) with (S i + nz pre)%nat by lia. rewrite IH by exact NX. f_equal. lia.
    + replace (i + S (nz pre))%nat with (S i + nz pre)%nat by lia. rewrite IH by exact NX. f_equal. lia.
Qed.

Lemma remote_split : forall L, lawful L -> l_w L = firstn (l_my L) (l_w L) ++ remote L /\ length (firstn (l_my L) (l_w L)) = l_my L.
Proof. intros L (A & _). split; [symmetry; apply firstn_skipn|apply firstn_length_le; exact A]. Qed.
Lemma skipn_nth : forall (l : list Z) n k, nth k (skipn n l) 0 = nth (n + k) l 0.
Proof. induction l as [|x l IH]; intros [|n] k; cbn [skipn plus]; try reflexivity; [destruct k; reflexivity|]. cbn [nth]. apply IH. Qed.
Lemma split_at : forall (l : list Z) k, (k < length l)%nat -> l = firstn k l ++ nth k l 0 :: skipn (S k) l.
Proof. induction l as [|x l IH]; intros k K; cbn [length] in K; [lia|]. destruct k; cbn [firstn nth skipn app]; [reflexivity|]. f_equal. apply IH. lia. Qed.
Lemma remote_len : forall L, length (remote L) = (length (l_w L) - l_my L)%nat.
Proof. intros L. apply skipn_length. Qed.

Lemma posted : forall L base q, lawful L -> In q (post (l_my L) (l_my L) 0 base (remote L)) <->
  talks L (q_g q) /\ q = Req (nz (firstn (q_g q - l_my L) (remote L))) (base + sumw (firstn (q_g q - l_my L) (remote L))) (nth (q_g q) (l_w L) 0) (q_g q).
Proof.
  intros L base q LW. rewrite post_in by lia. pose proof (remote_len L) as RL. split.
  - intros (pre & x & suf & E & NX & ->). cbn [q_g]. replace (l_my L + length pre - l_my L)%nat with (length pre) by lia.
    assert (F : firstn (length pre) (remote L) = pre) by (rewrite E, firstn_app, firstn_all, Nat.sub_diag; cbn [firstn]; apply app_nil_r).
    assert (X : nth (l_my L + length pre) (l_w L) 0 = x). { rewrite <- skipn_nth. fold (remote L). rewrite E, app_nth2, Nat.sub_diag by lia. reflexivity. }
    rewrite F, X. split; [|f_equal; lia]. split; [|rewrite X; exact NX]. rewrite E in RL. rewrite app_length in RL. cbn [length] in RL. lia.
  - intros ((G & NX) & E). set (g := q_g q) in *. clearbody g. subst q. exists (firstn (g - l_my L) (remote L)), (nth g (l_w L) 0), (skipn (S (g - l_my L)) (remote L)).
    assert (X : nth (g - l_my L) (remote L) 0 = nth g (l_w L) 0). { unfold remote. rewrite skipn_nth. f_equal. lia. }
    split; [rewrite <- X; apply split_at; lia|]. split; [exact NX|]. rewrite firstn_length_le by lia. f_equal; lia.
Qed.
Lemma posted_of : forall L base g, lawful L -> talks L g -> In g (map q_g (post (l_my L) (l_my L) 0 base (remote L))).
Proof.
  intros L base g LW T. apply in_map_iff. exists (Req (nz (firstn (g - l_my L) (remote L))) (base + sumw (firstn (g - l_my L) (remote L))) (nth g (l_w L) 0) g). split; [reflexivity|]. apply (posted L base _ LW). split; [exact T|reflexivity].
Qed.
Lemma decoded : forall L g, lawful L -> talks L g -> dec (remote L) (l_my L) (nz (firstn (g - l_my L) (remote L)) + l_my L) = Some g.
Proof.
  intros L g LW ((G1 & G2) & NX). pose proof (remote_len L) as RL. set (p := firstn (g - l_my L) (remote L)).
  assert (X : nth (g - l_my L) (remote L) 0 = nth g (l_w L) 0). { unfold remote. rewrite skipn_nth. f_equal. lia. }
  rewrite (split_at (remote L) (g - l_my L)) by lia. fold p. rewrite Nat.add_comm, dec_at by (rewrite X; exact NX). unfold p. rewrite firstn_length_le by lia. f_equal. lia.
Qed.

(** ** The loop that reads *)
Lemma remove_len : forall (l : list nat) m, NoDup l -> In m l -> length (remove Nat.eq_dec m l) = pred (length l).
Proof.
  induction l as [|x l IH]; intros m ND I; [destruct I|]. inversion ND as [|? ? NI ND']; subst. cbn [remove]. destruct (Nat.eq_dec m x) as [->|NE].
  - rewrite notin_remove by exact NI. reflexivity.
  - destruct I as [->|I]; [congruence|]. cbn [length]. rewrite IH by assumption. destruct l; [destruct I|reflexivity].
Qed.
Lemma remove_perm : forall (l : list nat) m, NoDup l -> In m l -> Permutation l (m :: remove Nat.eq_dec m l).
Proof.
  induction l as [|x l IH]; intros m ND I; [destruct I|]. inversion ND as [|? ? NI ND']; subst. cbn [remove]. destruct (Nat.eq_dec m x) as [->|NE].
  - rewrite notin_remove by exact NI. reflexivity.
  - destruct I as [->|I]; [congruence|]. rewrite (IH m ND' I) at 1. apply perm_swap.
Qed.
Lemma get_any : forall my dc sched f (active : list nat) ncg, (my <= ncg)%nat -> NoDup active -> (forall m, In m active -> dc m = Some (f m)) ->
  exists r, get my dc sched (length active) ncg active = Ok r /\ Permutation r (map (fun m => let (g, a) := f m in (g, Some a)) active).
Proof.
  intros my dc sched f active. remember (length active) as n eqn:N. revert active N. induction n as [|n IH]; intros active N ncg LE ND DC.
  - destruct active; [|discriminate N]. exists []. split; [reflexivity|constructor].
  - cbn [get]. rewrite (proj2 (Nat.ltb_ge _ _)) by lia. destruct active as [|x active]; [discriminate N|]. cbn [length] in N.
    set (m := nth (sched ncg mod S (length active)) (x :: active) 0%nat).
    assert (I : In m (x :: active)). { apply nth_In. cbn [length]. apply Nat.mod_upper_bound. lia. }
    cbn [length]. fold m. rewrite (DC m I). destruct (f m) as [g a] eqn:F.
    destruct (IH (remove Nat.eq_dec m (x :: active))) with (ncg := S ncg) as (r & R1 & R2).
    + rewrite remove_len by assumption. cbn [length]. lia.
    + lia.
    + pose proof (remove_perm _ _ ND I) as P. apply (Permutation_NoDup P) in ND. inversion ND; assumption.
    + intros m' I'. apply in_remove in I'. apply DC, I'.
    + rewrite R1. cbn [bind]. eexists. split; [reflexivity|]. rewrite (Permutation_map _ (remove_perm _ _ ND I)). cbn [map]. rewrite F. apply perm_skip. exact R2.
Qed.
Lemma get_own : forall my dc sched active n c, (n <= my)%nat ->
  get my dc sched (n + c) (my - n) active = (r <- get my dc sched c my active;; Ok (map (fun i => (i, None)) (seq (my - n) n) ++ r)).
Proof.
  induction n as [|n IH]; intros c LE.
  - cbn [plus seq map app]. rewrite Nat.sub_0_r. destruct (get my dc sched c my active); reflexivity.
  - cbn [plus get]. rewrite (proj2 (Nat.ltb_lt _ _)) by lia. replace (S (my - S n)) with (my - n)%nat by lia. rewrite IH by lia.
    destruct (get my dc sched c my active); cbn [bind]; try reflexivity. cbn [seq map app]. replace (S (my - S n)) with (my - n)%nat by lia. reflexivity.
Qed.
Lemma get_all : forall L dc sched base f, lawful L -> let Q := post (l_my L) (l_my L) 0 base (remote L) in
  (forall q, In q Q -> dc (q_m q) = Some (q_g q, f q)) ->
  exists r, get (l_my L) dc sched (length (l_w L) - nzero (remote L)) 0 (map q_m Q) = Ok (map (fun i => (i, None)) (seq 0 (l_my L)) ++ r) /\
    Permutation r (map (fun q => (q_g q, Some (f q))) Q).
Proof.
  intros L dc sched base f LW Q DC. assert (M : map q_m Q = seq 0 (nz (remote L))) by (unfold Q; rewrite post_m by lia; f_equal; lia).
  pose proof (nz_zero (remote L)) as NZ. pose proof (remote_len L) as RL. pose proof (proj1 LW) as LE.
  replace (length (l_w L) - nzero (remote L))%nat with (l_my L + length (map q_m Q))%nat by (rewrite M, seq_length; lia).
  pose proof (get_own (l_my L) dc sched (map q_m Q) (l_my L) (length (map q_m Q)) (le_n _)) as GO. rewrite Nat.sub_diag in GO. rewrite GO. clear GO.
  assert (ND : NoDup (map q_m Q)) by (rewrite M; apply seq_NoDup).
  set (h := fun m => match find (fun q => (q_m q =? m)%nat) Q with Some q => (q_g q, f q) | None => (0%nat, 0) end).
  assert (H : forall q, In q Q -> h (q_m q) = (q_g q, f q)).
  { intros q I. unfold h. destruct (find (fun q0 => (q_m q0 =? q_m q)%nat) Q) as [q'|] eqn:E.
    - apply find_some in E. destruct E as (I' & E). apply Nat.eqb_eq in E.
      assert (q' = q); [|subst; reflexivity]. clear - ND I I' E. clearbody Q. induction Q as [|x Q IH]; [destruct I|]. cbn [map] in ND. inversion ND as [|? ? NI ND']; subst.
      destruct I as [->|I], I' as [->|I']; auto; exfalso; apply NI; [rewrite <- E|rewrite E]; apply in_map; assumption.
    - exfalso. pose proof (find_none _ _ E q I) as F. cbv beta in F. rewrite Nat.eqb_refl in F. discriminate F. }
  destruct (get_any (l_my L) dc sched h (map q_m Q) (l_my L)) as (r & R1 & R2); [lia|exact ND| |].
  - intros m I. apply in_map_iff in I. destruct I as (q & <- & I). rewrite (H q I). apply DC, I.
  - rewrite R1. cbn [bind]. exists r. split; [reflexivity|]. rewrite R2, map_map. erewrite map_ext_in; [reflexivity|]. intros q I. cbv beta. rewrite (H q I). reflexivity.
Qed.

Lemma post_ge : forall w my i zero base, Forall (fun g => (i <= g)%nat) (map q_g (post my i zero base w)).
Proof.
  induction w as [|x w IH]; intros my i zero base; cbn [post]; [constructor|].
  assert (K : Forall (fun g => (i <= g)%nat) (map q_g (post my (S i) (S zero) base w)) /\ Forall (fun g => (i <= g)%nat) (map q_g (post my (S i) zero (base + x) w))).
  { split; (eapply Forall_impl; [|apply IH]); cbv beta; lia. }
  destruct (x =? 0); [apply K|]. cbn [map]. constructor; [cbn; lia|apply K].
Qed.
Lemma post_nodup : forall w my i zero base, NoDup (map q_g (post my i zero base w)).
Proof.
  induction w as [|x w IH]; intros my i zero base; cbn [post]; [constructor|]. destruct (x =? 0); [apply IH|]. cbn [map]. constructor; [|apply IH].
  intros I. apply (proj1 (Forall_forall _ _) (post_ge w my (S i) zero (base + x))) in I. cbn [q_g] in I. lia.
Qed.
(** Two messages of which the second follows the first in the list of overlaps. *)
Lemma prefix_apart : forall pre x suf pre' x' suf', Forall (fun x => 0 <= x) (pre ++ x :: suf) -> pre ++ x :: suf = pre' ++ x' :: suf' -> (length pre < length pre')%nat -> sumw pre + x <= sumw pre'.
Proof.
  induction pre as [|y pre IH]; intros x suf pre' x' suf' F E LT.
  - destruct pre' as [|y' pre']; [cbn in LT; lia|]. cbn [app] in *. injection E as <- E. subst suf. inversion F as [|? ? F1 F2]; subst. apply Forall_app in F2. destruct F2 as (F2 & _). pose proof (sumw_nonneg _ F2). cbn. fold (sumw pre'). lia.
  - destruct pre' as [|y' pre']; [cbn in LT; lia|]. cbn [app] in *. injection E as <- E. inversion F as [|? ? F1 F2]; subst. cbn [length] in LT. pose proof (IH x suf pre' x' suf' F2 E ltac:(lia)) as Q. cbn. fold (sumw pre) (sumw pre'). lia.
Qed.

(** ** Theorems *)
(** C73: whatever the order in which the messages arrive, every overlap with a Grid of another
    process that has a message is treated once, after the overlaps with Grids of this
    process, and its data is taken from where its receive has been posted. *)
Theorem C73_restrict : forall L sched, lawful L ->
  exists r, get_RC L sched = Ok (map (fun i => (i, None)) (seq 0 (l_my L)) ++ r) /\
    Permutation r (map (fun q => (q_g q, Some (q_addr q))) (post_RC L)).
Proof.
  intros L sched LW. apply (get_all L (dec_RC L) sched 0 q_addr LW). intros q I. apply (posted L 0 q LW) in I. destruct I as (T & E). rewrite E. cbn [q_m q_g q_addr].
  unfold dec_RC. rewrite decoded by assumption. reflexivity.
Qed.
Print Assumptions C73_restrict.
(** C73: likewise for prolongation, for a Grid with at most one parent Grid on the same process. *)
Theorem C73_prolong : forall L sched, lawful L -> (l_my L <= 1)%nat ->
  exists r, get_P L sched = Ok (map (fun i => (i, None)) (seq 0 (l_my L)) ++ r) /\
    Permutation r (map (fun q => (q_g q, Some (q_addr q))) (post_P L)).
Proof.
  intros L sched LW M1. apply (get_all L (dec_P L) sched _ q_addr LW). intros q I. apply (posted L _ q LW) in I. destruct I as (T & E). rewrite E. cbn [q_m q_g q_addr].
  unfold dec_P. rewrite decoded by assumption. do 2 f_equal. destruct (remote_split L LW) as (S1 & S2). destruct T as ((G1 & G2) & _).
  rewrite S1 at 1. rewrite firstn_app, S2, sumw_app. f_equal. rewrite firstn_all2 by lia.
  destruct (l_my L) as [|[|n]]; [reflexivity| |lia]. destruct (l_w L) as [|x t]; [cbn in S2; discriminate S2|]. cbn. lia.
Qed.
Print Assumptions C73_prolong.
(** C73: a receive is posted for each overlap with a Grid of another process that has a message,
    for all of it, and for nothing else; the requests are 0, 1, ... *)
Theorem C73_posted : forall L, lawful L -> forall Q, Q = post_RC L \/ Q = post_P L ->
  NoDup (map q_g Q) /\ (forall g, In g (map q_g Q) <-> talks L g) /\ (forall q, In q Q -> q_len q = nth (q_g q) (l_w L) 0) /\ map q_m Q = seq 0 (waited L).
Proof.
  intros L LW Q HQ. assert (B : exists base, Q = post (l_my L) (l_my L) 0 base (remote L)) by (destruct HQ as [-> | ->]; eexists; reflexivity). destruct B as (base & ->). clear HQ.
  split; [|split; [|split]].
  - apply post_nodup.
  - intros g. split; [|apply posted_of; exact LW]. rewrite in_map_iff. intros (q & <- & I). apply (posted L base q LW) in I. apply I.
  - intros q I. apply (posted L base q LW) in I. destruct I as (_ & E). rewrite E. reflexivity.
  - rewrite post_m by lia. unfold waited. pose proof (nz_zero (remote L)). rewrite remote_len in *. f_equal; lia.
Qed.
Print Assumptions C73_posted.

(** C73: the messages do not overlap in the buffers. *)
Definition apart (q q' : req) : Prop := q_addr q + q_len q <= q_addr q' \/ q_addr q' + q_len q' <= q_addr q.
Lemma post_apart : forall L base q q', lawful L -> let Q := post (l_my L) (l_my L) 0 base (remote L) in In q Q -> In q' Q -> q <> q' -> apart q q'.
Proof.
  intros L base q q' LW Q I I' NE. unfold Q in *. apply post_in in I, I'; try lia. destruct I as (pre & x & suf & E & _ & ->), I' as (pre' & x' & suf' & E' & _ & ->).
  assert (F : Forall (fun x => 0 <= x) (remote L)). { destruct LW as (_ & F). rewrite <- (firstn_skipn (l_my L) (l_w L)) in F. apply Forall_app in F. apply F. }
  unfold apart. cbn [q_addr q_len]. destruct (lt_eq_lt_dec (length pre) (length pre')) as [[C|C]|C].
  - left. rewrite E in F, E'. pose proof (prefix_apart _ _ _ _ _ _ F E' C). lia.
  - exfalso. apply NE. rewrite E in E'. clear - E' C. assert (pre = pre' /\ x = x'); [|destruct H as (-> & ->); reflexivity].
    revert pre' C E'. induction pre as [|y pre IH]; intros [|y' pre'] C E'; cbn in *; try discriminate; injection E' as A B; [auto|]. destruct (IH pre' ltac:(lia) B) as (-> & ->). subst. auto.
  - right. rewrite E' in F, E. pose proof (prefix_apart _ _ _ _ _ _ F E C). lia.
Qed.
Section Data.
Context {V : Type}.
Lemma put_out : forall (b : Z -> V) a l x, x < a \/ a + Z.of_nat (length l) <= x -> put b a l x = b x.
Proof. intros b a l x O. unfold put. destruct ((a <=? x) && (x <? a + Z.of_nat (length l))) eqn:E; [|reflexivity]. apply andb_true_iff in E. rewrite Z.leb_le, Z.ltb_lt in E. lia. Qed.
Lemma read_put : forall (b : Z -> V) a l, read (put b a l) a (length l) = l.
Proof.
  intros b a l. unfold read. apply (nth_ext _ _ (b 0) (b 0)); [rewrite map_length, seq_length; reflexivity|]. intros n N. rewrite map_length, seq_length in N.
  rewrite (nth_indep _ (b 0) (put b a l (a + Z.of_nat 0))) by (rewrite map_length, seq_length; exact N). rewrite (map_nth (fun x => put b a l (a + Z.of_nat x))). rewrite seq_nth by exact N. cbn [plus].
  unfold put. rewrite (proj2 (Z.leb_le _ _)), (proj2 (Z.ltb_lt _ _)) by lia. cbn [andb]. replace (Z.to_nat (a + Z.of_nat n - a)) with n by lia. apply nth_indep. exact N.
Qed.
Lemma read_ext : forall (b b' : Z -> V) a n, (forall x, a <= x < a + Z.of_nat n -> b x = b' x) -> read b a n = read b' a n.
Proof. intros b b' a n H. unfold read. apply map_ext_in. intros x X. apply in_seq in X. apply H. lia. Qed.
(** Read the message of q after it has been received, whatever else has been received. *)
Lemma deliver_read : forall (msg : nat -> list V) q D b, (forall q', In q' D -> q_len q' = Z.of_nat (length (msg (q_g q')))) ->
  (forall q', In q' D -> q' <> q -> apart q' q) -> In q D -> read (deliver msg D b) (q_addr q) (length (msg (q_g q))) = msg (q_g q).
Proof.
  intros msg q D. assert (K : forall D b, (forall q', In q' D -> q_len q' = Z.of_nat (length (msg (q_g q')))) -> (forall q', In q' D -> q' <> q -> apart q' q) ->
    read b (q_addr q) (length (msg (q_g q))) = msg (q_g q) -> q_len q = Z.of_nat (length (msg (q_g q))) -> read (deliver msg D b) (q_addr q) (length (msg (q_g q))) = msg (q_g q)).
  { intros D'. induction D' as [|x D' IH]; intros b LN AP H HQ; [exact H|]. unfold deliver in *. cbn [fold_left]. apply IH.
    - intros q' I. apply LN. right. exact I.
    - intros q' I. apply AP. right. exact I.
    - assert (DC : x = q \/ x <> q) by (destruct x as [a1 a2 a3 a4], q as [b1 b2 b3 b4]; destruct (Nat.eq_dec a1 b1), (Z.eq_dec a2 b2), (Z.eq_dec a3 b3), (Nat.eq_dec a4 b4); subst; auto; right; congruence).
      destruct DC as [->|NE]; [apply read_put|]. rewrite <- H at 2. apply read_ext. intros y Y. apply put_out. pose proof (AP x (or_introl eq_refl) NE) as A. pose proof (LN x (or_introl eq_refl)) as LX. unfold apart in A. rewrite LX, HQ in A. lia.
    - exact HQ. }
  induction D as [|x D IH]; intros b LN AP I; [destruct I|]. unfold deliver in *. cbn [fold_left]. destruct I as [->|I].
  - apply K; [intros q' I; apply LN; right; exact I|intros q' I; apply AP; right; exact I|apply read_put|apply LN; left; reflexivity].
  - apply IH; [intros q' I'; apply LN; right; exact I'|intros q' I'; apply AP; right; exact I'|exact I].
Qed.
End Data.
(** C73: what is read for an overlap is the message of its Grid: D are the receives that
    have been completed when it is read, in any order, b what was in the buffer before. *)
Theorem C73_data : forall (V : Type) L (msg : nat -> list V) Q D b q, lawful L -> Q = post_RC L \/ Q = post_P L ->
  (forall g, talks L g -> Z.of_nat (length (msg g)) = nth g (l_w L) 0) -> incl D Q -> In q D ->
  read (deliver msg D b) (q_addr q) (length (msg (q_g q))) = msg (q_g q).
Proof.
  intros V L msg Q D b q LW HQ LN IN I. destruct (C73_posted L LW Q HQ) as (_ & TK & QL & _). apply deliver_read; [| |exact I].
  - intros q' I'. rewrite (QL q' (IN q' I')). symmetry. apply LN. apply TK. apply in_map. apply IN, I'.
  - intros q' I' NE. destruct HQ as [-> | ->]; (eapply post_apart; [exact LW|exact (IN _ I')|exact (IN _ I)|exact NE]).
Qed.
Print Assumptions C73_data.

(** ** Sending *)
Lemma sends_in : forall w my i zero addr q, In q (sends my i zero addr w) -> exists pre x suf, w = pre ++ x :: suf /\ x <> 0 /\ q_addr q = addr + sumw pre /\ q_len q = x /\ q_g q = (i + length pre)%nat.
Proof.
  induction w as [|x w IH]; intros my i zero addr q I; cbn [sends] in I; [destruct I|]. destruct (x =? 0) eqn:X.
  - apply Z.eqb_eq in X. subst x. apply IH in I. destruct I as (pre & y & suf & -> & NY & E1 & E2 & E3). exists (0 :: pre), y, suf. rewrite E1, E2, E3. cbn. repeat split; auto; lia.
  - apply Z.eqb_neq in X. destruct I as [<-|I]; [exists [], x, w; cbn; repeat split; auto; lia|]. apply IH in I. destruct I as (pre & y & suf & -> & NY & E1 & E2 & E3). exists (x :: pre), y, suf. rewrite E1, E2, E3. unfold sumw. cbn. repeat split; auto; lia.
Qed.
Lemma sends_post : forall w my i zero addr, (my <= i)%nat -> sends my i zero addr w = post my i zero addr w.
Proof. induction w as [|x w IH]; intros my i zero addr LE; cbn [sends post]; [reflexivity|]. rewrite (proj2 (Nat.leb_le _ _)) by exact LE. rewrite !IH by lia. reflexivity. Qed.
Lemma sends_app : forall a my i zero addr b, (i + length a <= my)%nat -> sends my i zero addr (a ++ b) = sends my i zero addr a ++ sends my (i + length a) zero (addr + sumw a) b.
Proof.
  induction a as [|x a IH]; intros my i zero addr b LE; cbn [app sends length].
  - rewrite Nat.add_0_r. unfold sumw. cbn. rewrite Z.add_0_r. reflexivity.
  - cbn [length] in LE. rewrite (proj2 (Nat.leb_gt _ _)) by lia. unfold sumw. cbn [fold_right]. fold (sumw a). destruct (x =? 0) eqn:X.
    + rewrite IH by lia. apply Z.eqb_eq in X. subst x. do 2 f_equal; lia.
    + rewrite IH by lia. cbn [app]. do 3 f_equal; lia.
Qed.
Lemma send_split : forall L, lawful L -> send_RC L = sends (l_my L) 0 0 0 (firstn (l_my L) (l_w L)) ++ post (l_my L) (l_my L) 0 (sumw (firstn (l_my L) (l_w L))) (remote L).
Proof.
  intros L LW. destruct (remote_split L LW) as (E1 & E2). unfold send_RC. rewrite E1 at 1. rewrite sends_app by lia. rewrite E2. cbn [plus]. rewrite (sends_post (remote L)) by lia. reflexivity.
Qed.
(** C73: a child Grid sends one message for each overlap that has one; the messages are apart; the
    one to the parent on the same process, which comes first, is at the start of the
    buffer, where RestrictCorrect reads it; and all sends are waited for. *)
Theorem C73_send : forall L, lawful L ->
  (forall q q', In q (send_RC L) -> In q' (send_RC L) -> q_g q <> q_g q' -> apart q q') /\
  (forall q, In q (send_RC L) -> 0 <= q_addr q /\ q_addr q + q_len q <= sumw (l_w L) /\ q_len q = nth (q_g q) (l_w L) 0) /\
  (forall q, In q (send_RC L) -> q_g q = 0%nat -> q_addr q = 0) /\
  (forall g, (l_my L <= g)%nat -> In g (map q_g (send_RC L)) <-> talks L g) /\
  map q_m (filter (fun q => (l_my L <=? q_g q)%nat) (send_RC L)) = seq 0 (waited L).
Proof.
  intros L LW. pose proof (proj2 LW) as F.
  split; [|split; [|split; [|split]]].
  - intros q q' I I' NE. unfold send_RC in *. apply sends_in in I, I'. destruct I as (pre & x & suf & E & _ & A & B & C), I' as (pre' & x' & suf' & E' & _ & A' & B' & C'). unfold apart. rewrite A, A', B, B'. rewrite C, C' in NE.
    destruct (lt_eq_lt_dec (length pre) (length pre')) as [[K|K]|K]; [left|lia|right].
    + rewrite E in F, E'. pose proof (prefix_apart _ _ _ _ _ _ F E' K). lia.
    + rewrite E' in F, E. pose proof (prefix_apart _ _ _ _ _ _ F E K). lia.
  - intros q I. apply sends_in in I. destruct I as (pre & x & suf & E & _ & A & B & C). rewrite A, B, C, E, sumw_app, sumw_cons. rewrite E in F. apply Forall_app in F. destruct F as (F1 & F2). inversion F2; subst. pose proof (sumw_nonneg _ F1). pose proof (sumw_nonneg suf ltac:(assumption)).
    rewrite app_nth2 by lia. replace (0 + length pre - length pre)%nat with 0%nat by lia. cbn [nth]. lia.
  - intros q I G. apply sends_in in I. destruct I as (pre & x & suf & E & _ & A & B & C). rewrite G in C. destruct pre; [|cbn in C; lia]. rewrite A. reflexivity.
  - intros g G. rewrite send_split by exact LW. rewrite map_app, in_app_iff. split.
    + intros [I|I].
      * exfalso. apply in_map_iff in I. destruct I as (q & <- & I). apply sends_in in I. destruct I as (pre & x & suf & E & _ & A & B & C). apply (f_equal (@length Z)) in E. rewrite app_length in E. cbn [length] in E. destruct (remote_split L LW) as (_ & E2). rewrite E2 in E. lia.
      * apply in_map_iff in I. destruct I as (q & <- & I). apply (posted L _ q LW) in I. apply I.
    + intros T. right. apply posted_of; assumption.
  - rewrite send_split by exact LW. rewrite filter_app, map_app.
    assert (Z1 : filter (fun q => (l_my L <=? q_g q)%nat) (sends (l_my L) 0 0 0 (firstn (l_my L) (l_w L))) = []).
    { destruct (remote_split L LW) as (_ & E2). assert (K : forall q, In q (sends (l_my L) 0 0 0 (firstn (l_my L) (l_w L))) -> (l_my L <=? q_g q)%nat = false).
      { intros q I. apply sends_in in I. destruct I as (pre & x & suf & E & _ & A & B & C). apply (f_equal (@length Z)) in E. rewrite app_length in E. cbn [length] in E. rewrite E2 in E. apply Nat.leb_gt. lia. }
      clear - K. induction (sends (l_my L) 0 0 0 (firstn (l_my L) (l_w L))) as [|q l IH]; [reflexivity|]. cbn [filter]. rewrite K by (left; reflexivity). apply IH. intros q' I. apply K. right. exact I. }
    rewrite Z1. cbn [map app]. assert (Z2 : forall l, Forall (fun g => (l_my L <= g)%nat) (map q_g l) -> filter (fun q => (l_my L <=? q_g q)%nat) l = l).
    { induction l as [|q l IH]; intros H; [reflexivity|]. cbn [map filter] in *. inversion H; subst. rewrite (proj2 (Nat.leb_le _ _)) by assumption. f_equal. auto. }
    rewrite Z2 by apply post_ge. rewrite post_m by lia. unfold waited. pose proof (nz_zero (remote L)). rewrite remote_len in *. f_equal; lia.
Qed.
Print Assumptions C73_send.
Definition tod (d : nat) (l : list (Z * nat)) : list Z := map fst (filter (fun p => (snd p =? d)%nat) l).
Lemma sendsP_in : forall w my i zero start d q, In (d, q) (sendsP my i zero start w) -> exists pre x suf, w = pre ++ (x, d) :: suf /\ x <> 0 /\ q_addr q = start d + sumw (tod d pre) /\ q_len q = x /\ q_g q = (i + length pre)%nat.
Proof.
  induction w as [|[x e] w IH]; intros my i zero start d q I; cbn [sendsP] in I; [destruct I|]. destruct (x =? 0) eqn:X.
  - apply Z.eqb_eq in X. subst x. apply IH in I. destruct I as (pre & y & suf & -> & NY & E1 & E2 & E3). exists ((0, e) :: pre), y, suf. rewrite E1, E2, E3. unfold tod, sumw. cbn [filter snd app length]. repeat split; auto; [|lia]. destruct (e =? d)%nat; cbn; lia.
  - apply Z.eqb_neq in X. destruct I as [I|I].
    + injection I as <- <-. exists [], x, w. cbn. repeat split; auto; lia.
    + apply IH in I. destruct I as (pre & y & suf & -> & NY & E1 & E2 & E3). exists ((x, e) :: pre), y, suf. rewrite E1, E2, E3. unfold tod, sumw. cbn [filter snd app length]. repeat split; auto; [|lia]. rewrite (Nat.eqb_sym e d). destruct (d =? e)%nat eqn:DE; [apply Nat.eqb_eq in DE; subst e|]; cbn; lia.
Qed.
Lemma tod_split : forall d pre x suf, tod d (pre ++ (x, d) :: suf) = tod d pre ++ x :: tod d suf.
Proof. intros. unfold tod. rewrite filter_app, map_app. cbn [filter snd]. rewrite Nat.eqb_refl. reflexivity. Qed.
Lemma tod_nonneg : forall d w, Forall (fun p => 0 <= fst p) w -> Forall (fun x => 0 <= x) (tod d w).
Proof. intros d w F. apply Forall_forall. intros x I. apply in_map_iff in I. destruct I as (p & <- & I). apply filter_In in I. exact (proj1 (Forall_forall _ _) F p (proj1 I)). Qed.
Lemma tod_sum : forall d w, Forall (fun p => 0 <= fst p) w -> sumw (tod d w) <= sumw (map fst w).
Proof. intros d w. induction w as [|[x e] w IH]; intros F; [cbn; lia|]. inversion F; subst. cbn [fst] in *. unfold tod, sumw in *. cbn [filter snd map fst fold_right]. specialize (IH ltac:(assumption)). destruct (e =? d)%nat; cbn; lia. Qed.
Lemma tod_prefix : forall (w w' v v' : list (Z * nat)), w ++ v = w' ++ v' -> (length w < length w')%nat -> exists u, w' = w ++ u /\ v = u ++ v'.
Proof.
  induction w as [|x w IH]; intros w' v v' E LT; [exists w'; split; [reflexivity|exact E]|]. destruct w' as [|y w']; [cbn in LT; lia|]. cbn [app length] in *. injection E as <- E. destruct (IH w' v v' E ltac:(lia)) as (u & -> & ->). exists u. split; reflexivity.
Qed.
(** C73: a parent Grid sends one message per child overlap with one; the messages to the Grids of one
    Domain, which share a row of the buffer, are apart, the first one is at its start (from where
    it is copied if the child is on the same process). *)
Theorem C73_sendP : forall my w, Forall (fun p => 0 <= fst p) w ->
  (forall d q q', In (d, q) (send_P my w) -> In (d, q') (send_P my w) -> q_g q <> q_g q' -> apart q q') /\
  (forall d q, In (d, q) (send_P my w) -> 0 <= q_addr q /\ q_addr q + q_len q <= sumw (map fst w) /\ nth_error w (q_g q) = Some (q_len q, d)) /\
  (forall d q, In (d, q) (send_P my w) -> (forall g, (g < q_g q)%nat -> option_map snd (nth_error w g) <> Some d) -> q_addr q = 0).
Proof.
  intros my w F. split; [|split].
  - assert (K : forall d pre x suf pre' x' suf', w = pre ++ (x, d) :: suf -> w = pre' ++ (x', d) :: suf' -> (length pre < length pre')%nat -> sumw (tod d pre) + x <= sumw (tod d pre')).
    { intros d pre x suf pre' x' suf' E E' LT. rewrite E in E'. destruct (tod_prefix pre pre' _ _ E' LT) as (u & -> & U). destruct u as [|[y e] u]; [rewrite app_nil_r in LT; lia|]. cbn [app] in U. injection U as Y1 Y2 U. symmetry in Y1, Y2. subst y e suf.
      rewrite tod_split, sumw_app, sumw_cons. rewrite E in F. apply Forall_app in F. destruct F as (_ & F). apply Forall_inv_tail in F. rename F into F2. apply Forall_app in F2. pose proof (sumw_nonneg _ (tod_nonneg d u (proj1 F2))). lia. }
    intros d q q' I I' NE. apply sendsP_in in I, I'. destruct I as (pre & x & suf & E & _ & A & B & C), I' as (pre' & x' & suf' & E' & _ & A' & B' & C'). unfold apart. rewrite A, A', B, B'. rewrite C, C' in NE.
    destruct (lt_eq_lt_dec (length pre) (length pre')) as [[L|L]|L]; [left|lia|right]; [pose proof (K d _ _ _ _ _ _ E E' L)|pose proof (K d _ _ _ _ _ _ E' E L)]; lia.
  - intros d q I. apply sendsP_in in I. destruct I as (pre & x & suf & E & _ & A & B & C). pose proof (tod_sum d w F) as T. rewrite A, B, C. rewrite E in T at 1. rewrite tod_split, sumw_app, sumw_cons in T.
    pose proof F as F'. rewrite E in F'. apply Forall_app in F'. destruct F' as (F1 & F2). inversion F2; subst. pose proof (sumw_nonneg _ (tod_nonneg d pre F1)). pose proof (sumw_nonneg _ (tod_nonneg d suf ltac:(assumption))). split; [lia|]. split; [lia|]. rewrite nth_error_app2 by lia. replace (0 + length pre - length pre)%nat with 0%nat by lia. reflexivity.
  - intros d q I H. apply sendsP_in in I. destruct I as (pre & x & suf & E & _ & A & B & C). rewrite A. assert (T : tod d pre = []); [|rewrite T; reflexivity].
    unfold tod.
    assert (K : forall p, In p pre -> (snd p =? d)%nat = false). { intros p Ip. apply Nat.eqb_neq. intros D. apply In_nth_error in Ip. destruct Ip as (g & G). assert (LG : (g < length pre)%nat) by (apply nth_error_Some; congruence). apply (H g); [lia|]. rewrite E, nth_error_app1 by exact LG. rewrite G. cbn. congruence. }
    clear - K. induction pre as [|p pre IH]; [reflexivity|]. cbn [filter]. rewrite K by (left; reflexivity). apply IH. intros p' I. apply K. right. exact I.
Qed.
Print Assumptions C73_sendP.

(** ** Sizes of the arrays *)
Lemma init_ge : forall gs z, let z' := fold_left (fun z g => Sizes (Z.max (z_sendRC z) (sumw (l_w (r_PRC g)))) (Z.max (z_recvRC z) (sumw (l_w (r_CRC g))))
    (Z.max (z_sendP z) (1 + sumw (l_w (r_CP g)))) (Z.max (z_recvP z) (1 + sumw (l_w (r_PP g)))) (Z.max (z_CG z) (Z.of_nat (length (l_w (r_CRC g)))))) gs z in
  (z_sendRC z <= z_sendRC z' /\ z_recvRC z <= z_recvRC z' /\ z_sendP z <= z_sendP z' /\ z_recvP z <= z_recvP z' /\ z_CG z <= z_CG z') /\
  forall g, In g gs -> sumw (l_w (r_PRC g)) <= z_sendRC z' /\ sumw (l_w (r_CRC g)) <= z_recvRC z' /\ 1 + sumw (l_w (r_CP g)) <= z_sendP z' /\ 1 + sumw (l_w (r_PP g)) <= z_recvP z' /\ Z.of_nat (length (l_w (r_CRC g))) <= z_CG z'.
Proof.
  induction gs as [|g gs IH]; intros z; cbn [fold_left]; [split; [lia|intros g []]|].
  cbv zeta in *. match goal with |- context [fold_left ?f gs ?y] => destruct (IH y) as (A & B); set (z' := fold_left f gs y) in *; clearbody z' end.
  cbn [z_sendRC z_recvRC z_sendP z_recvP z_CG] in A. split; [lia|]. intros g' [<-|I]; [lia|]. apply B. exact I.
Qed.
(** The overlap with an own Grid first, the others after it: what prolongation is received from. *)
Lemma P_base : forall L, lawful L -> (l_my L <= 1)%nat -> (if (0 <? l_my L)%nat then nth 0 (l_w L) 0 else 0) = sumw (firstn (l_my L) (l_w L)).
Proof. intros L (A & _) M. destruct (l_my L) as [|[|n]]; [reflexivity| |lia]. destruct (l_w L); [cbn in A; lia|]. cbn. lia. Qed.
(** C73: every message is within its row of the buffer SMR_init has allocated, and so are the
    data of overlaps on the same process. *)
Theorem C73_sizes : forall gs g, In g gs -> lawful (r_PRC g) -> lawful (r_PP g) -> lawful (r_CRC g) -> lawful (r_CP g) -> (l_my (r_PP g) <= 1)%nat ->
  (forall q, In q (send_RC (r_PRC g)) -> 0 <= q_addr q /\ q_addr q + q_len q <= z_sendRC (smr_init gs)) /\
  (forall q, In q (post_RC (r_CRC g)) -> 0 <= q_addr q /\ q_addr q + q_len q <= z_recvRC (smr_init gs)) /\
  (forall doms d q, map fst doms = l_w (r_CP g) -> In (d, q) (send_P (l_my (r_CP g)) doms) -> 0 <= q_addr q /\ q_addr q + q_len q <= z_sendP (smr_init gs)) /\
  (forall q, In q (post_P (r_PP g)) -> 0 <= q_addr q /\ q_addr q + q_len q <= z_recvP (smr_init gs)) /\
  (forall i, nth i (l_w (r_PP g)) 0 <= z_recvP (smr_init gs)) /\ (forall i, nth i (l_w (r_CP g)) 0 <= z_sendP (smr_init gs)).
Proof.
  intros gs g I W1 W2 W3 W4 M. destruct (init_ge gs (Sizes 1 1 1 1 1)) as (_ & B). specialize (B g I). fold (smr_init gs) in B. destruct B as (B1 & B2 & B3 & B4 & _).
  assert (R : forall L base q, lawful L -> 0 <= base -> In q (post (l_my L) (l_my L) 0 base (remote L)) -> 0 <= q_addr q /\ q_addr q + q_len q <= base + sumw (remote L)).
  { intros L base q LW B0 Q. apply post_in in Q; [|lia]. destruct Q as (pre & x & suf & E & _ & ->). cbn [q_addr q_len]. pose proof (proj2 LW) as F. rewrite <- (firstn_skipn (l_my L) (l_w L)) in F. apply Forall_app in F. destruct F as (_ & F). fold (remote L) in F. rewrite E in *. apply Forall_app in F. destruct F as (F1 & F2). inversion F2; subst.
    pose proof (sumw_nonneg _ F1). pose proof (sumw_nonneg suf ltac:(assumption)). rewrite sumw_app, sumw_cons. lia. }
  assert (N : forall L, lawful L -> sumw (l_w L) = sumw (firstn (l_my L) (l_w L)) + sumw (remote L) /\ 0 <= sumw (firstn (l_my L) (l_w L))).
  { intros L LW. destruct (remote_split L LW) as (E & _). split; [rewrite E at 1; apply sumw_app|]. apply sumw_nonneg. pose proof (proj2 LW) as F. rewrite E in F. apply Forall_app in F. apply F. }
  assert (E1 : forall L i, lawful L -> nth i (l_w L) 0 <= sumw (l_w L)).
  { intros L i LW. pose proof (proj2 LW) as F. destruct (Nat.ltb_spec i (length (l_w L))) as [LT|GE]; [|rewrite nth_overflow by exact GE; apply sumw_nonneg, F].
    pose proof (split_at _ _ LT) as E. rewrite E in F. rewrite E at 2. rewrite sumw_app, sumw_cons. apply Forall_app in F. destruct F as (F1 & F2). inversion F2; subst. pose proof (sumw_nonneg _ F1). pose proof (sumw_nonneg (skipn (S i) (l_w L)) ltac:(assumption)). lia. }
  repeat split.
  - destruct (C73_send _ W1) as (_ & Q & _). specialize (Q q ltac:(assumption)). lia.
  - destruct (C73_send _ W1) as (_ & Q & _). specialize (Q q ltac:(assumption)). lia.
  - apply (R _ 0 q W3 ltac:(lia) ltac:(assumption)).
  - pose proof (R _ 0 q W3 ltac:(lia) ltac:(assumption)). pose proof (N _ W3). lia.
  - destruct (C73_sendP (l_my (r_CP g)) doms) as (_ & Q & _). { apply Forall_forall. intros p Ip. apply (proj1 (Forall_forall _ _) (proj2 W4)). rewrite <- H. apply in_map. exact Ip. } specialize (Q d q ltac:(assumption)). lia.
  - destruct (C73_sendP (l_my (r_CP g)) doms) as (_ & Q & _). { apply Forall_forall. intros p Ip. apply (proj1 (Forall_forall _ _) (proj2 W4)). rewrite <- H. apply in_map. exact Ip. } specialize (Q d q ltac:(assumption)). rewrite H in Q. lia.
  - unfold post_P in *. rewrite P_base in * by assumption. apply (R _ (sumw (firstn (l_my (r_PP g)) (l_w (r_PP g)))) q W2); [apply N; exact W2|assumption].
  - unfold post_P in *. rewrite P_base in * by assumption. pose proof (N _ W2). pose proof (R _ (sumw (firstn (l_my (r_PP g)) (l_w (r_PP g)))) q W2 ltac:(lia) ltac:(assumption)). lia.
  - intros i. pose proof (E1 _ i W2). lia.
  - intros i. pose proof (E1 _ i W4). lia.
Qed.
Print Assumptions C73_sizes.
(** C73: the requests for receiving in RestrictCorrect are within the array of requests. *)
Theorem C73_requests : forall gs g q, In g gs -> lawful (r_CRC g) -> In q (post_RC (r_CRC g)) -> Z.of_nat (q_m q) < z_CG (smr_init gs).
Proof.
  intros gs g q I LW Q. destruct (init_ge gs (Sizes 1 1 1 1 1)) as (_ & B). specialize (B g I). fold (smr_init gs) in B. destruct (C73_posted _ LW _ (or_introl eq_refl)) as (_ & TK & _ & M).
  assert (X : In (q_m q) (seq 0 (waited (r_CRC g)))) by (rewrite <- M; apply in_map; exact Q). apply in_seq in X. unfold waited in X. lia.
Qed.
Print Assumptions C73_requests.
(** Those for sending in RestrictCorrect and for receiving in Prolongate are not: they are
    numbered by parent Grids, of which there can be more than maxCG.  The only Grid on its
    process, with two parent Grids on others. *)
Definition rq_grid (n : Z) : rgrid := RGrid (Links 0 [n; n]) (Links 0 [n; n]) (Links 0 []) (Links 0 []).
Theorem C73_requests_refuted : forall n, 0 < n ->
  lawful (r_PRC (rq_grid n)) /\ lawful (r_PP (rq_grid n)) /\
  (exists q, In q (send_RC (r_PRC (rq_grid n))) /\ (l_my (r_PRC (rq_grid n)) <= q_g q)%nat /\ z_CG (smr_init [rq_grid n]) <= Z.of_nat (q_m q)) /\
  (exists q, In q (post_P (r_PP (rq_grid n))) /\ z_CG (smr_init [rq_grid n]) <= Z.of_nat (q_m q)).
Proof.
  intros n N. assert (E : n =? 0 = false) by (apply Z.eqb_neq; lia). assert (W : lawful (Links 0 [n; n])) by (split; [cbn; lia|repeat constructor; lia]).
  split; [exact W|]. split; [exact W|]. split.
  - exists (Req 1 n n 1). unfold send_RC, rq_grid. cbn. rewrite E. cbn. repeat split; auto; lia.
  - exists (Req 1 n n 1). unfold post_P, rq_grid. cbn. rewrite E. cbn. split; [auto|lia].
Qed.
Print Assumptions C73_requests_refuted.
(** With two parent Grids on the same process Prolongate would read a message where it has
    not been received. *)
Theorem C73_prolong_two_refuted : exists L sched, lawful L /\ l_my L = 2%nat /\
  exists r, get_P L sched = Ok r /\ ~ Permutation r (map (fun i => (i, None)) (seq 0 2) ++ map (fun q => (q_g q, Some (q_addr q))) (post_P L)).
Proof.
  exists (Links 2 [3; 4; 5]), (fun _ => 0%nat). split; [split; [cbn; lia|repeat constructor; lia]|]. split; [reflexivity|]. eexists. split; [reflexivity|]. intros P.
  assert (I : In (2%nat, Some 7) [(0%nat, None); (1%nat, None); (2%nat, Some 7)]) by (cbn; auto). apply (Permutation_in _ P) in I. cbn in I. destruct I as [I|[I|[I|[]]]]; discriminate I.
Qed.
Print Assumptions C73_prolong_two_refuted.

(** ** Example *)
(** One own overlap, four others, of which two have no message; read in the order 1, 0. *)
Definition ex_L : links := Links 1 [6; 0; 4; 0; 5].
Example C73_example : lawful ex_L /\ post_RC ex_L = [Req 0 0 4 2; Req 1 4 5 4] /\ get_RC ex_L (fun n => 2 - n)%nat = Ok [(0%nat, None); (4%nat, Some 4); (2%nat, Some 0)] /\
  post_P ex_L = [Req 0 6 4 2; Req 1 10 5 4] /\ get_P ex_L (fun n => 2 - n)%nat = Ok [(0%nat, None); (4%nat, Some 10); (2%nat, Some 6)].
Proof. repeat split; try reflexivity. - cbn. lia. - repeat constructor; lia. Qed.
