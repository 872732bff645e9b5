(** * C09: arrays built by calloc_2d_array / calloc_3d_array *)
From Coq Require Import ZArith Lia Bool List.
From Verif Require Import CStr ArrModel.
Import ListNotations.
Open Scope Z_scope.

(** ** Specification *)

(** The [size] bytes at [p] lie inside a live data block and are all zero. *)
Definition zeroed (h : heap) (p : ptr) (size : Z) : Prop :=
  exists n c, fetch h (pb p) = DataBlk n c /\ 0 <= po p /\ po p + size <= n /\
    forall k, 0 <= k < size -> c (po p + k) = 0.
(** The objects of [size] bytes at [p] and [q] do not overlap. *)
Definition apart (p q : ptr) (size : Z) : Prop :=
  pb p <> pb q \/ po p + size <= po q \/ po q + size <= po p.
(** Nothing that was allocated before is changed. *)
Definition extends (h h' : heap) : Prop := exists r, h' = h ++ r.
(** The live blocks of [h'] are those of [h]. *)
Definition same_live (h h' : heap) : Prop := exists k, h' = h ++ repeat Freed k.

(** ** Heap lemmas *)
Lemma fetch_app_l : forall h r b, (b < length h)%nat -> fetch (h ++ r) b = fetch h b.
Proof. intros. unfold fetch. apply app_nth1; auto. Qed.
Lemma fetch_app_r : forall h r k, fetch (h ++ r) (length h + k) = fetch r k.
Proof. intros. unfold fetch. rewrite app_nth2 by lia. f_equal. lia. Qed.
Lemma store_blk_app : forall h r k x, (k < length r)%nat ->
  store_blk (h ++ r) (length h + k) x = h ++ store_blk r k x.
Proof.
  intros. unfold store_blk. rewrite firstn_app, firstn_all2 by lia.
  replace (length h + k - length h)%nat with k by lia.
  rewrite skipn_app, skipn_all2 by lia. replace (S (length h + k) - length h)%nat with (S k) by lia.
  rewrite <- app_assoc. reflexivity.
Qed.

(** The loop rule. *)
Lemma forn_inv : forall (P : Z -> heap -> Prop) body n i h,
  P i h -> (forall k x, i <= k < i + Z.of_nat n -> P k x -> exists y, body k x = Ok y /\ P (k + 1) y) ->
  exists y, forn n i body h = Ok y /\ P (i + Z.of_nat n) y.
Proof.
  intros P body. induction n as [|n IH]; intros i h H0 H.
  - exists h. split; [reflexivity|]. rewrite Z.add_0_r. exact H0.
  - destruct (H i h) as (y & A & B); [lia|auto|].
    destruct (IH (i + 1) y B) as (z & C & D).
    + intros k x Hk. apply H. lia.
    + exists z. cbn [forn]. rewrite A. cbn [bind]. split; [exact C|].
      replace (i + Z.of_nat (S n)) with (i + 1 + Z.of_nat n) by lia. exact D.
Qed.
Lemma for_lt_inv : forall (P : Z -> heap -> Prop) body lo hi h, lo <= hi ->
  P lo h -> (forall k x, lo <= k < hi -> P k x -> exists y, body k x = Ok y /\ P (k + 1) y) ->
  exists y, for_lt lo hi body h = Ok y /\ P hi y.
Proof.
  intros P body lo hi h L H0 H. unfold for_lt.
  destruct (forn_inv P body (Z.to_nat (hi - lo)) lo h H0) as (y & A & B).
  - intros k x Hk. apply H. lia.
  - exists y. split; [exact A|]. replace hi with (lo + Z.of_nat (Z.to_nat (hi - lo))) by lia. exact B.
Qed.

Lemma wrap_id : forall x, 0 <= x < SIZE_MAX1 -> wrap x = x.
Proof. intros. apply Z.mod_small; auto. Qed.

(** ** 2D *)
Definition tab2 (hs : heap) (n : Z) (c : Z -> option ptr) (m : Z) : heap :=
  hs ++ [PtrBlk n c; DataBlk m (fun _ => 0)].

Lemma load_tab : forall hs n c r i q, 0 <= i < n -> c i = Some q ->
  load (hs ++ PtrBlk n c :: r) (Ptr (length hs) 0) i = Ok q.
Proof.
  intros. unfold load. cbn [pb]. rewrite <- (Nat.add_0_r (length hs)), fetch_app_r. cbn [fetch nth].
  unfold slot. cbn [po]. change (0 / PSZ + i) with i.
  rewrite (proj2 (Z.leb_le 0 i)), (proj2 (Z.ltb_lt i n)) by lia. cbn [andb]. rewrite H0. reflexivity.
Qed.
Lemma store_tab : forall hs n c r i q, 0 <= i < n ->
  store (hs ++ PtrBlk n c :: r) (Ptr (length hs) 0) i q =
    Ok (hs ++ PtrBlk n (fun k => if k =? i then Some q else c k) :: r).
Proof.
  intros. unfold store. cbn [pb]. rewrite <- (Nat.add_0_r (length hs)), fetch_app_r. cbn [fetch nth].
  unfold slot. cbn [po]. change (0 / PSZ + i) with i.
  rewrite (proj2 (Z.leb_le 0 i)), (proj2 (Z.ltb_lt i n)) by lia. cbn [andb].
  rewrite store_blk_app by (simpl; lia). reflexivity.
Qed.

(** Size conditions: the whole array has a size in size_t. *)
Definition fits2 (nr nc size : Z) : Prop :=
  0 < nr /\ 0 <= nc /\ 0 < size /\ nr * PSZ < SIZE_MAX1 /\ nr * nc * size < SIZE_MAX1.

Lemma calloc_2d_shape : forall av h nr nc size h' a, fits2 nr nc size ->
  calloc_2d_array av h nr nc size = Ok (h', a) ->
  exists c, h' = h ++ [PtrBlk nr c; DataBlk (nr * nc * size) (fun _ => 0)] /\ a = Ptr (length h) 0 /\
    forall i, 0 <= i < nr -> c i = Some (Ptr (length h + 1) (i * nc * size)).
Proof.
  intros av h nr nc size h' a (F1 & F2 & F3 & F4 & F5) H.
  assert (W : 0 <= nr * nc) by nia. assert (W' : nr * nc <= nr * nc * size) by nia.
  unfold calloc_2d_array, calloc_ptrs, calloc_data in H.
  destruct (_ && _) in H; cbn [bind] in H; [|discriminate].
  rewrite wrap_id in H by lia.
  destruct (_ && _) in H; cbn [bind] in H; [|discriminate].
  rewrite <- app_assoc in H. cbn [app] in H. rewrite app_length in H. cbn [length] in H.
  rewrite store_tab in H by lia. cbn [bind] in H.
  match type of H with context [for_lt 1 nr ?b ?h0] =>
    destruct (for_lt_inv (fun k x => exists c, x = h ++ [PtrBlk nr c; DataBlk (nr * nc * size) (fun _ => 0)] /\
      forall i, 0 <= i < k -> c i = Some (Ptr (length h + 1) (i * nc * size))) b 1 nr h0)
      as (y & A & B) end.
  - lia.
  - eexists. split; [reflexivity|]. intros i Hi. assert (i = 0) by lia. subst i. reflexivity.
  - intros k x Hk (c & -> & Hc). rewrite (load_tab h nr c _ 0 (Ptr (length h + 1) 0)); [|lia|apply Hc; lia].
    cbn [bind]. rewrite store_tab by lia. eexists. split; [reflexivity|].
    eexists. split; [reflexivity|]. intros i Hi. cbv beta.
    destruct (Z.eqb_spec i k) as [->|NE]; [|apply Hc; lia].
    unfold padd. cbn [pb po]. rewrite wrap_id; [reflexivity|].
    assert (0 <= k * nc) by nia. assert (k * nc <= nr * nc) by nia. nia.
  - rewrite A in H. cbn [bind] in H. inversion H; subst. destruct B as (c & E & Hc). exists c. eauto.
Qed.

Theorem C09_2d_array : forall av h nr nc size h' a, fits2 nr nc size ->
  calloc_2d_array av h nr nc size = Ok (h', a) ->
  extends h h' /\
  exists base, forall i j, 0 <= i < nr -> 0 <= j < nc ->
    (* contiguous, row-major, in bounds, zero *)
    exists p, elem2 h' a size i j = Ok p /\ p = padd base ((i * nc + j) * size) /\ zeroed h' p size /\
    (* distinct elements do not overlap *)
    forall i' j', 0 <= i' < nr -> 0 <= j' < nc -> (i, j) <> (i', j') ->
      forall q, elem2 h' a size i' j' = Ok q -> apart p q size.
Proof.
  intros av h nr nc size h' a F H.
  destruct (calloc_2d_shape _ _ _ _ _ _ _ F H) as (c & -> & -> & Hc).
  destruct F as (F1 & F2 & F3 & F4 & F5).
  split; [eexists; reflexivity|].
  assert (E : forall i j, 0 <= i < nr -> 0 <= j < nc ->
    elem2 (h ++ [PtrBlk nr c; DataBlk (nr * nc * size) (fun _ => 0)]) (Ptr (length h) 0) size i j =
      Ok (Ptr (length h + 1) ((i * nc + j) * size))).
  { intros i j Hi Hj. unfold elem2.
    rewrite (load_tab h nr c _ i (Ptr (length h + 1) (i * nc * size))); [|lia|apply Hc; lia].
    cbn [bind]. unfold padd. cbn [pb po]. do 2 f_equal. ring. }
  exists (Ptr (length h + 1) 0). intros i j Hi Hj. eexists. split; [apply E; auto|].
  split; [reflexivity|]. split.
  - exists (nr * nc * size), (fun _ => 0). cbn [pb po]. rewrite fetch_app_r. cbn [fetch nth].
    split; [reflexivity|]. assert (0 <= i * nc) by nia.
    assert (i * nc + j + 1 <= nr * nc) by nia.
    split; [nia|]. split; [nia|]. reflexivity.
  - intros i' j' Hi' Hj' NE q Q. rewrite E in Q by auto. inversion Q; subst. right. cbn [po].
    assert (i * nc + j <> i' * nc + j').
    { intros X. apply NE. assert (i = i') by nia. subst. f_equal. lia. }
    assert (i * nc + j + 1 <= i' * nc + j' \/ i' * nc + j' + 1 <= i * nc + j) as [D|D] by lia; [left|right]; nia.
Qed.
Print Assumptions C09_2d_array.

(** ** 3D *)
Definition fits3 (nt nr nc size : Z) : Prop :=
  0 < nt /\ 0 < nr /\ 0 <= nc /\ 0 < size /\
  nt * nr * PSZ < SIZE_MAX1 /\ nt * nr * nc * size < SIZE_MAX1.

Definition heap3 (h : heap) (nt nr : Z) (c d : Z -> option ptr) (r : heap) : heap :=
  h ++ PtrBlk nt c :: PtrBlk (nt * nr) d :: r.
Lemma load_snd : forall h x n d r o i q, 0 <= o -> 0 <= i -> o + i < n -> d (o + i) = Some q ->
  load (h ++ x :: PtrBlk n d :: r) (Ptr (length h + 1) (o * PSZ)) i = Ok q.
Proof.
  intros. unfold load. cbn [pb]. rewrite fetch_app_r. cbn [fetch nth].
  unfold slot. cbn [po]. rewrite Z.div_mul by discriminate.
  rewrite (proj2 (Z.leb_le 0 _)), (proj2 (Z.ltb_lt _ n)) by lia. cbn [andb]. rewrite H2. reflexivity.
Qed.
Lemma store_snd : forall h x n d r o i q, 0 <= o -> 0 <= i -> o + i < n ->
  store (h ++ x :: PtrBlk n d :: r) (Ptr (length h + 1) (o * PSZ)) i q =
    Ok (h ++ x :: PtrBlk n (fun k => if k =? o + i then Some q else d k) :: r).
Proof.
  intros. unfold store. cbn [pb]. rewrite fetch_app_r. cbn [fetch nth].
  unfold slot. cbn [po]. rewrite Z.div_mul by discriminate.
  rewrite (proj2 (Z.leb_le 0 _)), (proj2 (Z.ltb_lt _ n)) by lia. cbn [andb].
  rewrite store_blk_app by (simpl; lia). reflexivity.
Qed.

Lemma calloc_3d_shape : forall av h nt nr nc size h' a, fits3 nt nr nc size ->
  calloc_3d_array av h nt nr nc size = Ok (h', a) ->
  exists c d, h' = heap3 h nt nr c d [DataBlk (nt * nr * nc * size) (fun _ => 0)] /\ a = Ptr (length h) 0 /\
    (forall i, 0 <= i < nt -> c i = Some (Ptr (length h + 1) (i * nr * PSZ))) /\
    (forall k, 0 <= k < nt * nr -> d k = Some (Ptr (length h + 2) (k * nc * size))).
Proof.
  intros av h nt nr nc size h' a (F1 & F2 & F3 & F4 & F5 & F6) H.
  assert (P1 : 0 < nt * nr) by nia. assert (P2 : 0 <= nt * nr * nc) by nia.
  assert (P3 : nt * nr * nc <= nt * nr * nc * size) by nia.
  assert (P4 : nt * nr <= nt * nr * PSZ) by (unfold PSZ; lia).
  unfold calloc_3d_array in H. unfold calloc_ptrs at 1 in H.
  destruct (_ && _) in H; cbn [bind] in H; [|discriminate].
  unfold calloc_ptrs at 1 in H. rewrite (wrap_id (nt * nr)) in H by lia.
  destruct (_ && _) in H; cbn [bind] in H; [|discriminate].
  rewrite <- app_assoc in H. cbn [app] in H. rewrite app_length in H. cbn [length] in H.
  rewrite store_tab in H by lia. cbn [bind] in H.
  (* first loop *)
  match type of H with context [for_lt 1 nt ?b ?h0] =>
    destruct (for_lt_inv (fun k x => exists c, x = heap3 h nt nr c (fun _ => None) [] /\
      forall i, 0 <= i < k -> c i = Some (Ptr (length h + 1) (i * nr * PSZ))) b 1 nt h0)
      as (y & A & B) end.
  { lia. }
  { eexists. split; [reflexivity|]. intros i Hi. assert (i = 0) by lia. subst i. reflexivity. }
  { intros k x Hk (c & -> & Hc). unfold heap3.
    rewrite (load_tab h nt c _ 0 (Ptr (length h + 1) 0)); [|lia|apply Hc; lia].
    cbn [bind]. rewrite store_tab by lia. eexists. split; [reflexivity|].
    eexists. split; [reflexivity|]. intros i Hi. cbv beta.
    destruct (Z.eqb_spec i k) as [->|NE]; [|apply Hc; lia].
    unfold padd. cbn [pb po]. rewrite wrap_id; [reflexivity|].
    unfold PSZ in *. assert (k * nr <= nt * nr) by nia. nia. }
  destruct B as (c & -> & Hc). rewrite A in H. cbn [bind] in H. clear A.
  unfold calloc_data in H. rewrite (wrap_id (nt * nr * nc)) in H by lia.
  destruct (_ && _) in H; cbn [bind] in H; [|discriminate].
  assert (HL : (length (heap3 h nt nr c (fun _ : Z => None) []) = length h + 2)%nat)
    by (unfold heap3; rewrite app_length; simpl; lia).
  rewrite HL in H. unfold heap3 in H. rewrite <- app_assoc in H. cbn [app] in H.
  assert (L0 : forall d r, load (h ++ PtrBlk nt c :: PtrBlk (nt * nr) d :: r) (Ptr (length h) 0) 0 =
    Ok (Ptr (length h + 1) (0 * PSZ))).
  { intros d r. apply load_tab; [lia|]. rewrite Hc by lia. reflexivity. }
  rewrite L0 in H. cbn [bind] in H. rewrite store_snd in H by lia. cbn [bind] in H.
  (* second loop: first row *)
  match type of H with context [for_lt 1 nr ?b ?h0] =>
    destruct (for_lt_inv (fun k x => exists d, x = heap3 h nt nr c d [DataBlk (nt * nr * nc * size) (fun _ => 0)] /\
      forall i, 0 <= i < k -> d i = Some (Ptr (length h + 2) (i * nc * size))) b 1 nr h0)
      as (y & A & B) end.
  { lia. }
  { eexists. split; [reflexivity|]. intros i Hi. assert (i = 0) by lia. subst i. reflexivity. }
  { intros k x Hk (d & -> & Hd). unfold heap3. rewrite L0. cbn [bind].
    rewrite (load_snd h _ (nt * nr) d _ 0 (k - 1) (Ptr (length h + 2) ((k - 1) * nc * size)));
      [|lia|lia|nia|apply Hd; lia].
    cbn [bind]. rewrite store_snd by nia. eexists. split; [reflexivity|].
    eexists. split; [reflexivity|]. intros i Hi. cbv beta.
    destruct (Z.eqb_spec i (0 + k)) as [->|NE]; [|apply Hd; lia].
    unfold padd. cbn [pb po]. rewrite wrap_id.
    + do 2 f_equal. ring.
    + assert (nc <= nt * nr * nc) by nia. nia. }
  destruct B as (d & -> & Hd). rewrite A in H. cbn [bind] in H. clear A.
  (* third loop *)
  match type of H with context [for_lt 1 nt ?b ?h0] =>
    destruct (for_lt_inv (fun k x => exists d, x = heap3 h nt nr c d [DataBlk (nt * nr * nc * size) (fun _ => 0)] /\
      forall i, 0 <= i < k * nr -> d i = Some (Ptr (length h + 2) (i * nc * size))) b 1 nt h0)
      as (y & A & B) end.
  { lia. }
  { exists d. split; [reflexivity|]. intros i Hi. apply Hd. lia. }
  { clear d Hd H. intros k x Hk (d & -> & Hd). unfold heap3.
    rewrite (load_tab h nt c _ (k - 1) (Ptr (length h + 1) ((k - 1) * nr * PSZ))); [|lia|apply Hc; lia].
    cbn [bind].
    assert (B1 : 0 <= (k - 1) * nr) by nia. assert (B2 : k * nr + nr <= nt * nr) by nia.
    rewrite (load_snd h _ (nt * nr) d _ ((k - 1) * nr) 0 (Ptr (length h + 2) ((k - 1) * nr * nc * size)));
      [|lia|lia|nia|rewrite Z.add_0_r; rewrite Hd by nia; reflexivity].
    cbn [bind].
    rewrite (load_tab h nt c _ k (Ptr (length h + 1) (k * nr * PSZ))); [|lia|apply Hc; lia].
    cbn [bind]. rewrite store_snd by nia. cbn [bind].
    match goal with |- exists y, for_lt 1 nr ?b ?h0 = _ /\ _ =>
      destruct (for_lt_inv (fun m x => exists d, x = heap3 h nt nr c d [DataBlk (nt * nr * nc * size) (fun _ => 0)] /\
        forall i, 0 <= i < k * nr + m -> d i = Some (Ptr (length h + 2) (i * nc * size))) b 1 nr h0)
        as (y & A & B) end.
    { lia. }
    { eexists. split; [reflexivity|]. intros i Hi. cbv beta.
      destruct (Z.eqb_spec i (k * nr + 0)) as [->|NE]; [|apply Hd; lia].
      unfold padd. cbn [pb po]. rewrite wrap_id.
      - do 2 f_equal. ring.
      - assert (nr * nc <= nt * nr * nc) by nia. nia. }
    { clear d Hd. intros m x Hm (d & -> & Hd). unfold heap3.
      rewrite (load_tab h nt c _ k (Ptr (length h + 1) (k * nr * PSZ))); [|lia|apply Hc; lia].
      cbn [bind].
      rewrite (load_snd h _ (nt * nr) d _ (k * nr) (m - 1) (Ptr (length h + 2) ((k * nr + (m - 1)) * nc * size)));
        [|nia|lia|nia|rewrite Hd by nia; reflexivity].
      cbn [bind]. rewrite store_snd by nia. eexists. split; [reflexivity|].
      eexists. split; [reflexivity|]. intros i Hi. cbv beta.
      destruct (Z.eqb_spec i (k * nr + m)) as [->|NE]; [|apply Hd; lia].
      unfold padd. cbn [pb po]. rewrite wrap_id.
      - do 2 f_equal. ring.
      - assert (nc <= nt * nr * nc) by nia. nia. }
    exists y. split; [exact A|]. destruct B as (d' & -> & Hd'). exists d'. split; [reflexivity|].
    intros i Hi. apply Hd'. lia. }
  rewrite A in H. cbn [bind] in H. inversion H; subst. destruct B as (d' & -> & Hd').
  exists c, d'. auto.
Qed.

Theorem C09_3d_array : forall av h nt nr nc size h' a, fits3 nt nr nc size ->
  calloc_3d_array av h nt nr nc size = Ok (h', a) ->
  extends h h' /\
  exists base, forall t r c, 0 <= t < nt -> 0 <= r < nr -> 0 <= c < nc ->
    exists p, elem3 h' a size t r c = Ok p /\ p = padd base (((t * nr + r) * nc + c) * size) /\
    zeroed h' p size /\
    forall t' r' c', 0 <= t' < nt -> 0 <= r' < nr -> 0 <= c' < nc -> (t, r, c) <> (t', r', c') ->
      forall q, elem3 h' a size t' r' c' = Ok q -> apart p q size.
Proof.
  intros av h nt nr nc size h' a F H.
  destruct (calloc_3d_shape _ _ _ _ _ _ _ _ F H) as (cc & d & -> & -> & Hc & Hd).
  destruct F as (F1 & F2 & F3 & F4 & F5 & F6).
  split; [eexists; reflexivity|].
  assert (E : forall t r c, 0 <= t < nt -> 0 <= r < nr -> 0 <= c < nc ->
    elem3 (heap3 h nt nr cc d [DataBlk (nt * nr * nc * size) (fun _ => 0)]) (Ptr (length h) 0) size t r c =
      Ok (Ptr (length h + 2) (((t * nr + r) * nc + c) * size))).
  { intros t r c Ht Hr Hc'. unfold elem3, heap3.
    rewrite (load_tab h nt cc _ t (Ptr (length h + 1) (t * nr * PSZ))); [|lia|apply Hc; lia].
    cbn [bind]. rewrite (load_snd h _ (nt * nr) d _ (t * nr) r (Ptr (length h + 2) ((t * nr + r) * nc * size)));
      [|nia|lia|nia|apply Hd; nia].
    cbn [bind]. unfold padd. cbn [pb po]. do 2 f_equal. ring. }
  exists (Ptr (length h + 2) 0). intros t r c Ht Hr Hcc. eexists. split; [apply E; auto|].
  split; [reflexivity|].
  assert (B0 : 0 <= t * nr) by nia. assert (B1 : t * nr + r + 1 <= nt * nr) by nia.
  assert (B2 : 0 <= (t * nr + r) * nc) by nia.
  assert (B3 : (t * nr + r) * nc + c + 1 <= nt * nr * nc) by nia.
  split.
  - exists (nt * nr * nc * size), (fun _ => 0). unfold heap3. cbn [pb po]. rewrite fetch_app_r. cbn [fetch nth].
    split; [reflexivity|]. split; [nia|]. split; [nia|]. reflexivity.
  - intros t' r' c' Ht' Hr' Hc' NE q Q. rewrite E in Q by auto. inversion Q; subst. right. cbn [po].
    assert ((t * nr + r) * nc + c <> (t' * nr + r') * nc + c').
    { intros X. apply NE. assert (G : t * nr + r = t' * nr + r') by nia.
      assert (t = t') by nia. subst. assert (r = r') by lia. subst. f_equal. lia. }
    assert ((t * nr + r) * nc + c + 1 <= (t' * nr + r') * nc + c' \/
            (t' * nr + r') * nc + c' + 1 <= (t * nr + r) * nc + c) as [D|D] by lia; [left|right]; nia.
Qed.
Print Assumptions C09_3d_array.

(** Freeing an array releases every block it allocated, and nothing else. *)
Theorem C09_free_releases : forall av h nt nr nc size,
  (forall h' a, fits2 nr nc size -> calloc_2d_array av h nr nc size = Ok (h', a) ->
     exists h'', free_2d_array h' a = Ok h'' /\ same_live h h'') /\
  (forall h' a, fits3 nt nr nc size -> calloc_3d_array av h nt nr nc size = Ok (h', a) ->
     exists h'', free_3d_array h' a = Ok h'' /\ same_live h h'').
Proof.
  intros. split; intros h' a F H.
  - destruct (calloc_2d_shape _ _ _ _ _ _ _ F H) as (c & -> & -> & Hc). destruct F as (F1 & _).
    unfold free_2d_array.
    rewrite (load_tab h nr c _ 0 (Ptr (length h + 1) 0)); [|lia|apply Hc; lia]. cbn [bind].
    unfold free at 1. cbn [pb]. rewrite fetch_app_r. cbn [fetch nth po Z.eqb bind].
    rewrite store_blk_app by (simpl; lia). cbn [store_blk firstn skipn app].
    unfold free. cbn [pb]. rewrite <- (Nat.add_0_r (length h)), fetch_app_r. cbn [fetch nth po Z.eqb].
    rewrite store_blk_app by (simpl; lia). eexists. split; [reflexivity|]. exists 2%nat. reflexivity.
  - destruct (calloc_3d_shape _ _ _ _ _ _ _ _ F H) as (c & d & -> & -> & Hc & Hd).
    destruct F as (F1 & F2 & _). unfold free_3d_array, heap3.
    rewrite (load_tab h nt c _ 0 (Ptr (length h + 1) (0 * PSZ))); [|lia|rewrite Hc by lia; reflexivity].
    cbn [bind]. rewrite (load_snd h _ (nt * nr) d _ 0 0 (Ptr (length h + 2) 0)); [|lia|lia|nia|apply Hd; nia].
    cbn [bind]. unfold free at 1. cbn [pb]. rewrite fetch_app_r. cbn [fetch nth po Z.eqb bind].
    rewrite store_blk_app by (simpl; lia). cbn [store_blk firstn skipn app].
    rewrite (load_tab h nt c _ 0 (Ptr (length h + 1) (0 * PSZ))); [|lia|rewrite Hc by lia; reflexivity].
    cbn [bind]. unfold free at 1. cbn [pb]. rewrite fetch_app_r. cbn [fetch nth po Z.eqb Z.mul bind].
    rewrite store_blk_app by (simpl; lia). cbn [store_blk firstn skipn app].
    unfold free. cbn [pb]. rewrite <- (Nat.add_0_r (length h)), fetch_app_r. cbn [fetch nth po Z.eqb].
    rewrite store_blk_app by (simpl; lia). eexists. split; [reflexivity|]. exists 3%nat. reflexivity.
Qed.
Print Assumptions C09_free_releases.

(** With memory available the constructors do succeed; the conditions are met. *)
Example C09_example : fits3 4 5 6 8 /\ exists h' a, calloc_3d_array (fun _ _ => true) [Freed] 4 5 6 8 = Ok (h', a).
Proof. split; [unfold fits3, PSZ, SIZE_MAX1; lia|]. eexists _, _. vm_compute. reflexivity. Qed.
Example C09_example2 : fits2 3 7 4 /\ exists h' a, calloc_2d_array (fun _ _ => true) [] 3 7 4 = Ok (h', a).
Proof. split; [unfold fits2, PSZ, SIZE_MAX1; lia|]. eexists _, _. vm_compute. reflexivity. Qed.

(** An array without rows: array[0] is written outside the (empty) pointer block. *)
Theorem C09_no_rows_is_undefined : forall av h nc size, (forall x y, av x y = true) -> 0 <= nc ->
  0 <= size < SIZE_MAX1 -> calloc_2d_array av h 0 nc size = UB.
Proof.
  intros av h nc size AV Hn Hs. unfold calloc_2d_array, calloc_ptrs, calloc_data. rewrite !AV.
  cbn [Z.mul andb]. change (wrap 0) with 0. cbn [Z.mul]. change (0 <? SIZE_MAX1) with true. cbn [andb bind].
  assert (X : forall x r, fetch (h ++ x :: r) (length h) = x).
  { intros x r. unfold fetch. rewrite app_nth2, Nat.sub_diag by lia. reflexivity. }
  unfold store. cbn [pb]. rewrite <- app_assoc. cbn [app]. rewrite AV. cbn [bind]. rewrite X. reflexivity.
Qed.
Print Assumptions C09_no_rows_is_undefined.
