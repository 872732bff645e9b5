(** * Facts about the loops and messages of SmrModel *)
From Coq Require Import Reals ZArith Bool Arith Lia Lra ZifyBool FinFun List.
From Verif Require Import CStr MeshModel SmrModel.
Import ListNotations.
Open Scope Z_scope.

(** ** Loops as lists of offsets *)
Definition offs (n : Z) : list Z := map Z.of_nat (seq 0 (Z.to_nat n)).
Lemma in_offs : forall n x, In x (offs n) <-> 0 <= x < n.
Proof.
  intros n x. unfold offs. rewrite in_map_iff. split.
  - intros (m & <- & H). apply in_seq in H. lia.
  - intros H. exists (Z.to_nat x). split; [lia|]. apply in_seq. lia.
Qed.
Lemma nodup_offs : forall n, NoDup (offs n).
Proof. intros n. unfold offs. apply Injective_map_NoDup; [intros x y; lia|apply seq_NoDup]. Qed.
Lemma upto_offs : forall s e, upto s e = map (fun n => s + n) (offs (e - s + 1)).
Proof. intros s e. unfold upto, offs. rewrite map_map. reflexivity. Qed.
Lemma upto2_offs : forall s e n, 0 <= n -> (e - s + 1 = 2 * n \/ e - s = 2 * n - 2) -> upto2 s e = map (fun x => s + 2 * x) (offs n).
Proof.
  intros s e n N H. unfold upto2, offs. rewrite map_map. f_equal. f_equal. f_equal.
  destruct H as [H|H].
  - replace (e - s) with (1 + (n - 1) * 2) by lia. rewrite Z.div_add by lia. change (1 / 2) with 0. lia.
  - rewrite H. replace (2 * n - 2) with ((n - 1) * 2) by lia. rewrite Z.div_mul; lia.
Qed.
Lemma in_upto : forall s e x, In x (upto s e) <-> s <= x <= e.
Proof.
  intros s e x. rewrite upto_offs, in_map_iff. split.
  - intros (n & <- & H). apply in_offs in H. lia.
  - intros H. exists (x - s). split; [lia|]. apply in_offs. lia.
Qed.
Lemma nodup_upto : forall s e, NoDup (upto s e).
Proof. intros s e. rewrite upto_offs. apply Injective_map_NoDup; [intros x y; lia|apply nodup_offs]. Qed.
Lemma length_offs : forall n, length (offs n) = Z.to_nat n.
Proof. intros n. unfold offs. rewrite map_length, seq_length. reflexivity. Qed.
Lemma length_upto : forall s e, length (upto s e) = Z.to_nat (e - s + 1).
Proof. intros. rewrite upto_offs, map_length. apply length_offs. Qed.
Lemma upto_nil : forall s e, e < s -> upto s e = [].
Proof. intros s e H. unfold upto. replace (Z.to_nat (e - s + 1)) with O by lia. reflexivity. Qed.
Lemma upto_cons : forall s e, s <= e -> upto s e = s :: upto (s + 1) e.
Proof.
  intros s e H. unfold upto. replace (Z.to_nat (e - s + 1)) with (S (Z.to_nat (e - (s + 1) + 1))) by lia.
  cbn [seq map]. f_equal; [lia|]. rewrite <- seq_shift, map_map. apply map_ext. intros n. lia.
Qed.
Lemma upto_snoc : forall s e, s <= e + 1 -> upto s (e + 1) = upto s e ++ [e + 1].
Proof.
  intros s e H. unfold upto. replace (Z.to_nat (e + 1 - s + 1)) with (Z.to_nat (e - s + 1) + 1)%nat by lia.
  rewrite seq_app, map_app. f_equal. cbn. f_equal. lia.
Qed.

Lemma cells2_map : forall {A A' B B' : Type} (a : A -> A') (b : B -> B') P Q,
  cells2 (map a P) (map b Q) = map (fun x => (a (fst x), b (snd x))) (cells2 P Q).
Proof.
  intros. induction P as [|p P IH]; [reflexivity|]. unfold cells2 in *. cbn [map flat_map]. rewrite IH, map_app, !map_map. reflexivity.
Qed.
Lemma cells2_map_l : forall {A A' B : Type} (a : A -> A') P (Q : list B), cells2 (map a P) Q = map (fun x => (a (fst x), snd x)) (cells2 P Q).
Proof. intros. rewrite <- (map_id Q) at 1. rewrite (cells2_map a (fun x => x)). reflexivity. Qed.
Lemma cells3_map : forall a b c K J I, cells3 (map a K) (map b J) (map c I) =
  map (fun x : Z * Z * Z => let '(k, j, i) := x in (a k, b j, c i)) (cells3 K J I).
Proof. intros. unfold cells3. rewrite cells2_map, cells2_map. apply map_ext. intros [[k j] i]. reflexivity. Qed.
Lemma in_cells2 : forall {A B : Type} (P : list A) (Q : list B) p q, In (p, q) (cells2 P Q) <-> In p P /\ In q Q.
Proof.
  intros. unfold cells2. rewrite in_flat_map. split.
  - intros (x & H & K). apply in_map_iff in K. destruct K as (y & E & K). injection E as <- <-. auto.
  - intros [H K]. exists p. split; [exact H|]. apply in_map. exact K.
Qed.
Lemma in_cells3 : forall K J I k j i, In (k, j, i) (cells3 K J I) <-> In k K /\ In j J /\ In i I.
Proof. intros. unfold cells3. rewrite !in_cells2. tauto. Qed.
Lemma nodup_app : forall {A : Type} (l m : list A), NoDup l -> NoDup m -> (forall x, In x l -> ~ In x m) -> NoDup (l ++ m).
Proof.
  intros A l m L M D. induction L as [|x l X L IH]; [exact M|]. cbn. constructor.
  - rewrite in_app_iff. intros [H|H]; [auto|]. apply (D x); [left; reflexivity|exact H].
  - apply IH. intros y Y. apply D. right. exact Y.
Qed.
Lemma nodup_cells2 : forall {A B : Type} (P : list A) (Q : list B), NoDup P -> NoDup Q -> NoDup (cells2 P Q).
Proof.
  intros A B P Q HP HQ. induction HP as [|p P X HP IH]; [constructor|]. unfold cells2. cbn [flat_map]. apply nodup_app.
  - apply Injective_map_NoDup; [|exact HQ]. intros x y E. congruence.
  - exact IH.
  - intros [p' q] H K. apply in_map_iff in H. destruct H as (y & E & H). injection E as <- <-.
    change (In (p, y) (cells2 P Q)) in K. apply in_cells2 in K. tauto.
Qed.
Lemma nodup_cells3 : forall K J I, NoDup K -> NoDup J -> NoDup I -> NoDup (cells3 K J I).
Proof. intros. apply nodup_cells2; [apply nodup_cells2|]; auto. Qed.
Lemma length_cells2 : forall {A B : Type} (P : list A) (Q : list B), length (cells2 P Q) = (length P * length Q)%nat.
Proof. intros. unfold cells2. induction P as [|p P IH]; [reflexivity|]. cbn [flat_map length]. rewrite app_length, map_length, IH. lia. Qed.
Lemma length_cells3 : forall K J I, length (cells3 K J I) = (length K * length J * length I)%nat.
Proof. intros. unfold cells3. rewrite !length_cells2. reflexivity. Qed.
Lemma cells2_nil_l : forall {A B : Type} (Q : list B), cells2 (@nil A) Q = []. Proof. reflexivity. Qed.
Lemma cells2_nil_r : forall {A B : Type} (P : list A), cells2 P (@nil B) = [].
Proof. intros. induction P as [|p P IH]; [reflexivity|exact IH]. Qed.

Lemma length_vars : forall c, Z.of_nat (length (vars c)) = NVAR c.
Proof.
  intros c. unfold vars, NVAR. rewrite !app_length, map_length, seq_length. destruct (c_baro c), (c_mhd c); cbn [length]; lia.
Qed.
Lemma nodup_vars : forall c, NoDup (vars c).
Proof.
  intros c. unfold vars.
  assert (S : NoDup (map VS (seq 0 (c_ns c)))) by (apply Injective_map_NoDup; [intros x y E; congruence|apply seq_NoDup]).
  assert (NS : forall v, (forall n, v <> VS n) -> ~ In v (map VS (seq 0 (c_ns c)))).
  { intros v H K. apply in_map_iff in K. destruct K as (n & E & _). apply (H n). congruence. }
  destruct (c_baro c), (c_mhd c); cbn [app];
  repeat (constructor; [cbn [In]; intros K; repeat (destruct K as [K|K]; [discriminate|]); revert K; apply NS; discriminate|]); exact S.
Qed.

(** ** Reading *)
Lemma rd_map : forall {P T Q : Type} (body : P -> R -> T -> T) (phi : Q -> P) (val : Q -> R) (l : list Q) t rest,
  rd_loop body (map phi l) t (map val l ++ rest) = Some (fold_left (fun t q => body (phi q) (val q) t) l t, rest).
Proof. intros P T Q body phi val l. induction l as [|q l IH]; intros t rest; [reflexivity|]. cbn. apply IH. Qed.
Lemma addl_map : forall {A : Type} (f g : A -> R) l, addl (map f l) (map g l) = map (fun x => (f x + g x)%R) l.
Proof. intros A f g l. induction l as [|x l IH]; [reflexivity|]. cbn. rewrite IH. reflexivity. Qed.
Lemma scale_all : forall n f l, (length l <= Z.to_nat n)%nat -> scale n f l = map (fun x => (x * f)%R) l.
Proof. intros n f l H. unfold scale. rewrite firstn_all2, skipn_all2, app_nil_r; auto. Qed.

(** ** Writing *)
Definition pos_eqb (p q : Z * Z * Z) : bool := let '(k, j, i) := p in let '(k', j', i') := q in ((k =? k') && (j =? j') && (i =? i'))%Z.
Lemma at3_upd3_same : forall B p x, at3 (upd3 B p x) p = x.
Proof. intros B [[k j] i] x. cbn. rewrite !Z.eqb_refl. reflexivity. Qed.
Lemma at3_upd3_other : forall B p q x, p <> q -> at3 (upd3 B p x) q = at3 B q.
Proof.
  intros B [[k j] i] [[k' j'] i'] x H. cbn. destruct (Z.eqb_spec k' k), (Z.eqb_spec j' j), (Z.eqb_spec i' i); cbn; try reflexivity. exfalso. apply H. congruence.
Qed.
Lemma at3_setU_same : forall g p v x, at3 (gU (setU g p v x)) p v = x.
Proof. intros g [[k j] i] v x. cbn. rewrite !Z.eqb_refl. cbn. destruct (var_eq_dec v v); [reflexivity|congruence]. Qed.
Lemma at3_setU_other : forall g p v x q w, (p, v) <> (q, w) -> at3 (gU (setU g p v x)) q w = at3 (gU g) q w.
Proof.
  intros g [[k j] i] v x [[k' j'] i'] w H. cbn. destruct (Z.eqb_spec k' k), (Z.eqb_spec j' j), (Z.eqb_spec i' i); cbn; try reflexivity.
  destruct (var_eq_dec w v); [|reflexivity]. exfalso. apply H. congruence.
Qed.
(** A loop that sets each element of a set of elements once, from its old value. *)
Lemma fold_setU : forall {Q : Type} (pos : Q -> Z * Z * Z) (vr : Q -> var) (h : Q -> R -> R) (l : list Q) g,
  NoDup (map (fun b => (pos b, vr b)) l) ->
  let g' := fold_left (fun g b => setU g (pos b) (vr b) (h b (at3 (gU g) (pos b) (vr b)))) l g in
  (forall b, In b l -> at3 (gU g') (pos b) (vr b) = h b (at3 (gU g) (pos b) (vr b))) /\
  (forall p v, ~ In (p, v) (map (fun b => (pos b, vr b)) l) -> at3 (gU g') p v = at3 (gU g) p v) /\
  gB1 g' = gB1 g /\ gB2 g' = gB2 g /\ gB3 g' = gB3 g.
Proof.
  intros Q pos vr h l. induction l as [|b l IH]; intros g ND.
  - cbn. repeat split; auto. intros b [].
  - cbn [map] in ND. inversion ND as [|x y NI ND']; subst. cbn [fold_left].
    specialize (IH (setU g (pos b) (vr b) (h b (at3 (gU g) (pos b) (vr b)))) ND'). cbv zeta in *.
    destruct IH as (I1 & I2 & I3 & I4 & I5). repeat split; auto.
    + intros b' [<-|B'].
      * rewrite I2 by exact NI. apply at3_setU_same.
      * rewrite I1 by exact B'. rewrite at3_setU_other; [reflexivity|]. intros E. apply NI. rewrite E.
        apply (in_map (fun b => (pos b, vr b))). exact B'.
    + intros p v H. cbn [map In] in H. rewrite I2 by tauto. apply at3_setU_other. intros E. apply H. left. exact E.
Qed.
Lemma loopB_spec : forall h ps B, NoDup ps ->
  (forall p, In p ps -> at3 (loopB h ps B) p = h p (at3 B p)) /\ (forall p, ~ In p ps -> at3 (loopB h ps B) p = at3 B p).
Proof.
  intros h ps. unfold loopB. induction ps as [|p ps IH]; intros B ND.
  - cbn. split; [intros p []|auto].
  - inversion ND as [|x y NI ND']; subst. cbn [fold_left]. destruct (IH (upd3 B p (h p (at3 B p))) ND') as [I1 I2]. split.
    + intros q [<-|Q]; [rewrite I2 by exact NI; apply at3_upd3_same|]. rewrite I1 by exact Q. rewrite at3_upd3_other; [reflexivity|]. intros E. subst q. auto.
    + intros q Q. rewrite I2 by (intros K; apply Q; right; exact K). apply at3_upd3_other. intros E. apply Q. left. exact E.
Qed.
(** Boxes given by three lists. *)
Definition memZ (x : Z) (l : list Z) : bool := existsb (Z.eqb x) l.
Lemma memZ_spec : forall x l, memZ x l = true <-> In x l.
Proof. intros x l. unfold memZ. rewrite existsb_exists. split; [intros (y & H & E); apply Z.eqb_eq in E; subst; auto|intros H; exists x; split; [auto|apply Z.eqb_refl]]. Qed.
Lemma memZ_upto : forall x s e, memZ x (upto s e) = (s <=? x) && (x <=? e).
Proof. intros x s e. destruct (memZ x (upto s e)) eqn:E; [apply memZ_spec, in_upto in E; lia|]. assert (~ In x (upto s e)) by (rewrite <- memZ_spec; congruence). rewrite in_upto in H. lia. Qed.
Lemma memZ_one : forall x a, memZ x [a] = (x =? a).
Proof. intros. cbn. apply orb_false_r. Qed.
Lemma memZ_two : forall x a b, memZ x [a; b] = (x =? a) || (x =? b).
Proof. intros. cbn. rewrite orb_false_r. reflexivity. Qed.
Lemma loopB_box : forall h K J I B k j i, NoDup K -> NoDup J -> NoDup I ->
  loopB h (cells3 K J I) B k j i = if memZ k K && memZ j J && memZ i I then h (k, j, i) (B k j i) else B k j i.
Proof.
  intros h K J I B k j i HK HJ HI. destruct (loopB_spec h (cells3 K J I) B (nodup_cells3 _ _ _ HK HJ HI)) as [S1 S2].
  specialize (S1 (k, j, i)). specialize (S2 (k, j, i)). rewrite in_cells3 in S1, S2. rewrite <- !memZ_spec in S1, S2. cbn [at3] in S1, S2.
  destruct (memZ k K), (memZ j J), (memZ i I); cbn [andb]; first [apply S1; tauto|apply S2; intuition congruence].
Qed.

(** Cell-centred fields are the only thing the loops [centre1] ... set. *)
Lemma centre1_keep : forall ps g,
  (forall p v, v <> VB1 -> at3 (gU (centre1 ps g)) p v = at3 (gU g) p v) /\ gB1 (centre1 ps g) = gB1 g /\ gB2 (centre1 ps g) = gB2 g /\ gB3 (centre1 ps g) = gB3 g.
Proof.
  intros ps. unfold centre1. induction ps as [|[[k j] i] ps IH]; intros g; [repeat split|]. cbn [fold_left].
  match goal with |- context [fold_left _ ps ?x] => destruct (IH x) as (I1 & I2 & I3 & I4) end. repeat split; auto.
  intros p v V. rewrite I1 by exact V. apply at3_setU_other. intros E. congruence.
Qed.
Lemma centre2_keep : forall ps g,
  (forall p v, v <> VB2 -> at3 (gU (centre2 ps g)) p v = at3 (gU g) p v) /\ gB1 (centre2 ps g) = gB1 g /\ gB2 (centre2 ps g) = gB2 g /\ gB3 (centre2 ps g) = gB3 g.
Proof.
  intros ps. unfold centre2. induction ps as [|[[k j] i] ps IH]; intros g; [repeat split|]. cbn [fold_left].
  match goal with |- context [fold_left _ ps ?x] => destruct (IH x) as (I1 & I2 & I3 & I4) end. repeat split; auto.
  intros p v V. rewrite I1 by exact V. apply at3_setU_other. intros E. congruence.
Qed.
Lemma centre3_keep : forall ps g,
  (forall p v, v <> VB3 -> at3 (gU (centre3 ps g)) p v = at3 (gU g) p v) /\ gB1 (centre3 ps g) = gB1 g /\ gB2 (centre3 ps g) = gB2 g /\ gB3 (centre3 ps g) = gB3 g.
Proof.
  intros ps. unfold centre3. induction ps as [|[[k j] i] ps IH]; intros g; [repeat split|]. cbn [fold_left].
  match goal with |- context [fold_left _ ps ?x] => destruct (IH x) as (I1 & I2 & I3 & I4) end. repeat split; auto.
  intros p v V. rewrite I1 by exact V. apply at3_setU_other. intros E. congruence.
Qed.
