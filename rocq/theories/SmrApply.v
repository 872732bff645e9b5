(** * RestrictCorrect: what the parent makes of the message *)
From Coq Require Import Reals ZArith Bool Arith Lia Lra ZifyBool FinFun List.
From Verif Require Import CStr MeshModel SmrModel SmrOverlap SmrFacts SmrProps.
Import ListNotations.
Open Scope Z_scope.

Definition inb (o : ovl) (a : axis) (x : Z) : bool := (o_s o a <=? x) && (x <=? o_e o a).
Definition in3 (o : ovl) (k j i : Z) : bool := inb o X3 k && inb o X2 j && inb o X1 i.
Lemma in3_inside : forall o k j i, in3 o k j i = true <-> inside o k j i.
Proof. intros. unfold in3, inb, inside. lia. Qed.
Definition in_vars (c : cfg) (v : var) : bool := if in_dec var_eq_dec v (vars c) then true else false.
Lemma in_vars_spec : forall c v, in_vars c v = true <-> In v (vars c).
Proof. intros c v. unfold in_vars. destruct (in_dec var_eq_dec v (vars c)); split; congruence || auto. Qed.
Local Open Scope R_scope.

(** Step 1b. *)
Lemma get_cons_eq : forall c nDim oc of g gf rest, paired c nDim oc of ->
  exists g', get_cons c oc g (map (fun '(p, v) => avgU nDim of gf p v) (cells2 (base3 oc) (vars c)) ++ rest) = Some (g', rest) /\
   (forall k j i v, gU g' k j i v = if in3 oc k j i && in_vars c v then avgU nDim of gf (k - o_s oc X3, j - o_s oc X2, i - o_s oc X1)%Z v else gU g k j i v) /\
   gB1 g' = gB1 g /\ gB2 g' = gB2 g /\ gB3 g' = gB3 g.
Proof.
  intros c nDim oc of g gf rest P. unfold get_cons. rewrite !upto_offs, cells3_map, cells2_map_l.
  unfold base3, len. rewrite rd_map.
  match goal with |- context [fold_left ?b ?l ?x] => remember l as L eqn:EL; set (g' := fold_left b L x) end.
  pose (pos := fun q : Z * Z * Z * var => let '(k, j, i) := fst q in (o_s oc X3 + k, o_s oc X2 + j, o_s oc X1 + i)%Z).
  assert (ND : NoDup (map (fun b => (pos b, snd b)) L)).
  { subst L. apply Injective_map_NoDup.
    - intros [[[k j] i] v] [[[k' j'] i'] v'] E. unfold pos in E. cbn in E. injection E as E1 E2 E3 E4. f_equal; [f_equal; [f_equal|]|]; auto; lia.
    - apply nodup_cells2; [apply nodup_cells3; apply nodup_offs|apply nodup_vars]. }
  pose proof (fold_setU pos snd (fun q _ => let '(p, v) := q in avgU nDim of gf p v) L g ND) as S. cbv zeta in S.
  replace (fold_left _ L g) with g' in S by (subst g'; f_equal; apply functional_extensionality_nodep || (cbv beta; reflexivity)).
  exists g'. split; [reflexivity|]. destruct S as (S1 & S2 & S3). split; [|exact S3].
  intros k j i v. destruct (in3 oc k j i && in_vars c v) eqn:E.
  - apply andb_prop in E. destruct E as [E1 E2]. apply in_vars_spec in E2.
    specialize (S1 ((k - o_s oc X3, j - o_s oc X2, i - o_s oc X1)%Z, v)). cbn [pos fst snd at3] in S1.
    unfold pos in S1. cbn [fst snd] in S1.
    replace (o_s oc X3 + (k - o_s oc X3))%Z with k in S1 by lia. replace (o_s oc X2 + (j - o_s oc X2))%Z with j in S1 by lia. replace (o_s oc X1 + (i - o_s oc X1))%Z with i in S1 by lia.
    cbn [at3] in S1. apply S1. subst L. apply in_cells2. split; [|exact E2]. apply in_cells3. rewrite !in_offs. unfold in3, inb in E1. lia.
  - specialize (S2 (k, j, i) v). cbn [at3] in S2. apply S2. intros H. apply in_map_iff in H. destruct H as ([[[kk jj] ii] w] & H1 & H2).
    unfold pos in H1. cbn [fst snd] in H1. injection H1 as <- <- <- <-. subst L. apply in_cells2 in H2. destruct H2 as [H2 H3]. apply in_cells3 in H2. rewrite !in_offs in H2.
    apply in_vars_spec in H3. rewrite H3 in E. unfold in3, inb in E. lia.
Qed.

(** Step 1c. *)
Lemma fold_store : forall {Q : Type} (pos : Q -> Z * Z * Z) (b : Q -> bool) (x : Q -> R) (l : list Q) B, NoDup (map pos l) ->
  let B' := fold_left (fun B q => store (pos q, b q) (x q) B) l B in
  (forall q, In q l -> at3 B' (pos q) = if b q then x q else at3 B (pos q)) /\ (forall p, ~ In p (map pos l) -> at3 B' p = at3 B p).
Proof.
  intros Q pos b x l. induction l as [|q l IH]; intros B ND; cbv zeta.
  - cbn. split; [intros q []|auto].
  - cbn [map] in ND. inversion ND as [|y z NI ND']; subst. cbn [fold_left]. destruct (IH (store (pos q, b q) (x q) B) ND') as [I1 I2]. split.
    + intros q' [<-|H].
      * rewrite I2 by exact NI. cbn [store]. destruct (b q); [apply at3_upd3_same|reflexivity].
      * rewrite I1 by exact H. destruct (b q'); [reflexivity|]. cbn [store]. destruct (b q); [|reflexivity]. apply at3_upd3_other.
        intros E. apply NI. rewrite E. apply in_map. exact H.
    + intros p H. cbn [map In] in H. rewrite I2 by tauto. cbn [store]. destruct (b q); [|reflexivity]. apply at3_upd3_other. tauto.
Qed.
(** Reading a block of faces whose first coordinates are [k0], [j0], [i0]. *)
Lemma rd_block : forall (stored : Z -> Z -> Z -> bool) (val : Z -> Z -> Z -> R) k0 j0 i0 n3 n2 n1 B rest,
  exists B', rd_loop store (map (fun '(k, j, i) => ((k, j, i), stored k j i)) (cells3 (upto k0 (k0 + n3 - 1)) (upto j0 (j0 + n2 - 1)) (upto i0 (i0 + n1 - 1)))) B
      (map (fun '(kk, jj, ii) => val kk jj ii) (base n3 n2 n1) ++ rest) = Some (B', rest) /\
   forall k j i, B' k j i = if ((k0 <=? k) && (k <? k0 + n3) && (j0 <=? j) && (j <? j0 + n2) && (i0 <=? i) && (i <? i0 + n1) && stored k j i)%Z
                            then val (k - k0)%Z (j - j0)%Z (i - i0)%Z else B k j i.
Proof.
  intros. rewrite !upto_offs. replace (k0 + n3 - 1 - k0 + 1)%Z with n3 by lia. replace (j0 + n2 - 1 - j0 + 1)%Z with n2 by lia. replace (i0 + n1 - 1 - i0 + 1)%Z with n1 by lia.
  rewrite cells3_map, map_map. fold (base n3 n2 n1). rewrite rd_map.
  pose (pos := fun q : Z * Z * Z => let '(k, j, i) := q in (k0 + k, j0 + j, i0 + i)%Z).
  pose (vl := fun q : Z * Z * Z => let '(k, j, i) := q in val k j i).
  pose (bb := fun q : Z * Z * Z => let '(k, j, i) := pos q in stored k j i).
  assert (ND : NoDup (map pos (base n3 n2 n1))).
  { apply Injective_map_NoDup; [|apply nodup_cells3; apply nodup_offs]. intros [[k j] i] [[k' j'] i'] E. unfold pos in E. injection E as E1 E2 E3. f_equal; [f_equal|]; lia. }
  destruct (fold_store pos bb vl (base n3 n2 n1) B ND) as [S1 S2]. cbv zeta in S1, S2.
  match goal with |- context [Some (fold_left ?f ?l ?x, _)] => replace (fold_left f l x) with (fold_left (fun B q => store (pos q, bb q) (vl q) B) (base n3 n2 n1) B) end.
  2:{ clear. generalize (base n3 n2 n1). intros l. revert B. induction l as [|[[k j] i] l IH]; intros B; [reflexivity|]. cbn [fold_left]. rewrite IH. reflexivity. }
  eexists. split; [reflexivity|]. intros k j i.
  destruct ((k0 <=? k) && (k <? k0 + n3) && (j0 <=? j) && (j <? j0 + n2) && (i0 <=? i) && (i <? i0 + n1))%Z eqn:E; cbn [andb].
  - specialize (S1 (k - k0, j - j0, i - i0)%Z). unfold bb, vl, pos in S1.
    replace (k0 + (k - k0))%Z with k in S1 by lia. replace (j0 + (j - j0))%Z with j in S1 by lia. replace (i0 + (i - i0))%Z with i in S1 by lia.
    cbn [at3] in S1. apply S1. unfold base. rewrite in_cells3, !in_offs. lia.
  - specialize (S2 (k, j, i)). cbn [at3] in S2. apply S2. intros H. apply in_map_iff in H. destruct H as ([[kk jj] ii] & H1 & H2). unfold pos in H1. injection H1 as <- <- <-.
    unfold base in H2. rewrite in_cells3, !in_offs in H2. lia.
Qed.
Lemma flat_cells2 : forall {A B C : Type} (f : A * B -> list C) P Q, flat_map f (cells2 P Q) = flat_map (fun p => flat_map (fun q => f (p, q)) Q) P.
Proof.
  intros. unfold cells2. induction P as [|p P IH]; [reflexivity|]. cbn [flat_map]. rewrite flat_map_app, IH. f_equal. clear IH.
  induction Q as [|q Q IQ]; [reflexivity|]. cbn. rewrite IQ. reflexivity.
Qed.
Lemma flat_ends : forall {C : Type} (f : Z -> C) x y s e, (s + 1 <= e)%Z ->
  flat_map (fun i => (if (i =? s + 1)%Z then [x] else []) ++ [f i] ++ (if (i =? e)%Z then [y] else [])) (upto (s + 1) e) = x :: map f (upto (s + 1) e) ++ [y].
Proof.
  intros C f x y s e H.
  assert (G : forall n a, n = Z.to_nat (e - a + 1) -> (s + 1 < a)%Z -> (a <= e + 1)%Z ->
    flat_map (fun i => (if (i =? s + 1)%Z then [x] else []) ++ [f i] ++ (if (i =? e)%Z then [y] else [])) (upto a e) = map f (upto a e) ++ (if (a <=? e)%Z then [y] else [])).
  { induction n as [|n IH]; intros a N A1 A2.
    - rewrite upto_nil by lia. replace (a <=? e)%Z with false by lia. reflexivity.
    - rewrite upto_cons by lia. cbn [flat_map map]. rewrite (IH (a + 1)%Z) by lia. replace (a =? s + 1)%Z with false by lia. replace (a <=? e)%Z with true by lia.
      destruct (Z.eqb_spec a e).
      + subst a. rewrite upto_nil by lia. replace (e + 1 <=? e)%Z with false by lia. reflexivity.
      + replace (a + 1 <=? e)%Z with true by lia. reflexivity. }
  rewrite upto_cons by lia. cbn [flat_map map]. rewrite (G _ (s + 1 + 1)%Z eq_refl) by lia. rewrite Z.eqb_refl. cbn [app].
  destruct (Z.eqb_spec (s + 1) e).
  - rewrite upto_nil by lia. replace (s + 1 + 1 <=? e)%Z with false by lia. reflexivity.
  - replace (s + 1 + 1 <=? e)%Z with true by lia. reflexivity.
Qed.
Definition st1 (o : ovl) (i : Z) : bool := negb ((i =? o_s o X1)%Z && some (o_flx o X1 false)) && negb ((i =? o_e o X1 + 1)%Z && some (o_flx o X1 true)).
Definition st2 (o : ovl) (j : Z) : bool := negb ((j =? o_s o X2)%Z && some (o_flx o X2 false)) && negb ((j =? o_e o X2 + 1)%Z && some (o_flx o X2 true)).
Definition st3 (o : ovl) (k : Z) : bool := negb ((k =? o_s o X3)%Z && some (o_flx o X3 false)) && negb ((k =? o_e o X3 + 1)%Z && some (o_flx o X3 true)).
Lemma map_cells2_flat : forall {A B C : Type} (f : A * B -> C) P Q, map f (cells2 P Q) = flat_map (fun p => map (fun q => f (p, q)) Q) P.
Proof. intros. unfold cells2. induction P as [|p P IH]; [reflexivity|]. cbn [flat_map]. rewrite map_app, IH, map_map. reflexivity. Qed.
Lemma flat_map_ext_in : forall {A B : Type} (f g : A -> list B) l, (forall x, In x l -> f x = g x) -> flat_map f l = flat_map g l.
Proof. intros A B f g l H. induction l as [|x l IH]; [reflexivity|]. cbn. rewrite H by (left; reflexivity). rewrite IH; [reflexivity|]. intros y Y. apply H. right. exact Y. Qed.
Lemma b1_reads_eq : forall o, (2 <= len o X1)%Z ->
  b1_reads o = map (fun '(k, j, i) => ((k, j, i), st1 o i)) (cells3 (upto (o_s o X3) (o_e o X3)) (upto (o_s o X2) (o_e o X2)) (upto (o_s o X1) (o_e o X1 + 1))).
Proof.
  intros o H. unfold len in H. unfold b1_reads. cbv zeta. unfold cells3. rewrite flat_cells2, map_cells2_flat. apply flat_map_ext_in. intros [k j] _. cbv beta iota.
  rewrite (flat_ends (fun i => (k, j, i, true))) by lia.
  rewrite (upto_snoc (o_s o X1)) by lia. rewrite (upto_cons (o_s o X1)) by lia. cbn [app map]. rewrite map_app. cbn [map]. unfold st1.
  f_equal; [|f_equal].
  - rewrite Z.eqb_refl. replace (o_s o X1 =? o_e o X1 + 1)%Z with false by lia. cbn. rewrite andb_true_r. reflexivity.
  - apply map_ext_in. intros i I. apply in_upto in I. replace (i =? o_s o X1)%Z with false by lia. replace (i =? o_e o X1 + 1)%Z with false by lia. reflexivity.
  - rewrite Z.eqb_refl. replace (o_e o X1 + 1 =? o_s o X1)%Z with false by lia. reflexivity.
Qed.
Lemma b1_reads_nil : forall o, len o X1 = 0%Z -> b1_reads o = [].
Proof.
  intros o H. unfold len in H. unfold b1_reads. cbv zeta. rewrite (upto_nil (o_s o X1 + 1)) by lia. unfold cells3. rewrite cells2_nil_r. reflexivity.
Qed.
Lemma b2_reads_eq : forall o, (2 <= len o X2)%Z ->
  b2_reads o = map (fun '(k, j, i) => ((k, j, i), st2 o j)) (cells3 (upto (o_s o X3) (o_e o X3)) (upto (o_s o X2) (o_e o X2 + 1)) (upto (o_s o X1) (o_e o X1))).
Proof.
  intros o H. unfold len in H. unfold b2_reads. cbv zeta. replace (o_s o X2 <? o_e o X2)%Z with true by lia.
  assert (C3 : forall K J I (f : Z * Z * Z -> Z * Z * Z * bool), map f (cells3 K J I) = flat_map (fun k => map (fun '(j, i) => f (k, j, i)) (cells2 J I)) K).
  { clear. intros K J I f. unfold cells3. induction K as [|k K IH]; [reflexivity|]. cbn [flat_map]. rewrite <- IH. unfold cells2 at 2. cbn [flat_map].
    change (flat_map (fun p => map (fun q => (p, q)) J) K) with (cells2 K J).
    assert (A : forall X Y : list (Z * Z), cells2 (X ++ Y) I = cells2 X I ++ cells2 Y I) by (intros; unfold cells2; apply flat_map_app).
    rewrite A, map_app. f_equal. rewrite cells2_map_l, map_map. apply map_ext. intros [j i]. reflexivity. }
  rewrite C3. apply flat_map_ext_in. intros k _.
  rewrite (upto_snoc (o_s o X2)) by lia. rewrite (upto_cons (o_s o X2)) by lia. cbn [app].
  assert (A : forall (x : Z) X Y, cells2 (x :: X ++ [Y]) (upto (o_s o X1) (o_e o X1)) = map (fun q => (x, q)) (upto (o_s o X1) (o_e o X1)) ++ cells2 X (upto (o_s o X1) (o_e o X1)) ++ map (fun q => (Y, q)) (upto (o_s o X1) (o_e o X1))).
  { clear. intros x X Y. unfold cells2. cbn [flat_map]. f_equal. rewrite flat_map_app. f_equal. cbn. apply app_nil_r. }
  rewrite A, !map_app, !map_map. unfold st2. f_equal; [|f_equal].
  - apply map_ext. intros i. rewrite Z.eqb_refl. replace (o_s o X2 =? o_e o X2 + 1)%Z with false by lia. cbn. rewrite andb_true_r. reflexivity.
  - apply map_ext_in. intros [j i] I. apply in_cells2 in I. destruct I as [I _]. apply in_upto in I. replace (j =? o_s o X2)%Z with false by lia. replace (j =? o_e o X2 + 1)%Z with false by lia. reflexivity.
  - apply map_ext. intros i. rewrite Z.eqb_refl. replace (o_e o X2 + 1 =? o_s o X2)%Z with false by lia. reflexivity.
Qed.
Lemma b2_reads_nil : forall o, len o X2 = 0%Z -> b2_reads o = [].
Proof. intros o H. unfold len in H. unfold b2_reads. cbv zeta. replace (o_s o X2 <? o_e o X2)%Z with false by lia. reflexivity. Qed.
Lemma b3_reads_eq : forall o, (2 <= len o X3)%Z ->
  b3_reads o = map (fun '(k, j, i) => ((k, j, i), st3 o k)) (cells3 (upto (o_s o X3) (o_e o X3 + 1)) (upto (o_s o X2) (o_e o X2)) (upto (o_s o X1) (o_e o X1))).
Proof.
  intros o H. unfold len in H. unfold b3_reads. cbv zeta. replace (o_s o X3 <? o_e o X3)%Z with true by lia.
  rewrite (upto_snoc (o_s o X3)) by lia. rewrite (upto_cons (o_s o X3)) by lia. cbn [app].
  assert (A : forall x X Y J I, cells3 (x :: X ++ [Y]) J I = map (fun '(j, i) => (x, j, i)) (cells2 J I) ++ cells3 X J I ++ map (fun '(j, i) => (Y, j, i)) (cells2 J I)).
  { clear. intros x X Y J I. unfold cells3.
    assert (A : forall X Y : list (Z * Z), cells2 (X ++ Y) I = cells2 X I ++ cells2 Y I) by (intros; unfold cells2; apply flat_map_app).
    assert (A' : forall X Y : list Z, cells2 (X ++ Y) J = cells2 X J ++ cells2 Y J) by (intros; unfold cells2; apply flat_map_app).
    assert (S1 : forall z : Z, cells2 (cells2 [z] J) I = map (fun '(j, i) => (z, j, i)) (cells2 J I)).
    { intros z. change (cells2 [z] J) with (map (fun q => (z, q)) J ++ []). rewrite app_nil_r, cells2_map_l. apply map_ext. intros [j i]. reflexivity. }
    change (x :: X ++ [Y]) with ([x] ++ X ++ [Y]). rewrite !A', !A, !S1. reflexivity. }
  rewrite A, !map_app, !map_map. unfold st3. f_equal; [|f_equal].
  - apply map_ext. intros [j i]. rewrite Z.eqb_refl. replace (o_s o X3 =? o_e o X3 + 1)%Z with false by lia. cbn. rewrite andb_true_r. reflexivity.
  - apply map_ext_in. intros [[k j] i] I. apply in_cells3 in I. destruct I as (I & _). apply in_upto in I. replace (k =? o_s o X3)%Z with false by lia. replace (k =? o_e o X3 + 1)%Z with false by lia. reflexivity.
  - apply map_ext. intros [j i]. rewrite Z.eqb_refl. replace (o_e o X3 + 1 =? o_s o X3)%Z with false by lia. reflexivity.
Qed.
Lemma b3_reads_nil : forall o, len o X3 = 0%Z -> b3_reads o = [].
Proof. intros o H. unfold len in H. unfold b3_reads. cbv zeta. replace (o_s o X3 <? o_e o X3)%Z with false by lia. rewrite (upto_nil (o_s o X3 + 1)) by lia. reflexivity. Qed.

(** The fields after Step 1c. *)
Definition set1 (nDim : nat) (oc of : ovl) (Bf B : Z -> Z -> Z -> R) (k j i : Z) : R :=
  if (negb (len oc X1 =? 0) && inb oc X3 k && inb oc X2 j && (o_s oc X1 <=? i) && (i <=? o_e oc X1 + 1) && st1 oc i)%Z
  then avgB1 nDim of Bf (k - o_s oc X3) (j - o_s oc X2) (i - o_s oc X1) else B k j i.
Definition set2 (nDim : nat) (oc of : ovl) (Bf B : Z -> Z -> Z -> R) (k j i : Z) : R :=
  if (negb (len oc X2 =? 0) && inb oc X3 k && inb oc X1 i && (o_s oc X2 <=? j) && (j <=? o_e oc X2 + 1) && st2 oc j)%Z
  then avgB2 nDim of Bf (k - o_s oc X3) (j - o_s oc X2) (i - o_s oc X1) else B k j i.
Definition set3 (nDim : nat) (oc of : ovl) (Bf B : Z -> Z -> Z -> R) (k j i : Z) : R :=
  if (negb (len oc X3 =? 0) && inb oc X2 j && inb oc X1 i && (o_s oc X3 <=? k) && (k <=? o_e oc X3 + 1) && st3 oc k)%Z
  then avgB3 nDim of Bf (k - o_s oc X3) (j - o_s oc X2) (i - o_s oc X1) else B k j i.
Lemma rd_fld1 : forall nDim oc of Bf B rest, (0 <= len oc X1)%Z -> len oc X1 <> 1%Z ->
  exists B', rd_loop store (b1_reads oc) B (pk1 nDim oc of Bf ++ rest) = Some (B', rest) /\ forall k j i, B' k j i = set1 nDim oc of Bf B k j i.
Proof.
  intros nDim oc of Bf B rest N1 W. unfold pk1. destruct (Z.eqb_spec (len oc X1) 0) as [E|E].
  - rewrite b1_reads_nil by exact E. cbn. eexists. split; [reflexivity|]. intros. unfold set1. rewrite E. reflexivity.
  - rewrite b1_reads_eq by lia.
    destruct (rd_block (fun _ _ i => st1 oc i) (avgB1 nDim of Bf) (o_s oc X3) (o_s oc X2) (o_s oc X1) (len oc X3) (len oc X2) (len oc X1 + 1) B rest) as (B' & H1 & H2).
    unfold len in H1, H2. replace (o_s oc X3 + (o_e oc X3 - o_s oc X3 + 1) - 1)%Z with (o_e oc X3) in H1 by lia. replace (o_s oc X2 + (o_e oc X2 - o_s oc X2 + 1) - 1)%Z with (o_e oc X2) in H1 by lia.
    replace (o_s oc X1 + (o_e oc X1 - o_s oc X1 + 1 + 1) - 1)%Z with (o_e oc X1 + 1)%Z in H1 by lia.
    exists B'. split; [exact H1|]. intros k j i. rewrite H2. unfold set1, inb, len in *.
    match goal with |- (if ?a then _ else _) = (if ?b then _ else _) => replace b with a by lia; reflexivity end.
Qed.
Lemma rd_fld2 : forall nDim oc of Bf B rest, (0 <= len oc X2)%Z -> len oc X2 <> 1%Z ->
  exists B', rd_loop store (b2_reads oc) B (pk2 nDim oc of Bf ++ rest) = Some (B', rest) /\ forall k j i, B' k j i = set2 nDim oc of Bf B k j i.
Proof.
  intros nDim oc of Bf B rest N1 W. unfold pk2. destruct (Z.eqb_spec (len oc X2) 0) as [E|E].
  - rewrite b2_reads_nil by exact E. cbn. eexists. split; [reflexivity|]. intros. unfold set2. rewrite E. reflexivity.
  - rewrite b2_reads_eq by lia.
    destruct (rd_block (fun _ j _ => st2 oc j) (avgB2 nDim of Bf) (o_s oc X3) (o_s oc X2) (o_s oc X1) (len oc X3) (len oc X2 + 1) (len oc X1) B rest) as (B' & H1 & H2).
    unfold len in H1, H2. replace (o_s oc X3 + (o_e oc X3 - o_s oc X3 + 1) - 1)%Z with (o_e oc X3) in H1 by lia. replace (o_s oc X2 + (o_e oc X2 - o_s oc X2 + 1 + 1) - 1)%Z with (o_e oc X2 + 1)%Z in H1 by lia.
    replace (o_s oc X1 + (o_e oc X1 - o_s oc X1 + 1) - 1)%Z with (o_e oc X1)%Z in H1 by lia.
    exists B'. split; [exact H1|]. intros k j i. rewrite H2. unfold set2, inb, len in *.
    match goal with |- (if ?a then _ else _) = (if ?b then _ else _) => replace b with a by lia; reflexivity end.
Qed.
Lemma rd_fld3 : forall nDim oc of Bf B rest, (0 <= len oc X3)%Z -> len oc X3 <> 1%Z ->
  exists B', rd_loop store (b3_reads oc) B (pk3 nDim oc of Bf ++ rest) = Some (B', rest) /\ forall k j i, B' k j i = set3 nDim oc of Bf B k j i.
Proof.
  intros nDim oc of Bf B rest N1 W. unfold pk3. destruct (Z.eqb_spec (len oc X3) 0) as [E|E].
  - rewrite b3_reads_nil by exact E. cbn. eexists. split; [reflexivity|]. intros. unfold set3. rewrite E. reflexivity.
  - rewrite b3_reads_eq by lia.
    destruct (rd_block (fun k _ _ => st3 oc k) (avgB3 nDim of Bf) (o_s oc X3) (o_s oc X2) (o_s oc X1) (len oc X3 + 1) (len oc X2) (len oc X1) B rest) as (B' & H1 & H2).
    unfold len in H1, H2. replace (o_s oc X3 + (o_e oc X3 - o_s oc X3 + 1 + 1) - 1)%Z with (o_e oc X3 + 1)%Z in H1 by lia. replace (o_s oc X2 + (o_e oc X2 - o_s oc X2 + 1) - 1)%Z with (o_e oc X2) in H1 by lia.
    replace (o_s oc X1 + (o_e oc X1 - o_s oc X1 + 1) - 1)%Z with (o_e oc X1)%Z in H1 by lia.
    exists B'. split; [exact H1|]. intros k j i. rewrite H2. unfold set3, inb, len in *.
    match goal with |- (if ?a then _ else _) = (if ?b then _ else _) => replace b with a by lia; reflexivity end.
Qed.

(** Loops that centre a field. *)
Lemma centre_gen : forall (v : var) (val : gst -> Z -> Z -> Z -> R) (ps : list (Z * Z * Z)) g,
  (forall g p x k j i, val (setU g p v x) k j i = val g k j i) ->
  let g' := fold_left (fun g '(k, j, i) => setU g (k, j, i) v (val g k j i)) ps g in
  forall k j i, gU g' k j i v = if existsb (pos_eqb (k, j, i)) ps then val g k j i else gU g k j i v.
Proof.
  intros v val ps g H. cbv zeta. revert g. induction ps as [|[[k0 j0] i0] ps IH]; intros g k j i; [reflexivity|]. cbn [fold_left existsb].
  rewrite IH, H. destruct (existsb (pos_eqb (k, j, i)) ps); [rewrite orb_true_r; reflexivity|]. rewrite orb_false_r. cbn.
  destruct (Z.eqb_spec k k0), (Z.eqb_spec j j0), (Z.eqb_spec i i0); cbn; try reflexivity. destruct (var_eq_dec v v); [|congruence]. subst. reflexivity.
Qed.
Lemma existsb_cells3 : forall K J I k j i, existsb (pos_eqb (k, j, i)) (cells3 K J I) = memZ k K && memZ j J && memZ i I.
Proof.
  intros. destruct (existsb (pos_eqb (k, j, i)) (cells3 K J I)) eqn:E.
  - apply existsb_exists in E. destruct E as ([[k' j'] i'] & H & E). unfold pos_eqb in E. apply in_cells3 in H. rewrite <- !memZ_spec in H.
    assert (k = k' /\ j = j' /\ i = i') as (-> & -> & ->) by lia. destruct H as (-> & -> & ->). reflexivity.
  - destruct (memZ k K) eqn:A; [|reflexivity]. destruct (memZ j J) eqn:B; [|reflexivity]. destruct (memZ i I) eqn:C; [|reflexivity]. apply memZ_spec in A, B, C.
    assert (T : existsb (pos_eqb (k, j, i)) (cells3 K J I) = true) by (apply existsb_exists; exists (k, j, i); split; [apply in_cells3; auto|unfold pos_eqb; lia]). congruence.
Qed.
Lemma centre1_box : forall K J I g k j i, gU (centre1 (cells3 K J I) g) k j i VB1 = if memZ k K && memZ j J && memZ i I then 1/2 * (gB1 g k j i + gB1 g k j (i + 1)%Z) else gU g k j i VB1.
Proof. intros. rewrite <- existsb_cells3. apply (centre_gen VB1 (fun g k j i => 1/2 * (gB1 g k j i + gB1 g k j (i + 1)%Z))). reflexivity. Qed.
Lemma centre2_box : forall K J I g k j i, gU (centre2 (cells3 K J I) g) k j i VB2 = if memZ k K && memZ j J && memZ i I then 1/2 * (gB2 g k j i + gB2 g k (j + 1)%Z i) else gU g k j i VB2.
Proof. intros. rewrite <- existsb_cells3. apply (centre_gen VB2 (fun g k j i => 1/2 * (gB2 g k j i + gB2 g k (j + 1)%Z i))). reflexivity. Qed.
Lemma centre3_box : forall K J I g k j i, gU (centre3 (cells3 K J I) g) k j i VB3 = if memZ k K && memZ j J && memZ i I then 1/2 * (gB3 g k j i + gB3 g (k + 1)%Z j i) else gU g k j i VB3.
Proof. intros. rewrite <- existsb_cells3. apply (centre_gen VB3 (fun g k j i => 1/2 * (gB3 g k j i + gB3 g (k + 1)%Z j i))). reflexivity. Qed.
Lemma keepU : forall g g' : gst, forall v, (forall p, at3 (gU g') p v = at3 (gU g) p v) -> forall k j i, gU g' k j i v = gU g k j i v.
Proof. intros g g' v H k j i. exact (H (k, j, i)). Qed.

(** The variables no loop over faces or edges of the field sets. *)
Definition plain (nDim : nat) (v : var) : Prop :=
  match v with VB1 | VB2 => nDim = 1%nat | VB3 => nDim <> 3%nat | _ => True end.

Lemma get_fld_eq : forall c nDim oc of g gf rest, paired c nDim oc of -> wide c nDim oc -> c_mhd c = true -> (2 <= nDim)%nat ->
  exists g', get_fld nDim oc g (pack_fld nDim of gf ++ rest) = Some (g', rest) /\
    (forall k j i, gB1 g' k j i = set1 nDim oc of (gB1 gf) (gB1 g) k j i) /\
    (forall k j i, gB2 g' k j i = set2 nDim oc of (gB2 gf) (gB2 g) k j i) /\
    (forall k j i, gB3 g' k j i = if (nDim =? 3)%nat then set3 nDim oc of (gB3 gf) (gB3 g) k j i else if in3 oc k j i then gU g k j i VB3 else gB3 g k j i) /\
    (forall k j i v, plain nDim v -> gU g' k j i v = gU g k j i v) /\
    (forall k j i, gU g' k j i VB1 = if in3 oc k j i then 1/2 * (gB1 g' k j i + gB1 g' k j (i + 1)%Z) else gU g k j i VB1) /\
    (forall k j i, gU g' k j i VB2 = if in3 oc k j i then 1/2 * (gB2 g' k j i + gB2 g' k (j + 1)%Z i) else gU g k j i VB2) /\
    (nDim = 3%nat -> forall k j i, gU g' k j i VB3 = if in3 oc k j i then 1/2 * (gB3 g' k j i + gB3 g' (k + 1)%Z j i) else gU g k j i VB3).
Proof.
  intros c nDim oc of g gf rest P W M TD. dims P. specialize (W M TD). rewrite (pack_fld_eq _ _ _ _ _ P TD). unfold get_fld. cbv zeta.
  assert (MI : forall k j i, memZ k (upto (o_s oc X3) (o_e oc X3)) && memZ j (upto (o_s oc X2) (o_e oc X2)) && memZ i (upto (o_s oc X1) (o_e oc X1)) = in3 oc k j i)
    by (intros; rewrite !memZ_upto; reflexivity).
  set (K := upto (o_s oc X3) (o_e oc X3)) in *. set (J := upto (o_s oc X2) (o_e oc X2)) in *. set (I := upto (o_s oc X1) (o_e oc X1)) in *.
  assert (NK : NoDup K) by apply nodup_upto. assert (NJ : NoDup J) by apply nodup_upto. assert (NI : NoDup I) by apply nodup_upto.
  replace (nDim =? 1)%nat with false by lia. rewrite <- !app_assoc.
  destruct (ratio_cases nDim D) as [(-> & R1 & R2 & R3)|[(-> & R1 & R2 & R3)|(-> & R1 & R2 & R3)]]; [lia| |]; cbn [Nat.eqb].
  - destruct (rd_fld1 2 oc of (gB1 gf) (gB1 g) (pk2 2 oc of (gB2 gf) ++ [] ++ rest) N1 (W X1 R1)) as (B1 & -> & H1). cbn [bnd].
    destruct (rd_fld2 2 oc of (gB2 gf) (gB2 g) ([] ++ rest) N2 (W X2 R2)) as (B2 & -> & H2). cbn [bnd].
    set (g1 := Gst (gU g) B1 B2 (gB3 g)). set (g2 := centre1 (cells3 K J I) g1). set (g3 := centre2 (cells3 K J I) g2).
    destruct (centre1_keep (cells3 K J I) g1) as (C1 & C2 & C3 & C4). destruct (centre2_keep (cells3 K J I) g2) as (D1 & D2 & D3 & D4). fold g2 in C1, C2, C3, C4. fold g3 in D1, D2, D3, D4.
    eexists. split; [reflexivity|]. cbn [gB1 gB2 gB3 gU onB3].
    split; [intros; rewrite D2, C2; apply H1|]. split; [intros; rewrite D3, C3; apply H2|]. split.
    { intros k j i. rewrite loopB_box by assumption. rewrite MI. cbn [at3]. rewrite D4, C4.
      rewrite (keepU _ _ VB3 (fun p => D1 p VB3 ltac:(discriminate))), (keepU _ _ VB3 (fun p => C1 p VB3 ltac:(discriminate))). reflexivity. }
    split.
    { intros k j i v V. rewrite (keepU _ _ v (fun p => D1 p v ltac:(intros ->; cbn in V; lia))), (keepU _ _ v (fun p => C1 p v ltac:(intros ->; cbn in V; lia))). reflexivity. }
    split; [|split; [|lia]].
    { intros k j i. rewrite (keepU _ _ VB1 (fun p => D1 p VB1 ltac:(discriminate))). unfold g2. rewrite centre1_box, MI. rewrite D2, C2. reflexivity. }
    { intros k j i. unfold g3. rewrite centre2_box, MI. fold g3. rewrite D3. rewrite (keepU _ _ VB2 (fun p => C1 p VB2 ltac:(discriminate))). reflexivity. }
  - destruct (rd_fld1 3 oc of (gB1 gf) (gB1 g) (pk2 3 oc of (gB2 gf) ++ pk3 3 oc of (gB3 gf) ++ rest) N1 (W X1 R1)) as (B1 & -> & H1). cbn [bnd].
    destruct (rd_fld2 3 oc of (gB2 gf) (gB2 g) (pk3 3 oc of (gB3 gf) ++ rest) N2 (W X2 R2)) as (B2 & -> & H2). cbn [bnd].
    destruct (rd_fld3 3 oc of (gB3 gf) (gB3 g) rest N3 (W X3 R3)) as (B3 & -> & H3). cbn [bnd].
    set (g1 := Gst (gU g) B1 B2 B3). set (g2 := centre1 (cells3 K J I) g1). set (g3 := centre2 (cells3 K J I) g2). set (g4 := centre3 (cells3 K J I) g3).
    destruct (centre1_keep (cells3 K J I) g1) as (C1 & C2 & C3 & C4). destruct (centre2_keep (cells3 K J I) g2) as (D1 & D2 & D3 & D4). destruct (centre3_keep (cells3 K J I) g3) as (E1 & E2 & E3 & E4).
    fold g2 in C1, C2, C3, C4. fold g3 in D1, D2, D3, D4. fold g4 in E1, E2, E3, E4.
    eexists. split; [reflexivity|].
    split; [intros; rewrite E2, D2, C2; apply H1|]. split; [intros; rewrite E3, D3, C3; apply H2|]. split; [intros; rewrite E4, D4, C4; apply H3|].
    split.
    { intros k j i v V. rewrite (keepU _ _ v (fun p => E1 p v ltac:(intros ->; cbn in V; lia))), (keepU _ _ v (fun p => D1 p v ltac:(intros ->; cbn in V; lia))), (keepU _ _ v (fun p => C1 p v ltac:(intros ->; cbn in V; lia))). reflexivity. }
    split; [|split].
    { intros k j i. rewrite (keepU _ _ VB1 (fun p => E1 p VB1 ltac:(discriminate))), (keepU _ _ VB1 (fun p => D1 p VB1 ltac:(discriminate))). unfold g2. rewrite centre1_box, MI. rewrite E2, D2, C2. reflexivity. }
    { intros k j i. rewrite (keepU _ _ VB2 (fun p => E1 p VB2 ltac:(discriminate))). unfold g3. rewrite centre2_box, MI. fold g3. rewrite E3, D3. rewrite (keepU _ _ VB2 (fun p => C1 p VB2 ltac:(discriminate))). reflexivity. }
    { intros _ k j i. unfold g4. rewrite centre3_box, MI. fold g4. rewrite E4. rewrite (keepU _ _ VB3 (fun p => D1 p VB3 ltac:(discriminate))), (keepU _ _ VB3 (fun p => C1 p VB3 ltac:(discriminate))). reflexivity. }
Qed.

(** Step 2a. *)
Definition ind (b : bool) (x : R) : R := if b then x else 0.
Lemma corr_gen : forall (mk : Z -> Z -> Z * Z * Z) (h : Z -> Z -> var -> R -> R -> R) (val : Z * Z -> var -> R) n2 n1 c g rest,
  (forall a b a' b', mk a b = mk a' b' -> a = a' /\ b = b') ->
  exists g', rd_loop (fun '((a, b), v) x g => setU g (mk a b) v (h a b v x (at3 (gU g) (mk a b) v))) (cells2 (cells2 (offs n2) (offs n1)) (vars c)) g
     (map (fun '(p, v) => val p v) (cells2 (cells2 (offs n2) (offs n1)) (vars c)) ++ rest) = Some (g', rest) /\
   gB1 g' = gB1 g /\ gB2 g' = gB2 g /\ gB3 g' = gB3 g /\
   (forall a b v, (0 <= a < n2)%Z -> (0 <= b < n1)%Z -> In v (vars c) -> at3 (gU g') (mk a b) v = h a b v (val (a, b) v) (at3 (gU g) (mk a b) v)) /\
   (forall p v, (forall a b, (0 <= a < n2)%Z -> (0 <= b < n1)%Z -> In v (vars c) -> mk a b <> p) -> at3 (gU g') p v = at3 (gU g) p v).
Proof.
  intros mk h val n2 n1 c g rest INJ. set (L := cells2 (cells2 (offs n2) (offs n1)) (vars c)).
  pose proof (rd_map (fun '((a, b), v) x g => setU g (mk a b) v (h a b v x (at3 (gU g) (mk a b) v))) (fun q => q) (fun '(p, v) => val p v) L g rest) as RD. rewrite map_id in RD. rewrite RD.
  pose (pos := fun q : Z * Z * var => mk (fst (fst q)) (snd (fst q))).
  assert (ND : NoDup (map (fun b => (pos b, snd b)) L)).
  { apply Injective_map_NoDup.
    - intros [[a b] v] [[a' b'] v'] E. unfold pos in E. cbn in E. injection E as E1 E2. apply INJ in E1. destruct E1. congruence.
    - apply nodup_cells2; [apply nodup_cells2; apply nodup_offs|apply nodup_vars]. }
  pose proof (fold_setU pos snd (fun q y => h (fst (fst q)) (snd (fst q)) (snd q) (val (fst q) (snd q)) y) L g ND) as S. cbv zeta in S.
  match goal with |- context [Some (fold_left ?f ?l ?x, _)] => replace (fold_left f l x) with (fold_left (fun g b => setU g (pos b) (snd b) (h (fst (fst b)) (snd (fst b)) (snd b) (val (fst b) (snd b)) (at3 (gU g) (pos b) (snd b)))) L g) end.
  2:{ clear. generalize L. intros l. revert g. induction l as [|[[a b] v] l IH]; intros g; [reflexivity|]. cbn [fold_left]. rewrite IH. reflexivity. }
  destruct S as (S1 & S2 & S3 & S4 & S5). eexists. split; [reflexivity|]. split; [exact S3|]. split; [exact S4|]. split; [exact S5|]. split.
  - intros a b v A B V. specialize (S1 ((a, b), v)). unfold pos in S1. cbn [fst snd] in S1. apply S1. unfold L. apply in_cells2. split; [|exact V]. apply in_cells2. rewrite !in_offs. auto.
  - intros p v H. apply S2. intros K. apply in_map_iff in K. destruct K as ([[a b] w] & E & K). unfold pos in E. cbn in E. injection E as E1 E2. subst w.
    unfold L in K. apply in_cells2 in K. destruct K as [K V]. apply in_cells2 in K. rewrite !in_offs in K. apply (H a b); tauto.
Qed.
(** The correction of a flux: [side] is the index, along the axis, of the cells corrected. *)
Definition side (o : ovl) (a : axis) (s : bool) : Z := if s then (o_e o a + 1)%Z else (o_s o a - 1)%Z.
Definition corrected (c : cfg) (o : ovl) (a : axis) (s : bool) (r : R) (x : Z) (inface : bool) (d : var -> R) (v : var) : R :=
  ind (some (o_flx o a s) && inface && (x =? side o a s)%Z && in_vars c v) (- (sgn s r * d v)).
Lemma upto0 : forall o a, upto 0 (o_e o a - o_s o a) = offs (len o a).
Proof. intros. rewrite upto_offs. unfold len. replace (o_e o a - o_s o a - 0 + 1)%Z with (o_e o a - o_s o a + 1)%Z by lia. etransitivity; [apply map_ext; intros; apply Z.add_0_l|apply map_id]. Qed.
Lemma corr1_eq : forall c nDim oc r1 fc Ff s g rest,
  exists g', corr1 c oc r1 fc s g (flxs c nDim oc Ff X1 X3 X2 s ++ rest) = Some (g', rest) /\ gB1 g' = gB1 g /\ gB2 g' = gB2 g /\ gB3 g' = gB3 g /\
   forall k j i v, gU g' k j i v = gU g k j i v + corrected c oc X1 s r1 i (inb oc X3 k && inb oc X2 j)
      (fun v => f_flx fc X1 s (k - o_s oc X3)%Z (j - o_s oc X2)%Z v - avgF nDim X3 X2 Ff (k - o_s oc X3, j - o_s oc X2)%Z v) v.
Proof.
  intros c nDim oc r1 fc Ff s g rest. unfold corr1, flxs, corrected.
  destruct (some (o_flx oc X1 s)); cbn [negb andb]; [|eexists; split; [reflexivity|]; repeat split; intros; cbn; lra].
  rewrite !upto0.
  destruct (corr_gen (fun a b => (o_s oc X3 + a, o_s oc X2 + b, side oc X1 s)%Z) (fun a b v x y => y - sgn s r1 * (f_flx fc X1 s a b v - x)) (fun p v => avgF nDim X3 X2 Ff p v) (len oc X3) (len oc X2) c g rest) as (g' & H1 & H2 & H3 & H4 & H5 & H6).
  { intros a b a' b' E. injection E as E1 E2. lia. }
  exists g'. split; [exact H1|]. repeat split; auto. intros k j i v.
  destruct (inb oc X3 k && inb oc X2 j && (i =? side oc X1 s)%Z && in_vars c v) eqn:E; cbn [andb ind].
  - assert (V : In v (vars c)) by (apply in_vars_spec; lia). unfold inb in E.
    specialize (H5 (k - o_s oc X3)%Z (j - o_s oc X2)%Z v ltac:(unfold len; lia) ltac:(unfold len; lia) V). cbn [at3] in H5.
    replace (o_s oc X3 + (k - o_s oc X3))%Z with k in H5 by lia. replace (o_s oc X2 + (j - o_s oc X2))%Z with j in H5 by lia. replace (side oc X1 s) with i in H5 by lia.
    rewrite H5. cbn [andb ind]. lra.
  - rewrite Rplus_0_r. specialize (H6 (k, j, i) v). cbn [at3] in H6. apply H6. intros a b A B V K. injection K as <- <- <-. apply in_vars_spec in V. rewrite V in E. unfold inb, len in *. lia.
Qed.
Lemma corr2_eq : forall c nDim oc r2 fc Ff s g rest,
  exists g', corr2 c oc r2 fc s g (flxs c nDim oc Ff X2 X3 X1 s ++ rest) = Some (g', rest) /\ gB1 g' = gB1 g /\ gB2 g' = gB2 g /\ gB3 g' = gB3 g /\
   forall k j i v, gU g' k j i v = gU g k j i v + corrected c oc X2 s r2 j (inb oc X3 k && inb oc X1 i)
      (fun v => f_flx fc X2 s (k - o_s oc X3)%Z (i - o_s oc X1)%Z v - avgF nDim X3 X1 Ff (k - o_s oc X3, i - o_s oc X1)%Z v) v.
Proof.
  intros c nDim oc r1 fc Ff s g rest. unfold corr2, flxs, corrected.
  destruct (some (o_flx oc X2 s)); cbn [negb andb]; [|eexists; split; [reflexivity|]; repeat split; intros; cbn; lra].
  rewrite !upto0.
  destruct (corr_gen (fun a b => (o_s oc X3 + a, side oc X2 s, o_s oc X1 + b)%Z) (fun a b v x y => y - sgn s r1 * (f_flx fc X2 s a b v - x)) (fun p v => avgF nDim X3 X1 Ff p v) (len oc X3) (len oc X1) c g rest) as (g' & H1 & H2 & H3 & H4 & H5 & H6).
  { intros a b a' b' E. injection E as E1 E2. lia. }
  exists g'. split; [exact H1|]. repeat split; auto. intros k j i v.
  destruct (inb oc X3 k && inb oc X1 i && (j =? side oc X2 s)%Z && in_vars c v) eqn:E; cbn [andb ind].
  - assert (V : In v (vars c)) by (apply in_vars_spec; lia). unfold inb in E.
    specialize (H5 (k - o_s oc X3)%Z (i - o_s oc X1)%Z v ltac:(unfold len; lia) ltac:(unfold len; lia) V). cbn [at3] in H5.
    replace (o_s oc X3 + (k - o_s oc X3))%Z with k in H5 by lia. replace (o_s oc X1 + (i - o_s oc X1))%Z with i in H5 by lia. replace (side oc X2 s) with j in H5 by lia.
    rewrite H5. cbn [andb ind]. lra.
  - rewrite Rplus_0_r. specialize (H6 (k, j, i) v). cbn [at3] in H6. apply H6. intros a b A B V K. injection K as <- <- <-. apply in_vars_spec in V. rewrite V in E. unfold inb, len in *. lia.
Qed.
Lemma corr3_eq : forall c nDim oc r3 fc Ff s g rest,
  exists g', corr3 c oc r3 fc s g (flxs c nDim oc Ff X3 X2 X1 s ++ rest) = Some (g', rest) /\ gB1 g' = gB1 g /\ gB2 g' = gB2 g /\ gB3 g' = gB3 g /\
   forall k j i v, gU g' k j i v = gU g k j i v + corrected c oc X3 s r3 k (inb oc X2 j && inb oc X1 i)
      (fun v => f_flx fc X3 s (j - o_s oc X2)%Z (i - o_s oc X1)%Z v - avgF nDim X2 X1 Ff (j - o_s oc X2, i - o_s oc X1)%Z v) v.
Proof.
  intros c nDim oc r1 fc Ff s g rest. unfold corr3, flxs, corrected.
  destruct (some (o_flx oc X3 s)); cbn [negb andb]; [|eexists; split; [reflexivity|]; repeat split; intros; cbn; lra].
  rewrite !upto0.
  destruct (corr_gen (fun a b => (side oc X3 s, o_s oc X2 + a, o_s oc X1 + b)%Z) (fun a b v x y => y - sgn s r1 * (f_flx fc X3 s a b v - x)) (fun p v => avgF nDim X2 X1 Ff p v) (len oc X2) (len oc X1) c g rest) as (g' & H1 & H2 & H3 & H4 & H5 & H6).
  { intros a b a' b' E. injection E as E1 E2. lia. }
  exists g'. split; [exact H1|]. repeat split; auto. intros k j i v.
  destruct (inb oc X2 j && inb oc X1 i && (k =? side oc X3 s)%Z && in_vars c v) eqn:E; cbn [andb ind].
  - assert (V : In v (vars c)) by (apply in_vars_spec; lia). unfold inb in E.
    specialize (H5 (j - o_s oc X2)%Z (i - o_s oc X1)%Z v ltac:(unfold len; lia) ltac:(unfold len; lia) V). cbn [at3] in H5.
    replace (o_s oc X2 + (j - o_s oc X2))%Z with j in H5 by lia. replace (o_s oc X1 + (i - o_s oc X1))%Z with i in H5 by lia. replace (side oc X3 s) with k in H5 by lia.
    rewrite H5. cbn [andb ind]. lra.
  - rewrite Rplus_0_r. specialize (H6 (k, j, i) v). cbn [at3] in H6. apply H6. intros a b A B V K. injection K as <- <- <-. apply in_vars_spec in V. rewrite V in E. unfold inb, len in *. lia.
Qed.

(** Step 2b. *)
Lemma rd_emf_eq : forall h n2 n1 rest, exists S', rd_emf (offs n2) (offs n1) (emfl h n2 n1 ++ rest) = Some (S', rest) /\
  forall x y, (0 <= x < n2)%Z -> (0 <= y < n1)%Z -> S' x y = h x y.
Proof.
  intros h n2 n1 rest. unfold rd_emf, emfl. set (L := cells2 (offs n2) (offs n1)).
  pose proof (rd_map (fun '(k, j) x e => upd2 e k j x) (fun q => q) (fun '(x, y) => h x y) L (fun _ _ => 0) rest) as RD. rewrite map_id in RD. rewrite RD.
  eexists. split; [reflexivity|]. intros x y X Y.
  assert (IN : In (x, y) L) by (unfold L; apply in_cells2; rewrite !in_offs; auto).
  assert (G : forall l e, (In (x, y) l \/ e x y = h x y) -> fold_left (fun t (q : Z * Z) => (let '(k, j) := q in fun x e => upd2 e k j x) ((fun '(x, y) => h x y) q) t) l e x y = h x y).
  { induction l as [|[a b] l IH]; intros e H.
    - destruct H as [[]|H]. exact H.
    - cbn [fold_left]. apply IH. destruct H as [[H|H]|H].
      + injection H as -> ->. right. unfold upd2. rewrite !Z.eqb_refl. reflexivity.
      + left. exact H.
      + right. unfold upd2. destruct (Z.eqb_spec x a), (Z.eqb_spec y b); cbn; auto. congruence. }
  apply G. left. exact IN.
Qed.
Lemma upto0' : forall o a, upto 0 (o_e o a - o_s o a + 1) = offs (len o a + 1).
Proof. intros. rewrite upto_offs. unfold len. replace (o_e o a - o_s o a + 1 - 0 + 1)%Z with (o_e o a - o_s o a + 1 + 1)%Z by lia. etransitivity; [apply map_ext; intros; apply Z.add_0_l|apply map_id]. Qed.
Definition btw (lo x hi : Z) : bool := (lo <=? x)%Z && (x <=? hi)%Z.
(** Index of the coarse faces on the boundary [s] of the overlap. *)
Definition bface (o : ovl) (a : axis) (s : bool) : Z := if s then (o_e o a + 1)%Z else o_s o a.

Ltac nd := first [apply nodup_upto|repeat constructor; cbn; intuition lia].
Ltac box := rewrite ?loopB_box by nd; rewrite ?memZ_upto, ?memZ_one, ?memZ_two.

Lemma emfs1_eq : forall nDim oc je ke r1 r2 r3 fc h3 h2 s g rest, (2 <= nDim <= 3)%nat -> (forall a, (0 <= len oc a)%Z) ->
  let d3 := fun x y => f_emf3 fc X1 s x y - h3 x y in let d2 := fun x y => f_emf2 fc X1 s x y - h2 x y in
  let fl := some (o_emf3 oc X1 s) in let b := bface oc X1 s in let e := side oc X1 s in
  let td := (nDim =? 3)%nat in let touch := (o_e oc X1 <? o_s oc X1)%Z in
  let jl := if some (o_emf3 oc X2 true) || (o_e oc X2 =? je)%Z || touch then (o_e oc X2 + 1)%Z else o_e oc X2 in
  let kl := if some (o_emf2 oc X3 true) || (o_e oc X3 =? ke)%Z || touch then (o_e oc X3 + 1)%Z else o_e oc X3 in
  exists g', emfs1 nDim oc je ke r1 r2 r3 fc s g
      ((if fl then emfl h3 (len oc X3) (len oc X2 + 1) ++ (if td then emfl h2 (len oc X3 + 1) (len oc X2) else []) else []) ++ rest) = Some (g', rest) /\
   (forall k j i, gB1 g' k j i = gB1 g k j i
      + ind (fl && inb oc X3 k && inb oc X2 j && (i =? b)%Z) (r2 * d3 (k - o_s oc X3)%Z (j - o_s oc X2 + 1)%Z - r2 * d3 (k - o_s oc X3)%Z (j - o_s oc X2)%Z)
      + ind (fl && touch && inb oc X3 k && (j =? o_s oc X2 - 1)%Z && (i =? b)%Z) (r2 * d3 (k - o_s oc X3)%Z 0%Z)
      - ind (fl && touch && inb oc X3 k && (j =? o_e oc X2 + 1)%Z && (i =? b)%Z) (r2 * d3 (k - o_s oc X3)%Z (len oc X2))
      - ind (fl && td && inb oc X3 k && inb oc X2 j && (i =? b)%Z) (r3 * d2 (k - o_s oc X3 + 1)%Z (j - o_s oc X2)%Z - r3 * d2 (k - o_s oc X3)%Z (j - o_s oc X2)%Z)
      - ind (fl && td && touch && inb oc X2 j && (k =? o_s oc X3 - 1)%Z && (i =? b)%Z) (r3 * d2 0%Z (j - o_s oc X2)%Z)
      + ind (fl && td && touch && inb oc X2 j && (k =? o_e oc X3 + 1)%Z && (i =? b)%Z) (r3 * d2 (len oc X3) (j - o_s oc X2)%Z)) /\
   (forall k j i, gB2 g' k j i = gB2 g k j i + ind (fl && inb oc X3 k && btw (o_s oc X2) j jl && (i =? e)%Z) (sgn s r1 * d3 (k - o_s oc X3)%Z (j - o_s oc X2)%Z)) /\
   (forall k j i, gB3 g' k j i = gB3 g k j i - ind (fl && td && btw (o_s oc X3) k kl && inb oc X2 j && (i =? e)%Z) (sgn s r1 * d2 (k - o_s oc X3)%Z (j - o_s oc X2)%Z)) /\
   (forall k j i v, plain nDim v -> gU g' k j i v = gU g k j i v) /\
   (forall k j i, gU g' k j i VB1 = if fl && inb oc X3 k && inb oc X2 j && ((i =? b) || (i =? b - 1))%Z then 1/2 * (gB1 g' k j i + gB1 g' k j (i + 1)%Z) else gU g k j i VB1) /\
   (forall k j i, gU g' k j i VB2 = if fl && inb oc X3 k && btw (o_s oc X2 - 1) j (o_e oc X2 + 1) && (i =? e)%Z then 1/2 * (gB2 g' k j i + gB2 g' k (j + 1)%Z i) else gU g k j i VB2) /\
   (nDim = 3%nat -> forall k j i, gU g' k j i VB3 = if fl && inb oc X2 j && btw (o_s oc X3 - 1) k (o_e oc X3 + 1) && (i =? e)%Z then 1/2 * (gB3 g' k j i + gB3 g' (k + 1)%Z j i) else gU g k j i VB3).
Proof.
  intros nDim oc je ke r1 r2 r3 fc h3 h2 s g rest D N. cbv zeta. unfold emfs1.
  destruct (some (o_emf3 oc X1 s)); cbn [negb andb ind].
  2:{ eexists. split; [reflexivity|]. repeat split; intros; rewrite ?Rplus_0_r, ?Rminus_0_r; reflexivity. }
  fold (side oc X1 s). fold (bface oc X1 s). cbv zeta. rewrite !upto0, !upto0'. rewrite <- app_assoc.
  destruct (rd_emf_eq h3 (len oc X3) (len oc X2 + 1) ((if (nDim =? 3)%nat then emfl h2 (len oc X3 + 1) (len oc X2) else []) ++ rest)) as (S3 & -> & HS3). cbn [bnd].
  pose proof (N X2) as NX2. pose proof (N X3) as NX3. pose proof (N X1) as NX1. clear N.
  set (jl := if some (o_emf3 oc X2 true) || (o_e oc X2 =? je)%Z || (o_e oc X1 <? o_s oc X1)%Z then (o_e oc X2 + 1)%Z else o_e oc X2).
  assert (JL : jl = o_e oc X2 \/ jl = (o_e oc X2 + 1)%Z) by (unfold jl; destruct (some (o_emf3 oc X2 true) || (o_e oc X2 =? je)%Z || (o_e oc X1 <? o_s oc X1)%Z); auto).
  set (kl := if some (o_emf2 oc X3 true) || (o_e oc X3 =? ke)%Z || (o_e oc X1 <? o_s oc X1)%Z then (o_e oc X3 + 1)%Z else o_e oc X3).
  assert (KL : kl = o_e oc X3 \/ kl = (o_e oc X3 + 1)%Z) by (unfold kl; destruct (some (o_emf2 oc X3 true) || (o_e oc X3 =? ke)%Z || (o_e oc X1 <? o_s oc X1)%Z); auto).
  clearbody jl kl.
  match goal with |- context [Some (centre2 ?ps2 (centre1 ?ps1 _), _)] => set (P2 := ps2); set (P1 := ps1) end.
  assert (M1 : forall k j i g, gU (centre1 P1 g) k j i VB1 = if inb oc X3 k && inb oc X2 j && ((i =? bface oc X1 s) || (i =? bface oc X1 s - 1))%Z then 1/2 * (gB1 g k j i + gB1 g k j (i + 1)%Z) else gU g k j i VB1)
    by (intros; unfold P1; rewrite centre1_box, !memZ_upto, memZ_two; reflexivity).
  assert (M2 : forall k j i g, gU (centre2 P2 g) k j i VB2 = if inb oc X3 k && btw (o_s oc X2 - 1) j (o_e oc X2 + 1) && (i =? side oc X1 s)%Z then 1/2 * (gB2 g k j i + gB2 g k (j + 1)%Z i) else gU g k j i VB2)
    by (intros; unfold P2; rewrite centre2_box, !memZ_upto, memZ_one; reflexivity).
  clearbody P1 P2.
  match goal with |- context [onB1 ?F (onB2 ?G g)] => set (g1 := onB1 F (onB2 G g)) end.
  match goal with |- context [if (o_e oc X1 <? o_s oc X1)%Z then onB1 ?F g1 else g1] => set (g2 := if (o_e oc X1 <? o_s oc X1)%Z then onB1 F g1 else g1) end.
  assert (Q1 : gU g2 = gU g /\ gB3 g2 = gB3 g /\ gB2 g2 = gB2 g1) by (unfold g2; destruct (o_e oc X1 <? o_s oc X1)%Z; repeat split).
  destruct Q1 as (U2 & B3e & B2e).
  assert (QB2 : forall k j i, gB2 g2 k j i = gB2 g k j i + ind (inb oc X3 k && btw (o_s oc X2) j jl && (i =? side oc X1 s)%Z) (sgn s r1 * (f_emf3 fc X1 s (k - o_s oc X3)%Z (j - o_s oc X2)%Z - h3 (k - o_s oc X3)%Z (j - o_s oc X2)%Z))).
  { intros k j i. rewrite B2e. unfold g1. cbn [gB2 onB1 onB2]. box. fold (inb oc X3 k). fold (btw (o_s oc X2) j jl).
    destruct (inb oc X3 k && btw (o_s oc X2) j jl && (i =? side oc X1 s)%Z) eqn:E; cbn [ind]; [|lra]. rewrite HS3; [lra| |]; unfold inb, btw, len in *; lia. }
  assert (QB1 : forall k j i, gB1 g2 k j i = gB1 g k j i
      + ind (inb oc X3 k && inb oc X2 j && (i =? bface oc X1 s)%Z) (r2 * (f_emf3 fc X1 s (k - o_s oc X3)%Z (j - o_s oc X2 + 1)%Z - h3 (k - o_s oc X3)%Z (j - o_s oc X2 + 1)%Z) - r2 * (f_emf3 fc X1 s (k - o_s oc X3)%Z (j - o_s oc X2)%Z - h3 (k - o_s oc X3)%Z (j - o_s oc X2)%Z))
      + ind ((o_e oc X1 <? o_s oc X1)%Z && inb oc X3 k && (j =? o_s oc X2 - 1)%Z && (i =? bface oc X1 s)%Z) (r2 * (f_emf3 fc X1 s (k - o_s oc X3)%Z 0%Z - h3 (k - o_s oc X3)%Z 0%Z))
      - ind ((o_e oc X1 <? o_s oc X1)%Z && inb oc X3 k && (j =? o_e oc X2 + 1)%Z && (i =? bface oc X1 s)%Z) (r2 * (f_emf3 fc X1 s (k - o_s oc X3)%Z (len oc X2) - h3 (k - o_s oc X3)%Z (len oc X2)))).
  { intros k j i. unfold g2, g1. destruct (o_e oc X1 <? o_s oc X1)%Z; cbn [gB1 onB1 onB2 andb ind].
    - box. fold (inb oc X3 k). fold (inb oc X2 j). rewrite (Z.eqb_sym j). fold (len oc X2).
      destruct (inb oc X3 k) eqn:E1; cbn [andb ind]; [|lra]. destruct (i =? bface oc X1 s)%Z eqn:E2; rewrite ?andb_false_r; cbn [andb ind]; [|lra]. rewrite !andb_true_r.
      rewrite ?(Z.eqb_sym (o_e oc X2 + 1) j), ?(Z.eqb_sym (o_s oc X2 - 1) j).
      destruct (inb oc X2 j) eqn:E3; cbn [andb ind]; (destruct (j =? o_e oc X2 + 1)%Z eqn:E4; cbn [ind]); (destruct (j =? o_s oc X2 - 1)%Z eqn:E5; cbn [ind]);
      unfold inb in *; try (exfalso; unfold len in *; lia);
      rewrite ?HS3 by (unfold len in *; lia); lra.
    - box. fold (inb oc X3 k). fold (inb oc X2 j).
      destruct (inb oc X3 k && inb oc X2 j && (i =? bface oc X1 s)%Z) eqn:E; cbn [ind]; [|lra]. rewrite !HS3; [lra| | | |]; unfold inb, len in *; lia. }
  clearbody g2. clear g1 B2e HS3 S3.
  destruct (Nat.eqb_spec nDim 3) as [ND|ND]; cbn [bnd app].
  - subst nDim.
    destruct (rd_emf_eq h2 (len oc X3 + 1) (len oc X2) rest) as (S2 & -> & HS2). cbn [bnd].
    match goal with |- context [onB1 ?F (onB3 ?G g2)] => set (g3 := onB1 F (onB3 G g2)) end.
    match goal with |- context [if (o_e oc X1 <? o_s oc X1)%Z then onB1 ?F g3 else g3] => set (g4 := if (o_e oc X1 <? o_s oc X1)%Z then onB1 F g3 else g3) end.
    assert (Q1 : gU g4 = gU g2 /\ gB2 g4 = gB2 g2 /\ gB3 g4 = gB3 g3) by (unfold g4; destruct (o_e oc X1 <? o_s oc X1)%Z; repeat split).
    destruct Q1 as (U4 & B2e & B3e').
    assert (QB3 : forall k j i, gB3 g4 k j i = gB3 g k j i - ind (btw (o_s oc X3) k kl && inb oc X2 j && (i =? side oc X1 s)%Z) (sgn s r1 * (f_emf2 fc X1 s (k - o_s oc X3)%Z (j - o_s oc X2)%Z - h2 (k - o_s oc X3)%Z (j - o_s oc X2)%Z))).
    { intros k j i. rewrite B3e'. unfold g3. cbn [gB3 onB1 onB3]. rewrite B3e. box. fold (inb oc X2 j). fold (btw (o_s oc X3) k kl).
      destruct (btw (o_s oc X3) k kl && inb oc X2 j && (i =? side oc X1 s)%Z) eqn:E; cbn [ind]; [|lra]. rewrite HS2; [lra| |]; unfold inb, btw, len in *; lia. }
    assert (QB1' : forall k j i, gB1 g4 k j i = gB1 g2 k j i
      - ind (inb oc X3 k && inb oc X2 j && (i =? bface oc X1 s)%Z) (r3 * (f_emf2 fc X1 s (k - o_s oc X3 + 1)%Z (j - o_s oc X2)%Z - h2 (k - o_s oc X3 + 1)%Z (j - o_s oc X2)%Z) - r3 * (f_emf2 fc X1 s (k - o_s oc X3)%Z (j - o_s oc X2)%Z - h2 (k - o_s oc X3)%Z (j - o_s oc X2)%Z))
      - ind ((o_e oc X1 <? o_s oc X1)%Z && inb oc X2 j && (k =? o_s oc X3 - 1)%Z && (i =? bface oc X1 s)%Z) (r3 * (f_emf2 fc X1 s 0%Z (j - o_s oc X2)%Z - h2 0%Z (j - o_s oc X2)%Z))
      + ind ((o_e oc X1 <? o_s oc X1)%Z && inb oc X2 j && (k =? o_e oc X3 + 1)%Z && (i =? bface oc X1 s)%Z) (r3 * (f_emf2 fc X1 s (len oc X3) (j - o_s oc X2)%Z - h2 (len oc X3) (j - o_s oc X2)%Z))).
    { intros k j i. unfold g4, g3. destruct (o_e oc X1 <? o_s oc X1)%Z; cbn [gB1 onB1 onB3 andb ind].
      - box. fold (inb oc X3 k). fold (inb oc X2 j). fold (len oc X3).
        destruct (inb oc X2 j) eqn:E1; rewrite ?andb_false_r; cbn [andb ind]; [|lra]. destruct (i =? bface oc X1 s)%Z eqn:E2; rewrite ?andb_false_r; cbn [andb ind]; [|lra]. rewrite !andb_true_r.
        destruct (inb oc X3 k) eqn:E3; cbn [andb ind]; (destruct (k =? o_e oc X3 + 1)%Z eqn:E4; cbn [ind]); (destruct (k =? o_s oc X3 - 1)%Z eqn:E5; cbn [ind]);
        unfold inb in *; try (exfalso; unfold len in *; lia);
        rewrite ?HS2 by (unfold len in *; lia); lra.
      - box. fold (inb oc X3 k). fold (inb oc X2 j).
        destruct (inb oc X3 k && inb oc X2 j && (i =? bface oc X1 s)%Z) eqn:E; cbn [ind]; [|lra]. rewrite !HS2; [lra| | | |]; unfold inb, len in *; lia. }
    clearbody g4. clear g3 B3e' HS2 S2.
    match goal with |- context [centre3 ?ps3 g4] => set (P3 := ps3) end.
    assert (M3 : forall k j i g, gU (centre3 P3 g) k j i VB3 = if inb oc X2 j && btw (o_s oc X3 - 1) k (o_e oc X3 + 1) && (i =? side oc X1 s)%Z then 1/2 * (gB3 g k j i + gB3 g (k + 1)%Z j i) else gU g k j i VB3).
    { intros. unfold P3. rewrite centre3_box, !memZ_upto, memZ_one. rewrite (andb_comm (inb oc X2 j)). reflexivity. }
    clearbody P3.
    destruct (centre3_keep P3 g4) as (A1 & A2 & A3 & A4). set (g5 := centre3 P3 g4) in *.
    destruct (centre1_keep P1 g5) as (C1 & C2 & C3 & C4). set (g6 := centre1 P1 g5) in *.
    destruct (centre2_keep P2 g6) as (E1 & E2 & E3 & E4). set (g7 := centre2 P2 g6) in *.
    exists g7. split; [reflexivity|].
    split. { intros k j i. rewrite E2, C2, A2, QB1', QB1. reflexivity. }
    split. { intros k j i. rewrite E3, C3, A3, B2e. apply QB2. }
    split. { intros k j i. rewrite E4, C4, A4. apply QB3. }
    split. { intros k j i v V. rewrite (keepU _ _ v (fun p => E1 p v ltac:(intros ->; cbn in V; lia))), (keepU _ _ v (fun p => C1 p v ltac:(intros ->; cbn in V; lia))), (keepU _ _ v (fun p => A1 p v ltac:(intros ->; cbn in V; lia))), U4, U2. reflexivity. }
    split; [|split].
    { intros k j i. rewrite (keepU _ _ VB1 (fun p => E1 p VB1 ltac:(discriminate))). unfold g6 at 1. rewrite M1. rewrite E2, C2. rewrite (keepU _ _ VB1 (fun p => A1 p VB1 ltac:(discriminate))), U4, U2. reflexivity. }
    { intros k j i. unfold g7 at 1. rewrite M2. rewrite E3. rewrite (keepU _ _ VB2 (fun p => C1 p VB2 ltac:(discriminate))), (keepU _ _ VB2 (fun p => A1 p VB2 ltac:(discriminate))), U4, U2. reflexivity. }
    { intros _ k j i. rewrite (keepU _ _ VB3 (fun p => E1 p VB3 ltac:(discriminate))), (keepU _ _ VB3 (fun p => C1 p VB3 ltac:(discriminate))). unfold g5 at 1. rewrite M3. rewrite E4, C4, A4, U4, U2. reflexivity. }
  - destruct (centre1_keep P1 g2) as (C1 & C2 & C3 & C4). set (g6 := centre1 P1 g2) in *.
    destruct (centre2_keep P2 g6) as (E1 & E2 & E3 & E4). set (g7 := centre2 P2 g6) in *.
    exists g7. split; [reflexivity|]. cbn [ind andb].
    split. { intros k j i. rewrite E2, C2, QB1. lra. }
    split. { intros k j i. rewrite E3, C3. apply QB2. }
    split. { intros k j i. rewrite E4, C4, B3e. lra. }
    split. { intros k j i v V. rewrite (keepU _ _ v (fun p => E1 p v ltac:(intros ->; cbn in V; lia))), (keepU _ _ v (fun p => C1 p v ltac:(intros ->; cbn in V; lia))), U2. reflexivity. }
    split; [|split; [|lia]].
    { intros k j i. rewrite (keepU _ _ VB1 (fun p => E1 p VB1 ltac:(discriminate))). unfold g6 at 1. rewrite M1. rewrite E2, C2. rewrite U2. reflexivity. }
    { intros k j i. unfold g7 at 1. rewrite M2. rewrite E3. rewrite (keepU _ _ VB2 (fun p => C1 p VB2 ltac:(discriminate))), U2. reflexivity. }
Qed.

Lemma emfs2_eq : forall nDim oc ie ke r1 r2 r3 fc h3 h1 s g rest, (2 <= nDim <= 3)%nat -> (forall a, (0 <= len oc a)%Z) ->
  let d3 := fun x y => f_emf3 fc X2 s x y - h3 x y in let d1 := fun x y => f_emf1 fc X2 s x y - h1 x y in
  let fl := some (o_emf3 oc X2 s) in let b := bface oc X2 s in let e := side oc X2 s in
  let td := (nDim =? 3)%nat in let touch := (o_e oc X2 <? o_s oc X2)%Z in
  let il := if some (o_emf3 oc X1 true) || (o_e oc X1 =? ie)%Z || touch then (o_e oc X1 + 1)%Z else o_e oc X1 in
  let kl := if some (o_emf1 oc X3 true) || (o_e oc X3 =? ke)%Z || touch then (o_e oc X3 + 1)%Z else o_e oc X3 in
  exists g', emfs2 nDim oc ie ke r1 r2 r3 fc s g
      ((if fl then emfl h3 (len oc X3) (len oc X1 + 1) ++ (if td then emfl h1 (len oc X3 + 1) (len oc X1) else []) else []) ++ rest) = Some (g', rest) /\
   (forall k j i, gB1 g' k j i = gB1 g k j i - ind (fl && inb oc X3 k && (j =? e)%Z && btw (o_s oc X1) i il) (sgn s r2 * d3 (k - o_s oc X3)%Z (i - o_s oc X1)%Z)) /\
   (forall k j i, gB2 g' k j i = gB2 g k j i
      - ind (fl && inb oc X3 k && (j =? b)%Z && inb oc X1 i) (r1 * d3 (k - o_s oc X3)%Z (i - o_s oc X1 + 1)%Z - r1 * d3 (k - o_s oc X3)%Z (i - o_s oc X1)%Z)
      - ind (fl && touch && inb oc X3 k && (i =? o_s oc X1 - 1)%Z && (j =? b)%Z) (r1 * d3 (k - o_s oc X3)%Z 0%Z)
      + ind (fl && touch && inb oc X3 k && (i =? o_e oc X1 + 1)%Z && (j =? b)%Z) (r1 * d3 (k - o_s oc X3)%Z (len oc X1))
      + ind (fl && td && inb oc X3 k && (j =? b)%Z && inb oc X1 i) (r3 * d1 (k - o_s oc X3 + 1)%Z (i - o_s oc X1)%Z - r3 * d1 (k - o_s oc X3)%Z (i - o_s oc X1)%Z)
      + ind (fl && td && touch && inb oc X1 i && (k =? o_s oc X3 - 1)%Z && (j =? b)%Z) (r3 * d1 0%Z (i - o_s oc X1)%Z)
      - ind (fl && td && touch && inb oc X1 i && (k =? o_e oc X3 + 1)%Z && (j =? b)%Z) (r3 * d1 (len oc X3) (i - o_s oc X1)%Z)) /\
   (forall k j i, gB3 g' k j i = gB3 g k j i + ind (fl && td && btw (o_s oc X3) k kl && (j =? e)%Z && inb oc X1 i) (sgn s r2 * d1 (k - o_s oc X3)%Z (i - o_s oc X1)%Z)) /\
   (forall k j i v, plain nDim v -> gU g' k j i v = gU g k j i v) /\
   (forall k j i, gU g' k j i VB1 = if fl && inb oc X3 k && (j =? e)%Z && btw (o_s oc X1 - 1) i (o_e oc X1 + 1) then 1/2 * (gB1 g' k j i + gB1 g' k j (i + 1)%Z) else gU g k j i VB1) /\
   (forall k j i, gU g' k j i VB2 = if fl && inb oc X3 k && ((j =? b) || (j =? b - 1))%Z && inb oc X1 i then 1/2 * (gB2 g' k j i + gB2 g' k (j + 1)%Z i) else gU g k j i VB2) /\
   (nDim = 3%nat -> forall k j i, gU g' k j i VB3 = if fl && btw (o_s oc X3 - 1) k (o_e oc X3 + 1) && (j =? e)%Z && inb oc X1 i then 1/2 * (gB3 g' k j i + gB3 g' (k + 1)%Z j i) else gU g k j i VB3).
Proof.
  intros nDim oc ie ke r1 r2 r3 fc h3 h2 s g rest D N. cbv zeta. unfold emfs2.
  destruct (some (o_emf3 oc X2 s)); cbn [negb andb ind].
  2:{ eexists. split; [reflexivity|]. repeat split; intros; rewrite ?Rplus_0_r, ?Rminus_0_r; reflexivity. }
  fold (side oc X2 s). fold (bface oc X2 s). cbv zeta. rewrite !upto0, !upto0'. rewrite <- app_assoc.
  destruct (rd_emf_eq h3 (len oc X3) (len oc X1 + 1) ((if (nDim =? 3)%nat then emfl h2 (len oc X3 + 1) (len oc X1) else []) ++ rest)) as (S3 & -> & HS3). cbn [bnd].
  pose proof (N X2) as NX2. pose proof (N X3) as NX3. pose proof (N X1) as NX1. clear N.
  set (jl := if some (o_emf3 oc X1 true) || (o_e oc X1 =? ie)%Z || (o_e oc X2 <? o_s oc X2)%Z then (o_e oc X1 + 1)%Z else o_e oc X1).
  assert (JL : jl = o_e oc X1 \/ jl = (o_e oc X1 + 1)%Z) by (unfold jl; destruct (some (o_emf3 oc X1 true) || (o_e oc X1 =? ie)%Z || (o_e oc X2 <? o_s oc X2)%Z); auto).
  set (kl := if some (o_emf1 oc X3 true) || (o_e oc X3 =? ke)%Z || (o_e oc X2 <? o_s oc X2)%Z then (o_e oc X3 + 1)%Z else o_e oc X3).
  assert (KL : kl = o_e oc X3 \/ kl = (o_e oc X3 + 1)%Z) by (unfold kl; destruct (some (o_emf1 oc X3 true) || (o_e oc X3 =? ke)%Z || (o_e oc X2 <? o_s oc X2)%Z); auto).
  clearbody jl kl.
  match goal with |- context [Some (centre2 ?ps2 (centre1 ?ps1 _), _)] => set (P2 := ps2); set (P1 := ps1) end.
  assert (M1 : forall k j i g, gU (centre1 P1 g) k j i VB1 = if inb oc X3 k && (j =? side oc X2 s)%Z && btw (o_s oc X1 - 1) i (o_e oc X1 + 1) then 1/2 * (gB1 g k j i + gB1 g k j (i + 1)%Z) else gU g k j i VB1)
    by (intros; unfold P1; rewrite centre1_box, !memZ_upto, memZ_one; reflexivity).
  assert (M2 : forall k j i g, gU (centre2 P2 g) k j i VB2 = if inb oc X3 k && ((j =? bface oc X2 s) || (j =? bface oc X2 s - 1))%Z && inb oc X1 i then 1/2 * (gB2 g k j i + gB2 g k (j + 1)%Z i) else gU g k j i VB2)
    by (intros; unfold P2; rewrite centre2_box, !memZ_upto, memZ_two; reflexivity).
  clearbody P1 P2.
  match goal with |- context [onB2 ?F (onB1 ?G g)] => set (g1 := onB2 F (onB1 G g)) end.
  match goal with |- context [if (o_e oc X2 <? o_s oc X2)%Z then onB2 ?F g1 else g1] => set (g2 := if (o_e oc X2 <? o_s oc X2)%Z then onB2 F g1 else g1) end.
  assert (Q1 : gU g2 = gU g /\ gB3 g2 = gB3 g /\ gB1 g2 = gB1 g1) by (unfold g2; destruct (o_e oc X2 <? o_s oc X2)%Z; repeat split).
  destruct Q1 as (U2 & B3e & B1e).
  assert (QB1 : forall k j i, gB1 g2 k j i = gB1 g k j i - ind (inb oc X3 k && (j =? side oc X2 s)%Z && btw (o_s oc X1) i jl) (sgn s r2 * (f_emf3 fc X2 s (k - o_s oc X3)%Z (i - o_s oc X1)%Z - h3 (k - o_s oc X3)%Z (i - o_s oc X1)%Z))).
  { intros k j i. rewrite B1e. unfold g1. cbn [gB1 onB1 onB2]. box. fold (inb oc X3 k). fold (btw (o_s oc X1) i jl).
    destruct (inb oc X3 k && (j =? side oc X2 s)%Z && btw (o_s oc X1) i jl) eqn:E; cbn [ind]; [|lra]. rewrite HS3; [lra| |]; unfold inb, btw, len in *; lia. }
  assert (QB2 : forall k j i, gB2 g2 k j i = gB2 g k j i
      - ind (inb oc X3 k && (j =? bface oc X2 s)%Z && inb oc X1 i) (r1 * (f_emf3 fc X2 s (k - o_s oc X3)%Z (i - o_s oc X1 + 1)%Z - h3 (k - o_s oc X3)%Z (i - o_s oc X1 + 1)%Z) - r1 * (f_emf3 fc X2 s (k - o_s oc X3)%Z (i - o_s oc X1)%Z - h3 (k - o_s oc X3)%Z (i - o_s oc X1)%Z))
      - ind ((o_e oc X2 <? o_s oc X2)%Z && inb oc X3 k && (i =? o_s oc X1 - 1)%Z && (j =? bface oc X2 s)%Z) (r1 * (f_emf3 fc X2 s (k - o_s oc X3)%Z 0%Z - h3 (k - o_s oc X3)%Z 0%Z))
      + ind ((o_e oc X2 <? o_s oc X2)%Z && inb oc X3 k && (i =? o_e oc X1 + 1)%Z && (j =? bface oc X2 s)%Z) (r1 * (f_emf3 fc X2 s (k - o_s oc X3)%Z (len oc X1) - h3 (k - o_s oc X3)%Z (len oc X1)))).
  { intros k j i. unfold g2, g1. destruct (o_e oc X2 <? o_s oc X2)%Z; cbn [gB2 onB1 onB2 andb ind].
    - box. fold (inb oc X3 k). fold (inb oc X1 i). fold (len oc X1).
      destruct (inb oc X3 k) eqn:E1; cbn [andb ind]; [|lra]. destruct (j =? bface oc X2 s)%Z eqn:E2; rewrite ?andb_false_r; cbn [andb ind]; [|lra]. rewrite !andb_true_r.
      destruct (inb oc X1 i) eqn:E3; cbn [andb ind]; (destruct (i =? o_e oc X1 + 1)%Z eqn:E4; cbn [ind]); (destruct (i =? o_s oc X1 - 1)%Z eqn:E5; cbn [ind]);
      unfold inb in *; try (exfalso; unfold len in *; lia);
      rewrite ?HS3 by (unfold len in *; lia); lra.
    - box. fold (inb oc X3 k). fold (inb oc X1 i).
      destruct (inb oc X3 k && (j =? bface oc X2 s)%Z && inb oc X1 i) eqn:E; cbn [ind]; [|lra]. rewrite !HS3; [lra| | | |]; unfold inb, len in *; lia. }
  clearbody g2. clear g1 B1e HS3 S3.
  destruct (Nat.eqb_spec nDim 3) as [ND|ND]; cbn [bnd app].
  - subst nDim.
    destruct (rd_emf_eq h2 (len oc X3 + 1) (len oc X1) rest) as (S2 & -> & HS2). cbn [bnd].
    match goal with |- context [onB2 ?F (onB3 ?G g2)] => set (g3 := onB2 F (onB3 G g2)) end.
    match goal with |- context [if (o_e oc X2 <? o_s oc X2)%Z then onB2 ?F g3 else g3] => set (g4 := if (o_e oc X2 <? o_s oc X2)%Z then onB2 F g3 else g3) end.
    assert (Q1 : gU g4 = gU g2 /\ gB1 g4 = gB1 g2 /\ gB3 g4 = gB3 g3) by (unfold g4; destruct (o_e oc X2 <? o_s oc X2)%Z; repeat split).
    destruct Q1 as (U4 & B1e & B3e').
    assert (QB3 : forall k j i, gB3 g4 k j i = gB3 g k j i + ind (btw (o_s oc X3) k kl && (j =? side oc X2 s)%Z && inb oc X1 i) (sgn s r2 * (f_emf1 fc X2 s (k - o_s oc X3)%Z (i - o_s oc X1)%Z - h2 (k - o_s oc X3)%Z (i - o_s oc X1)%Z))).
    { intros k j i. rewrite B3e'. unfold g3. cbn [gB3 onB2 onB3]. rewrite B3e. box. fold (inb oc X1 i). fold (btw (o_s oc X3) k kl).
      destruct (btw (o_s oc X3) k kl && (j =? side oc X2 s)%Z && inb oc X1 i) eqn:E; cbn [ind]; [|lra]. rewrite HS2; [lra| |]; unfold inb, btw, len in *; lia. }
    assert (QB2' : forall k j i, gB2 g4 k j i = gB2 g2 k j i
      + ind (inb oc X3 k && (j =? bface oc X2 s)%Z && inb oc X1 i) (r3 * (f_emf1 fc X2 s (k - o_s oc X3 + 1)%Z (i - o_s oc X1)%Z - h2 (k - o_s oc X3 + 1)%Z (i - o_s oc X1)%Z) - r3 * (f_emf1 fc X2 s (k - o_s oc X3)%Z (i - o_s oc X1)%Z - h2 (k - o_s oc X3)%Z (i - o_s oc X1)%Z))
      + ind ((o_e oc X2 <? o_s oc X2)%Z && inb oc X1 i && (k =? o_s oc X3 - 1)%Z && (j =? bface oc X2 s)%Z) (r3 * (f_emf1 fc X2 s 0%Z (i - o_s oc X1)%Z - h2 0%Z (i - o_s oc X1)%Z))
      - ind ((o_e oc X2 <? o_s oc X2)%Z && inb oc X1 i && (k =? o_e oc X3 + 1)%Z && (j =? bface oc X2 s)%Z) (r3 * (f_emf1 fc X2 s (len oc X3) (i - o_s oc X1)%Z - h2 (len oc X3) (i - o_s oc X1)%Z))).
    { intros k j i. unfold g4, g3. destruct (o_e oc X2 <? o_s oc X2)%Z; cbn [gB2 onB2 onB3 andb ind].
      - box. fold (inb oc X3 k). fold (inb oc X1 i). fold (len oc X3).
        destruct (inb oc X1 i) eqn:E1; rewrite ?andb_false_r; cbn [andb ind]; [|lra]. destruct (j =? bface oc X2 s)%Z eqn:E2; rewrite ?andb_false_r; cbn [andb ind]; [|lra]. rewrite !andb_true_r.
        destruct (inb oc X3 k) eqn:E3; cbn [andb ind]; (destruct (k =? o_e oc X3 + 1)%Z eqn:E4; cbn [ind]); (destruct (k =? o_s oc X3 - 1)%Z eqn:E5; cbn [ind]);
        unfold inb in *; try (exfalso; unfold len in *; lia);
        rewrite ?HS2 by (unfold len in *; lia); lra.
      - box. fold (inb oc X3 k). fold (inb oc X1 i).
        destruct (inb oc X3 k && (j =? bface oc X2 s)%Z && inb oc X1 i) eqn:E; cbn [ind]; [|lra]. rewrite !HS2; [lra| | | |]; unfold inb, len in *; lia. }
    clearbody g4. clear g3 B3e' HS2 S2.
    match goal with |- context [centre3 ?ps3 g4] => set (P3 := ps3) end.
    assert (M3 : forall k j i g, gU (centre3 P3 g) k j i VB3 = if btw (o_s oc X3 - 1) k (o_e oc X3 + 1) && (j =? side oc X2 s)%Z && inb oc X1 i then 1/2 * (gB3 g k j i + gB3 g (k + 1)%Z j i) else gU g k j i VB3).
    { intros. unfold P3. rewrite centre3_box, !memZ_upto, memZ_one. reflexivity. }
    clearbody P3.
    destruct (centre3_keep P3 g4) as (A1 & A2 & A3 & A4). set (g5 := centre3 P3 g4) in *.
    destruct (centre1_keep P1 g5) as (C1 & C2 & C3 & C4). set (g6 := centre1 P1 g5) in *.
    destruct (centre2_keep P2 g6) as (E1 & E2 & E3 & E4). set (g7 := centre2 P2 g6) in *.
    exists g7. split; [reflexivity|].
    split. { intros k j i. rewrite E2, C2, A2, B1e. apply QB1. }
    split. { intros k j i. rewrite E3, C3, A3, QB2', QB2. reflexivity. }
    split. { intros k j i. rewrite E4, C4, A4. apply QB3. }
    split. { intros k j i v V. rewrite (keepU _ _ v (fun p => E1 p v ltac:(intros ->; cbn in V; lia))), (keepU _ _ v (fun p => C1 p v ltac:(intros ->; cbn in V; lia))), (keepU _ _ v (fun p => A1 p v ltac:(intros ->; cbn in V; lia))), U4, U2. reflexivity. }
    split; [|split].
    { intros k j i. rewrite (keepU _ _ VB1 (fun p => E1 p VB1 ltac:(discriminate))). unfold g6 at 1. rewrite M1. rewrite E2, C2. rewrite (keepU _ _ VB1 (fun p => A1 p VB1 ltac:(discriminate))), U4, U2. reflexivity. }
    { intros k j i. unfold g7 at 1. rewrite M2. rewrite E3. rewrite (keepU _ _ VB2 (fun p => C1 p VB2 ltac:(discriminate))), (keepU _ _ VB2 (fun p => A1 p VB2 ltac:(discriminate))), U4, U2. reflexivity. }
    { intros _ k j i. rewrite (keepU _ _ VB3 (fun p => E1 p VB3 ltac:(discriminate))), (keepU _ _ VB3 (fun p => C1 p VB3 ltac:(discriminate))). unfold g5 at 1. rewrite M3. rewrite E4, C4, A4, U4, U2. reflexivity. }
  - destruct (centre1_keep P1 g2) as (C1 & C2 & C3 & C4). set (g6 := centre1 P1 g2) in *.
    destruct (centre2_keep P2 g6) as (E1 & E2 & E3 & E4). set (g7 := centre2 P2 g6) in *.
    exists g7. split; [reflexivity|]. cbn [ind andb].
    split. { intros k j i. rewrite E2, C2. apply QB1. }
    split. { intros k j i. rewrite E3, C3, QB2. lra. }
    split. { intros k j i. rewrite E4, C4, B3e. lra. }
    split. { intros k j i v V. rewrite (keepU _ _ v (fun p => E1 p v ltac:(intros ->; cbn in V; lia))), (keepU _ _ v (fun p => C1 p v ltac:(intros ->; cbn in V; lia))), U2. reflexivity. }
    split; [|split; [|lia]].
    { intros k j i. rewrite (keepU _ _ VB1 (fun p => E1 p VB1 ltac:(discriminate))). unfold g6 at 1. rewrite M1. rewrite E2, C2. rewrite U2. reflexivity. }
    { intros k j i. unfold g7 at 1. rewrite M2. rewrite E3. rewrite (keepU _ _ VB2 (fun p => C1 p VB2 ltac:(discriminate))), U2. reflexivity. }
Qed.

Lemma emfs3_eq : forall oc ie je r1 r2 r3 fc h1 h2 s g rest, (forall a, (0 <= len oc a)%Z) ->
  let d1 := fun x y => f_emf1 fc X3 s x y - h1 x y in let d2 := fun x y => f_emf2 fc X3 s x y - h2 x y in
  let fl := some (o_emf1 oc X3 s) in let b := bface oc X3 s in let e := side oc X3 s in
  let touch := (o_e oc X3 <? o_s oc X3)%Z in
  let il := if some (o_emf2 oc X1 true) || (o_e oc X1 =? ie)%Z || touch then (o_e oc X1 + 1)%Z else o_e oc X1 in
  let jl := if some (o_emf1 oc X2 true) || (o_e oc X2 =? je)%Z || touch then (o_e oc X2 + 1)%Z else o_e oc X2 in
  exists g', emfs3 oc ie je r1 r2 r3 fc s g
      ((if fl then emfl h1 (len oc X2 + 1) (len oc X1) ++ emfl h2 (len oc X2) (len oc X1 + 1) else []) ++ rest) = Some (g', rest) /\
   (forall k j i, gB1 g' k j i = gB1 g k j i + ind (fl && (k =? e)%Z && inb oc X2 j && btw (o_s oc X1) i il) (sgn s r3 * d2 (j - o_s oc X2)%Z (i - o_s oc X1)%Z)) /\
   (forall k j i, gB2 g' k j i = gB2 g k j i - ind (fl && (k =? e)%Z && btw (o_s oc X2) j jl && inb oc X1 i) (sgn s r3 * d1 (j - o_s oc X2)%Z (i - o_s oc X1)%Z)) /\
   (forall k j i, gB3 g' k j i = gB3 g k j i
      + ind (fl && (k =? b)%Z && inb oc X2 j && inb oc X1 i)
          (r1 * d2 (j - o_s oc X2)%Z (i - o_s oc X1 + 1)%Z - r1 * d2 (j - o_s oc X2)%Z (i - o_s oc X1)%Z
           - (r2 * d1 (j - o_s oc X2 + 1)%Z (i - o_s oc X1)%Z - r2 * d1 (j - o_s oc X2)%Z (i - o_s oc X1)%Z))
      + ind (fl && touch && (k =? b)%Z && inb oc X2 j && (i =? o_s oc X1 - 1)%Z) (r1 * d2 (j - o_s oc X2)%Z 0%Z)
      - ind (fl && touch && (k =? b)%Z && inb oc X2 j && (i =? o_e oc X1 + 1)%Z) (r1 * d2 (j - o_s oc X2)%Z (len oc X1))
      - ind (fl && touch && (k =? b)%Z && (j =? o_s oc X2 - 1)%Z && inb oc X1 i) (r2 * d1 0%Z (i - o_s oc X1)%Z)
      + ind (fl && touch && (k =? b)%Z && (j =? o_e oc X2 + 1)%Z && inb oc X1 i) (r2 * d1 (len oc X2) (i - o_s oc X1)%Z)) /\
   (forall k j i v, plain 3 v -> gU g' k j i v = gU g k j i v) /\
   (forall k j i, gU g' k j i VB1 = if fl && (k =? e)%Z && inb oc X2 j && btw (o_s oc X1 - 1) i (o_e oc X1 + 1) then 1/2 * (gB1 g' k j i + gB1 g' k j (i + 1)%Z) else gU g k j i VB1) /\
   (forall k j i, gU g' k j i VB2 = if fl && (k =? e)%Z && btw (o_s oc X2 - 1) j (o_e oc X2 + 1) && inb oc X1 i then 1/2 * (gB2 g' k j i + gB2 g' k (j + 1)%Z i) else gU g k j i VB2) /\
   (forall k j i, gU g' k j i VB3 = if fl && ((k =? b) || (k =? b - 1))%Z && inb oc X2 j && inb oc X1 i then 1/2 * (gB3 g' k j i + gB3 g' (k + 1)%Z j i) else gU g k j i VB3).
Proof.
  intros oc ie je r1 r2 r3 fc h1 h2 s g rest N. cbv zeta. unfold emfs3.
  destruct (some (o_emf1 oc X3 s)); cbn [negb andb ind].
  2:{ eexists. split; [reflexivity|]. repeat split; intros; rewrite ?Rplus_0_r, ?Rminus_0_r; reflexivity. }
  fold (side oc X3 s). fold (bface oc X3 s). cbv zeta. rewrite !upto0, !upto0'. rewrite <- app_assoc.
  destruct (rd_emf_eq h1 (len oc X2 + 1) (len oc X1) (emfl h2 (len oc X2) (len oc X1 + 1) ++ rest)) as (S1 & -> & HS1). cbn [bnd].
  destruct (rd_emf_eq h2 (len oc X2) (len oc X1 + 1) rest) as (S2 & -> & HS2). cbn [bnd].
  pose proof (N X2) as NX2. pose proof (N X3) as NX3. pose proof (N X1) as NX1. clear N.
  set (jl := if some (o_emf1 oc X2 true) || (o_e oc X2 =? je)%Z || (o_e oc X3 <? o_s oc X3)%Z then (o_e oc X2 + 1)%Z else o_e oc X2).
  assert (JL : jl = o_e oc X2 \/ jl = (o_e oc X2 + 1)%Z) by (unfold jl; destruct (some (o_emf1 oc X2 true) || (o_e oc X2 =? je)%Z || (o_e oc X3 <? o_s oc X3)%Z); auto).
  set (il := if some (o_emf2 oc X1 true) || (o_e oc X1 =? ie)%Z || (o_e oc X3 <? o_s oc X3)%Z then (o_e oc X1 + 1)%Z else o_e oc X1).
  assert (IL : il = o_e oc X1 \/ il = (o_e oc X1 + 1)%Z) by (unfold il; destruct (some (o_emf2 oc X1 true) || (o_e oc X1 =? ie)%Z || (o_e oc X3 <? o_s oc X3)%Z); auto).
  clearbody jl il.
  match goal with |- context [onB3 ?F (onB1 ?G (onB2 ?H g))] => set (g1 := onB3 F (onB1 G (onB2 H g))) end.
  match goal with |- context [if (o_e oc X3 <? o_s oc X3)%Z then onB3 ?F g1 else g1] => set (g2 := if (o_e oc X3 <? o_s oc X3)%Z then onB3 F g1 else g1) end.
  assert (Q1 : gU g2 = gU g /\ gB1 g2 = gB1 g1 /\ gB2 g2 = gB2 g1) by (unfold g2; destruct (o_e oc X3 <? o_s oc X3)%Z; repeat split).
  destruct Q1 as (U2 & B1e & B2e).
  assert (QB1 : forall k j i, gB1 g2 k j i = gB1 g k j i + ind ((k =? side oc X3 s)%Z && inb oc X2 j && btw (o_s oc X1) i il) (sgn s r3 * (f_emf2 fc X3 s (j - o_s oc X2)%Z (i - o_s oc X1)%Z - h2 (j - o_s oc X2)%Z (i - o_s oc X1)%Z))).
  { intros k j i. rewrite B1e. unfold g1. cbn [gB1 onB1 onB2 onB3]. box. fold (inb oc X2 j). fold (btw (o_s oc X1) i il).
    destruct ((k =? side oc X3 s)%Z && inb oc X2 j && btw (o_s oc X1) i il) eqn:E; cbn [ind]; [|lra]. rewrite HS2; [lra| |]; unfold inb, btw, len in *; lia. }
  assert (QB2 : forall k j i, gB2 g2 k j i = gB2 g k j i - ind ((k =? side oc X3 s)%Z && btw (o_s oc X2) j jl && inb oc X1 i) (sgn s r3 * (f_emf1 fc X3 s (j - o_s oc X2)%Z (i - o_s oc X1)%Z - h1 (j - o_s oc X2)%Z (i - o_s oc X1)%Z))).
  { intros k j i. rewrite B2e. unfold g1. cbn [gB2 onB1 onB2 onB3]. box. fold (inb oc X1 i). fold (btw (o_s oc X2) j jl).
    destruct ((k =? side oc X3 s)%Z && btw (o_s oc X2) j jl && inb oc X1 i) eqn:E; cbn [ind]; [|lra]. rewrite HS1; [lra| |]; unfold inb, btw, len in *; lia. }
  assert (QB3 : forall k j i, gB3 g2 k j i = gB3 g k j i
      + ind ((k =? bface oc X3 s)%Z && inb oc X2 j && inb oc X1 i)
          (r1 * (f_emf2 fc X3 s (j - o_s oc X2)%Z (i - o_s oc X1 + 1)%Z - h2 (j - o_s oc X2)%Z (i - o_s oc X1 + 1)%Z) - r1 * (f_emf2 fc X3 s (j - o_s oc X2)%Z (i - o_s oc X1)%Z - h2 (j - o_s oc X2)%Z (i - o_s oc X1)%Z)
           - (r2 * (f_emf1 fc X3 s (j - o_s oc X2 + 1)%Z (i - o_s oc X1)%Z - h1 (j - o_s oc X2 + 1)%Z (i - o_s oc X1)%Z) - r2 * (f_emf1 fc X3 s (j - o_s oc X2)%Z (i - o_s oc X1)%Z - h1 (j - o_s oc X2)%Z (i - o_s oc X1)%Z)))
      + ind ((o_e oc X3 <? o_s oc X3)%Z && (k =? bface oc X3 s)%Z && inb oc X2 j && (i =? o_s oc X1 - 1)%Z) (r1 * (f_emf2 fc X3 s (j - o_s oc X2)%Z 0%Z - h2 (j - o_s oc X2)%Z 0%Z))
      - ind ((o_e oc X3 <? o_s oc X3)%Z && (k =? bface oc X3 s)%Z && inb oc X2 j && (i =? o_e oc X1 + 1)%Z) (r1 * (f_emf2 fc X3 s (j - o_s oc X2)%Z (len oc X1) - h2 (j - o_s oc X2)%Z (len oc X1)))
      - ind ((o_e oc X3 <? o_s oc X3)%Z && (k =? bface oc X3 s)%Z && (j =? o_s oc X2 - 1)%Z && inb oc X1 i) (r2 * (f_emf1 fc X3 s 0%Z (i - o_s oc X1)%Z - h1 0%Z (i - o_s oc X1)%Z))
      + ind ((o_e oc X3 <? o_s oc X3)%Z && (k =? bface oc X3 s)%Z && (j =? o_e oc X2 + 1)%Z && inb oc X1 i) (r2 * (f_emf1 fc X3 s (len oc X2) (i - o_s oc X1)%Z - h1 (len oc X2) (i - o_s oc X1)%Z))).
  { intros k j i. unfold g2, g1. destruct (o_e oc X3 <? o_s oc X3)%Z; cbn [gB3 onB1 onB2 onB3 andb ind].
    - box. fold (inb oc X2 j). fold (inb oc X1 i). fold (len oc X1) (len oc X2).
      destruct (k =? bface oc X3 s)%Z eqn:E2; cbn [andb ind]; [|lra].
      destruct (inb oc X1 i) eqn:E3; rewrite ?andb_false_r, ?andb_true_r; cbn [andb ind]; (destruct (i =? o_e oc X1 + 1)%Z eqn:E4; rewrite ?andb_false_r, ?andb_true_r; cbn [ind]); (destruct (i =? o_s oc X1 - 1)%Z eqn:E5; rewrite ?andb_false_r, ?andb_true_r; cbn [ind]);
      unfold inb in E3; try (exfalso; unfold len in *; lia);
      (destruct (inb oc X2 j) eqn:E6; rewrite ?andb_false_r, ?andb_true_r; cbn [andb ind]); (destruct (j =? o_e oc X2 + 1)%Z eqn:E7; cbn [ind]); (destruct (j =? o_s oc X2 - 1)%Z eqn:E8; cbn [ind]);
      unfold inb in E6; try (exfalso; unfold len in *; lia);
      rewrite ?HS1 by (unfold len in *; lia); rewrite ?HS2 by (unfold len in *; lia); lra.
    - box. fold (inb oc X2 j). fold (inb oc X1 i).
      destruct ((k =? bface oc X3 s)%Z && inb oc X2 j && inb oc X1 i) eqn:E; cbn [ind]; [|lra]. unfold inb in E. rewrite !HS2 by (unfold len in *; lia). rewrite !HS1 by (unfold len in *; lia). lra. }
  clearbody g2. clear g1 B1e B2e HS1 HS2 S1 S2.
  match goal with |- context [Some (centre3 ?ps3 (centre2 ?ps2 (centre1 ?ps1 _)), _)] => set (P3 := ps3); set (P2 := ps2); set (P1 := ps1) end.
  assert (M1 : forall k j i g, gU (centre1 P1 g) k j i VB1 = if (k =? side oc X3 s)%Z && inb oc X2 j && btw (o_s oc X1 - 1) i (o_e oc X1 + 1) then 1/2 * (gB1 g k j i + gB1 g k j (i + 1)%Z) else gU g k j i VB1)
    by (intros; unfold P1; rewrite centre1_box, !memZ_upto, memZ_one; reflexivity).
  assert (M2 : forall k j i g, gU (centre2 P2 g) k j i VB2 = if (k =? side oc X3 s)%Z && btw (o_s oc X2 - 1) j (o_e oc X2 + 1) && inb oc X1 i then 1/2 * (gB2 g k j i + gB2 g k (j + 1)%Z i) else gU g k j i VB2)
    by (intros; unfold P2; rewrite centre2_box, !memZ_upto, memZ_one; reflexivity).
  assert (M3 : forall k j i g, gU (centre3 P3 g) k j i VB3 = if ((k =? bface oc X3 s) || (k =? bface oc X3 s - 1))%Z && inb oc X2 j && inb oc X1 i then 1/2 * (gB3 g k j i + gB3 g (k + 1)%Z j i) else gU g k j i VB3)
    by (intros; unfold P3; rewrite centre3_box, !memZ_upto, memZ_two; reflexivity).
  clearbody P1 P2 P3.
  destruct (centre1_keep P1 g2) as (A1 & A2 & A3 & A4). set (g5 := centre1 P1 g2) in *.
  destruct (centre2_keep P2 g5) as (C1 & C2 & C3 & C4). set (g6 := centre2 P2 g5) in *.
  destruct (centre3_keep P3 g6) as (E1 & E2 & E3 & E4). set (g7 := centre3 P3 g6) in *.
  exists g7. split; [reflexivity|].
  split. { intros k j i. rewrite E2, C2, A2. apply QB1. }
  split. { intros k j i. rewrite E3, C3, A3. apply QB2. }
  split. { intros k j i. rewrite E4, C4, A4. apply QB3. }
  split. { intros k j i v V. rewrite (keepU _ _ v (fun p => E1 p v ltac:(intros ->; cbn in V; lia))), (keepU _ _ v (fun p => C1 p v ltac:(intros ->; cbn in V; lia))), (keepU _ _ v (fun p => A1 p v ltac:(intros ->; cbn in V; lia))), U2. reflexivity. }
  split; [|split].
  { intros k j i. rewrite (keepU _ _ VB1 (fun p => E1 p VB1 ltac:(discriminate))), (keepU _ _ VB1 (fun p => C1 p VB1 ltac:(discriminate))). unfold g5 at 1. rewrite M1. rewrite E2, C2, A2, U2. reflexivity. }
  { intros k j i. rewrite (keepU _ _ VB2 (fun p => E1 p VB2 ltac:(discriminate))). unfold g6 at 1. rewrite M2. rewrite E3, C3. rewrite (keepU _ _ VB2 (fun p => A1 p VB2 ltac:(discriminate))), U2. reflexivity. }
  { intros k j i. unfold g7 at 1. rewrite M3. rewrite E4. rewrite (keepU _ _ VB3 (fun p => C1 p VB3 ltac:(discriminate))), (keepU _ _ VB3 (fun p => A1 p VB3 ltac:(discriminate))), U2. reflexivity. }
Qed.
