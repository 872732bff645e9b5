(** * Prolongate: what the loops over ghost zones do *)
From Coq Require Import Reals ZArith Bool Arith Lia ZifyBool List FinFun.
From Verif Require Import CStr MeshModel SmrModel SmrOverlap SmrFacts SmrProps ProModel.
Import ListNotations.
Open Scope Z_scope.

(** ** Loading *)
Lemma fold_updS : forall {Q : Type} (pos : Q -> (Z * Z * Z) * slot) (val : Q -> R) (l : list Q) f, NoDup (map pos l) ->
  forall q, In q l -> at3 (fold_left (fun f q => updS f (fst (pos q)) (snd (pos q)) (val q)) l f) (fst (pos q)) (snd (pos q)) = val q.
Proof.
  intros Q pos val l. induction l as [|b l IH] using rev_ind; intros f ND q Hq; [destruct Hq|].
  rewrite fold_left_app. cbn [fold_left]. rewrite map_app in ND. cbn [map] in ND.
  apply in_app_or in Hq. destruct Hq as [Hq|[<-|[]]].
  - pose proof (NoDup_remove_2 _ _ _ ND) as NI. rewrite app_nil_r in NI. pose proof (NoDup_remove_1 _ _ _ ND) as ND'. rewrite app_nil_r in ND'.
    specialize (IH f ND' q Hq). revert IH. generalize (fold_left (fun f q => updS f (fst (pos q)) (snd (pos q)) (val q)) l f). intros h IH.
    assert (NE : pos q <> pos b) by (intros E; apply NI; rewrite <- E; apply in_map; exact Hq).
    destruct (pos q) as [[[k j] i] t], (pos b) as [[[k' j'] i'] t']. cbn [fst snd at3 updS] in *.
    destruct (Z.eqb_spec k k'), (Z.eqb_spec j j'), (Z.eqb_spec i i'); cbn [andb]; try exact IH. destruct (slot_eq_dec t t'); [exfalso; apply NE; congruence|exact IH].
  - destruct (pos b) as [[[k j] i] t]. cbn [fst snd at3 updS]. rewrite !Z.eqb_refl. cbn [andb]. destruct (slot_eq_dec t t); congruence.
Qed.
Lemma nodup_slots : forall c, NoDup (slots c).
Proof.
  intros c. unfold slots.
  assert (S : NoDup (map (fun n => PU (VS n)) (seq 0 (c_ns c)))) by (apply Injective_map_NoDup; [intros x y E; congruence|apply seq_NoDup]).
  assert (NS : forall v, (forall n, v <> PU (VS n)) -> ~ In v (map (fun n => PU (VS n)) (seq 0 (c_ns c)))).
  { intros v H K. apply in_map_iff in K. destruct K as (n & E & _). apply (H n). congruence. }
  destruct (c_baro c), (c_mhd c); cbn [app];
  repeat (constructor; [cbn [In]; intros K; repeat (destruct K as [K|K]; [discriminate|]); revert K; apply NS; discriminate|]); exact S.
Qed.
Lemma slots_vars : forall c v, In v (vars c) -> In (PU v) (slots c).
Proof.
  intros c v H. unfold vars in H. unfold slots. rewrite !in_app_iff in *. destruct (c_baro c), (c_mhd c); cbn [In] in *; rewrite in_map_iff in *;
  repeat match goal with H : _ \/ _ |- _ => destruct H as [H|H] end; subst; auto 20; try contradiction;
  destruct H as (n & <- & H); do 3 right; exists n; auto.
Qed.
Lemma slots_B : forall c a, c_mhd c = true -> In (PB a) (slots c).
Proof. intros c a M. unfold slots. rewrite M, !in_app_iff. right. right. left. destruct a; cbn; auto 20. Qed.

(** ** Coarse and fine indices *)
Definition evn (ng : Z) : Prop := 0 <= ng /\ ng mod 2 = 0.
Lemma many_ratio : forall nDim a, (1 <= nDim <= 3)%nat -> ratio nDim a = if many nDim a then 2 else 1.
Proof. intros n a H. assert (n = 1 \/ n = 2 \/ n = 3)%nat by lia. destruct H0 as [->|[->| ->]]; destruct a; reflexivity. Qed.
(** The coarse cell of a fine cell, and the fine cell's place in it. *)
Definition ci (nDim : nat) (oc of : ovl) (b : axis) (x : Z) : Z := o_s oc b + if many nDim b then (x - o_s of b) / 2 else 0.
Definition par (nDim : nat) (of : ovl) (b : axis) (x : Z) : Z := if many nDim b then (x - o_s of b) mod 2 else 0.
Definition base1 (nDim : nat) (of : ovl) (b : axis) (x : Z) : Z := x - par nDim of b x.
Definition nb (nDim : nat) (b : axis) (d : Z) : Z := if many nDim b then d else 0.
(** Index in GZ and BFld. *)
Definition gi (nDim : nat) (ng : Z) (of : ovl) (a : axis) (s : bool) (b : axis) (x : Z) : Z := 1 + (x - ps nDim ng of a s b) / 2.
Definition cof (nDim : nat) (ng : Z) (oc : ovl) (a : axis) (s : bool) (b : axis) (x : Z) : Z := if many nDim b then cs nDim ng oc a s b + x else o_s oc b.

Lemma axis_eqb_spec : forall a b, axis_eqb a b = true <-> a = b.
Proof. intros [] []; cbn; split; congruence. Qed.
Lemma cof_gi : forall c nDim ng oc of a s b x d, paired c nDim oc of -> evn ng -> ps nDim ng of a s b <= x ->
  cof nDim ng oc a s b (gi nDim ng of a s b x + d) = ci nDim oc of b x + nb nDim b d.
Proof.
  intros c nDim ng oc of a s b x d P [E0 E1] H. unfold cof, gi, ci, nb.
  destruct (pd_len _ _ _ _ P b) as (L & L0). rewrite many_ratio in L by apply (pd_dim _ _ _ _ P). unfold len in *.
  pose proof (Z_div_mod_eq_full ng 2). unfold cs, ps in *. destruct (many nDim b); [|lia].
  destruct (axis_eqb a b), s; cbn [andb] in *; try (Z.div_mod_to_equations; lia).
Qed.

(** ** The message and the arrays *)
Lemma widths : forall c nDim ng oc of a s b, paired c nDim oc of -> evn ng ->
  ce nDim ng oc a s b - cs nDim ng oc a s b = gze nDim ng of a b - gzs nDim b.
Proof.
  intros c nDim ng oc of a s b P [E0 E1]. unfold ce, cs, gze, gzs, ngz.
  destruct (pd_len _ _ _ _ P b) as (L & L0). pose proof (pd_flat _ _ _ _ P b) as F. pose proof (many_ratio nDim b (pd_dim _ _ _ _ P)) as R. rewrite R in *. unfold len in *.
  destruct (many nDim b) eqn:M.
  - destruct (axis_eqb a b), s; cbn [andb negb]; Z.div_mod_to_equations; lia.
  - specialize (F eq_refl). destruct (axis_eqb a b), s; cbn [andb negb]; lia.
Qed.
Lemma load_ok : forall c nDim ng oc of a s g rest, paired c nDim oc of -> evn ng ->
  exists f, load c nDim ng of a (map (fun '((k, j, i), t) => gslot g k j i t)
      (cells2 (cells3 (upto (cs nDim ng oc a s X3) (ce nDim ng oc a s X3)) (upto (cs nDim ng oc a s X2) (ce nDim ng oc a s X2)) (upto (cs nDim ng oc a s X1) (ce nDim ng oc a s X1))) (slots c)) ++ rest) = Some (f, rest) /\
  forall k j i t, gzs nDim X3 <= k <= gze nDim ng of a X3 -> gzs nDim X2 <= j <= gze nDim ng of a X2 -> gzs nDim X1 <= i <= gze nDim ng of a X1 -> In t (slots c) ->
    f k j i t = gslot g (k - gzs nDim X3 + cs nDim ng oc a s X3) (j - gzs nDim X2 + cs nDim ng oc a s X2) (i - gzs nDim X1 + cs nDim ng oc a s X1) t.
Proof.
  intros c nDim ng oc of a s g rest P E.
  pose proof (widths c nDim ng oc of a s X1 P E) as W1. pose proof (widths c nDim ng oc of a s X2 P E) as W2. pose proof (widths c nDim ng oc of a s X3 P E) as W3.
  unfold load. rewrite !upto_offs.
  replace (ce nDim ng oc a s X1 - cs nDim ng oc a s X1 + 1) with (gze nDim ng of a X1 - gzs nDim X1 + 1) by lia.
  replace (ce nDim ng oc a s X2 - cs nDim ng oc a s X2 + 1) with (gze nDim ng of a X2 - gzs nDim X2 + 1) by lia.
  replace (ce nDim ng oc a s X3 - cs nDim ng oc a s X3 + 1) with (gze nDim ng of a X3 - gzs nDim X3 + 1) by lia.
  rewrite !cells3_map, !cells2_map_l. rewrite map_map.
  set (L := cells2 (cells3 (offs (gze nDim ng of a X3 - gzs nDim X3 + 1)) (offs (gze nDim ng of a X2 - gzs nDim X2 + 1)) (offs (gze nDim ng of a X1 - gzs nDim X1 + 1))) (slots c)).
  rewrite rd_map. eexists. split; [reflexivity|].
  intros k j i t K J I T.
  set (phi := fun x : Z * Z * Z * slot => ((let '(k, j, i) := fst x in (gzs nDim X3 + k, gzs nDim X2 + j, gzs nDim X1 + i)), snd x)).
  set (val := fun x : Z * Z * Z * slot => let '(k, j, i) := fst x in gslot g (cs nDim ng oc a s X3 + k) (cs nDim ng oc a s X2 + j) (cs nDim ng oc a s X1 + i) (snd x)).
  assert (IN : In ((k - gzs nDim X3, j - gzs nDim X2, i - gzs nDim X1), t) L).
  { unfold L. apply in_cells2. split; [|exact T]. apply in_cells3. rewrite !in_offs. lia. }
  assert (ND : NoDup (map phi L)).
  { apply Injective_map_NoDup.
    - intros [[[k1 j1] i1] t1] [[[k2 j2] i2] t2] H. unfold phi in H. cbn in H. injection H. intros. repeat f_equal; try lia; auto.
    - unfold L. apply nodup_cells2; [apply nodup_cells3; apply nodup_offs|apply nodup_slots]. }
  pose proof (fold_updS phi val L (fun _ _ _ _ => 0%R) ND _ IN) as FS.
  unfold phi in FS at 2 3. cbn [fst snd] in FS. unfold val in FS at 2. cbn [fst snd at3] in FS.
  replace (gzs nDim X3 + (k - gzs nDim X3)) with k in FS by lia. replace (gzs nDim X2 + (j - gzs nDim X2)) with j in FS by lia. replace (gzs nDim X1 + (i - gzs nDim X1)) with i in FS by lia.
  replace (cs nDim ng oc a s X3 + (k - gzs nDim X3)) with (k - gzs nDim X3 + cs nDim ng oc a s X3) in FS by lia.
  replace (cs nDim ng oc a s X2 + (j - gzs nDim X2)) with (j - gzs nDim X2 + cs nDim ng oc a s X2) in FS by lia.
  replace (cs nDim ng oc a s X1 + (i - gzs nDim X1)) with (i - gzs nDim X1 + cs nDim ng oc a s X1) in FS by lia.
  rewrite <- FS.
  match goal with |- fold_left ?F L ?f0 ?k0 ?j0 ?i0 _ = fold_left ?G L ?f0 ?k0 ?j0 ?i0 _ => assert (EF : forall l h, fold_left F l h = fold_left G l h) end.
  { intros l. induction l as [|[[[k1 j1] i1] t1] l IH]; intros h; [reflexivity|]. cbn [fold_left]. rewrite IH. reflexivity. }
  rewrite EF. reflexivity.
Qed.
(** The pure effect of loading: the arrays hold the coarse cells. *)
Definition holds (c : cfg) (nDim : nat) (ng : Z) (oc of : ovl) (a : axis) (s : bool) (g : gst) (f : gz) : Prop :=
  forall k j i t, In t (slots c) ->
  (many nDim X3 = true /\ 0 <= k <= gze nDim ng of a X3 \/ many nDim X3 = false /\ 0 <= k <= 2) ->
  (many nDim X2 = true /\ 0 <= j <= gze nDim ng of a X2 \/ many nDim X2 = false /\ 0 <= j <= 2) -> 0 <= i <= gze nDim ng of a X1 ->
  (nDim = 1%nat -> (j = 1 \/ k = 1) /\ exists v, t = PU v) ->
  f k j i t = gslot g (cof nDim ng oc a s X3 k) (cof nDim ng oc a s X2 j) (cof nDim ng oc a s X1 i) t.
Lemma copies_ok : forall c nDim ng oc of a s g f, paired c nDim oc of -> many nDim a = true ->
  (forall k j i t, gzs nDim X3 <= k <= gze nDim ng of a X3 -> gzs nDim X2 <= j <= gze nDim ng of a X2 -> gzs nDim X1 <= i <= gze nDim ng of a X1 -> In t (slots c) ->
    f k j i t = gslot g (k - gzs nDim X3 + cs nDim ng oc a s X3) (j - gzs nDim X2 + cs nDim ng oc a s X2) (i - gzs nDim X1 + cs nDim ng oc a s X1) t) ->
  holds c nDim ng oc of a s g (copies nDim ng of a f).
Proof.
  intros c nDim ng oc of a s g f P MA H k j i t T K J I D1. pose proof (pd_dim _ _ _ _ P) as ND.
  assert (N : nDim = 1%nat \/ nDim = 2%nat \/ nDim = 3%nat) by lia. unfold copies.
  assert (FL : forall b, many nDim b = false -> gzs nDim b = 1 /\ gze nDim ng of a b = 1 /\ cs nDim ng oc a s b = o_s oc b /\ cof nDim ng oc a s b = fun _ => o_s oc b).
  { intros b M. unfold gzs, gze, cs, cof. rewrite M. repeat split. destruct (axis_eqb a b) eqn:Q; [apply axis_eqb_spec in Q; congruence|reflexivity]. }
  assert (FM : forall b, many nDim b = true -> gzs nDim b = 0 /\ cof nDim ng oc a s b = fun x => cs nDim ng oc a s b + x).
  { intros b M. unfold gzs, cof. rewrite M. auto. }
  destruct N as [->|[->| ->]]; cbn [Nat.eqb].
  - destruct K as [[K _]|[_ K]]; [discriminate|]. destruct J as [[J _]|[_ J]]; [discriminate|].
    destruct (FL X3 eq_refl) as (A1 & A2 & A3 & ->). destruct (FL X2 eq_refl) as (B1 & B2 & B3 & ->). destruct (FM X1 eq_refl) as (C1 & ->).
    destruct (D1 eq_refl) as (JK & v & ->). rewrite A1, A2, B1, B2, C1, A3, B3 in H.
    assert (IN : (0 <=? i) && (i <=? gze 1 ng of a X1) = true) by lia. rewrite IN. cbn [andb].
    match goal with |- (if ?b then _ else _) = _ => destruct b eqn:Q end; rewrite H by (lia || auto); f_equal; lia.
  - destruct K as [[K _]|[_ K]]; [discriminate|]. destruct J as [[_ J]|[J _]]; [|discriminate].
    destruct (FL X3 eq_refl) as (A1 & A2 & A3 & ->). destruct (FM X2 eq_refl) as (B1 & ->). destruct (FM X1 eq_refl) as (C1 & ->).
    rewrite A1, A2, B1, C1, A3 in H.
    assert (IN : (0 <=? i) && (i <=? gze 2 ng of a X1) && ((0 <=? j) && (j <=? gze 2 ng of a X2)) = true) by lia. rewrite IN. cbn [andb].
    match goal with |- (if ?b then _ else _) = _ => destruct b eqn:Q end; rewrite H by (lia || auto); f_equal; lia.
  - destruct K as [[_ K]|[K _]]; [|discriminate]. destruct J as [[_ J]|[J _]]; [|discriminate].
    destruct (FM X3 eq_refl) as (A1 & ->). destruct (FM X2 eq_refl) as (B1 & ->). destruct (FM X1 eq_refl) as (C1 & ->).
    rewrite A1, B1, C1 in H. rewrite H by (lia || auto). f_equal; lia.
Qed.

(** ** Elements of a Grid *)
Inductive el := EU (v : var) (k j i : Z) | EB (a : axis) (k j i : Z).
Definition get (g : gst) (e : el) : R :=
  match e with EU v k j i => gU g k j i v | EB X1 k j i => gB1 g k j i | EB X2 k j i => gB2 g k j i | EB X3 k j i => gB3 g k j i end.
Definition epos (e : el) : vec := match e with EU _ k j i => at_ k j i | EB _ k j i => at_ k j i end.
Definition memv (c : cfg) (v : var) : bool := existsb (fun w => if var_eq_dec v w then true else false) (vars c).
Lemma memv_spec : forall c v, memv c v = true <-> In v (vars c).
Proof.
  intros c v. unfold memv. rewrite existsb_exists. split.
  - intros (w & H & E). destruct (var_eq_dec v w); [subst; exact H|discriminate].
  - intros H. exists v. split; [exact H|]. destruct (var_eq_dec v v); congruence.
Qed.
(** The variables of the field are cell-centred copies if there is more than one dimension. *)
Definition isB (v : var) : option axis := match v with VB1 => Some X1 | VB2 => Some X2 | VB3 => Some X3 | _ => None end.
Definition VBof (a : axis) : var := match a with X1 => VB1 | X2 => VB2 | X3 => VB3 end.
Definition xof (p : rv) (a : axis) : Z -> Z -> Z -> R := match a with X1 => x1 p | X2 => x2 p | X3 => x3 p end.
Definition half2 (p : rv) (a : axis) (n m l : Z) : R :=
  match a with X1 => (1/2 * (x1 p n m l + x1 p n m (l + 1)%Z))%R | X2 => (1/2 * (x2 p n m l + x2 p n (m + 1)%Z l))%R | X3 => (1/2 * (x3 p n m l + x3 p (n + 1)%Z m l))%R end.

(** What a block writes. *)
Definition wr (c : cfg) (nDim : nat) (ng : Z) (of : ovl) (a : axis) (s : bool) (q : Z * Z * Z) (e : el) : bool :=
  let '(k, j, i) := q in
  match e with
  | EU v k' j' i' => inblk nDim k j i k' j' i' && memv c v
  | EB b k' j' i' => inblk nDim k j i k' j' i' && c_mhd c && ((nDim =? 1)%nat || negb (axis_eqb a b && s && (at_ k' j' i' b =? ps nDim ng of a s b)))
  end.
Definition bval (c : cfg) (fo : bool) (nDim : nat) (u : stencil (var -> R)) (p : rv) (q : Z * Z * Z) (e : el) : R :=
  let '(k, j, i) := q in
  match e with
  | EU v k' j' i' =>
      match isB v with
      | Some b => if c_mhd c && negb (nDim =? 1)%nat then half2 p b (k' - k) (j' - j) (i' - i) else ProCon c fo u (k' - k) (j' - j) (i' - i) v
      | None => ProCon c fo u (k' - k) (j' - j) (i' - i) v
      end
  | EB b k' j' i' => if (nDim =? 1)%nat then ProCon c fo u (k' - k) (j' - j) (i' - i) (VBof b) else xof p b (k' - k) (j' - j) (i' - i)
  end.
Definition bgz (f : gz) (kk jj ii : Z) : rv := RV (shift f kk jj ii X1) (shift f kk jj ii X2) (shift f kk jj ii X3).
Lemma mem_B : forall c b, c_mhd c = true -> memv c (VBof b) = true.
Proof. intros c b M. apply memv_spec. unfold vars. rewrite M, !in_app_iff. right. right. left. destruct b; cbn; auto. Qed.
Lemma block_keep : forall c fo nDim ng of a s dx1 dx2 dx3 f g q e, wr c nDim ng of a s q e = false ->
  get (block c fo nDim ng of a s dx1 dx2 dx3 f g q) e = get g e.
Proof.
  intros c fo nDim ng of a s dx1 dx2 dx3 f g [[k j] i] e H. unfold block. cbv zeta. fold (memv c).
  destruct e as [v k' j' i'|b k' j' i']; cbn [wr] in H.
  - destruct (c_mhd c) eqn:M; cbn [negb].
    + destruct (nDim =? 1)%nat; cbn [get gU]; fold (memv c v); [rewrite H; reflexivity|].
      destruct (inblk nDim k j i k' j' i'); cbn [andb] in *; [|reflexivity].
      destruct v; rewrite ?H; try reflexivity; exfalso; [pose proof (mem_B c X1 M)|pose proof (mem_B c X2 M)|pose proof (mem_B c X3 M)]; cbn [VBof] in *; congruence.
    + cbn [get gU]. fold (memv c v). rewrite H. reflexivity.
  - destruct (c_mhd c) eqn:M; cbn [negb]; [|destruct b; reflexivity].
    destruct (nDim =? 1)%nat; cbn [orb] in H; rewrite ?andb_true_r in H.
    + destruct b; cbn [get gB1 gB2 gB3]; rewrite H; reflexivity.
    + destruct b; cbn [get gB1 gB2 gB3 at_] in *; rewrite H; reflexivity.
Qed.
Lemma block_get : forall c fo nDim ng of a s dx1 dx2 dx3 f g q e, wr c nDim ng of a s q e = true ->
  let '(k, j, i) := q in
  let kk := gi nDim ng of a s X3 k in let jj := gi nDim ng of a s X2 j in let ii := gi nDim ng of a s X1 i in
  get (block c fo nDim ng of a s dx1 dx2 dx3 f g q) e =
  bval c fo nDim (stenc f kk jj ii) (ProFld fo (bgz f kk jj ii) (iface nDim ng of a s g k j i) dx1 dx2 dx3) q e.
Proof.
  intros c fo nDim ng of a s dx1 dx2 dx3 f g [[k j] i] e H. cbv zeta. unfold block. cbv zeta. fold (gi nDim ng of a s X3 k) (gi nDim ng of a s X2 j) (gi nDim ng of a s X1 i).
  set (kk := gi nDim ng of a s X3 k). set (jj := gi nDim ng of a s X2 j). set (ii := gi nDim ng of a s X1 i). fold (bgz f kk jj ii).
  set (p := ProFld _ _ _ _ _ _). clearbody p kk jj ii.
  destruct e as [v k' j' i'|b k' j' i']; cbn [wr] in H; cbn [bval].
  - apply andb_true_iff in H. destruct H as [H1 H2].
    destruct (c_mhd c) eqn:M; cbn [negb andb].
    + destruct (nDim =? 1)%nat; cbn [negb].
      * cbn [get gU]. fold (memv c v). rewrite H1, H2. cbn [andb]. destruct (isB v); reflexivity.
      * cbn [get gU]. fold (memv c v). rewrite H1. cbn [andb]. destruct v; cbn [isB half2]; rewrite ?H2; reflexivity.
    + cbn [get gU]. fold (memv c v). rewrite H1, H2. cbn [andb]. destruct (isB v); reflexivity.
  - apply andb_true_iff in H. destruct H as [H1 H2]. apply andb_true_iff in H1. destruct H1 as [H1 M]. rewrite M. cbn [negb].
    destruct (nDim =? 1)%nat; cbn [orb] in H2.
    + destruct b; cbn [get gB1 gB2 gB3 VBof]; rewrite H1; cbn [andb]; [pose proof (mem_B c X1 M) as W|pose proof (mem_B c X2 M) as W|pose proof (mem_B c X3 M) as W]; unfold memv in W; cbn [VBof] in W; rewrite W; reflexivity.
    + destruct b; cbn [get gB1 gB2 gB3 at_ xof] in *; rewrite H1, H2; reflexivity.
Qed.

(** A sequence of steps that write disjoint sets of elements and read only elements that are
    not written. *)
Lemma fold_steps : forall {Q : Type} (step : gst -> Q -> gst) (w : Q -> el -> bool) (fx : el -> Prop) (l : list Q), NoDup l ->
  (forall g q e, In q l -> w q e = false -> get (step g q) e = get g e) ->
  (forall g g' q e, In q l -> (forall e, fx e -> get g e = get g' e) -> w q e = true -> get (step g q) e = get (step g' q) e) ->
  (forall q e, In q l -> fx e -> w q e = false) ->
  (forall q q' e, In q l -> In q' l -> w q e = true -> w q' e = true -> q = q') ->
  forall g e, (forall q, In q l -> w q e = true -> get (fold_left step l g) e = get (step g q) e) /\
              ((forall q, In q l -> w q e = false) -> get (fold_left step l g) e = get g e).
Proof.
  intros Q step w fx l ND K D F U.
  assert (FX : forall l' g e, (forall q, In q l' -> In q l) -> (forall q, In q l' -> w q e = false) -> get (fold_left step l' g) e = get g e).
  { intros l'. induction l' as [|q l' IH]; intros g e S N; [reflexivity|]. cbn [fold_left]. rewrite IH; [|intros; apply S; right; auto|intros; apply N; right; auto].
    apply K; [apply S; left; reflexivity|apply N; left; reflexivity]. }
  intros g e. split; [|apply FX; auto].
  intros q Hq Wq. apply in_split in Hq. destruct Hq as (l1 & l2 & E).
  assert (S1 : forall x, In x l1 -> In x l) by (intros x X; rewrite E; apply in_or_app; auto).
  assert (S2 : forall x, In x l2 -> In x l) by (intros x X; rewrite E; apply in_or_app; right; right; auto).
  assert (Sq : In q l) by (rewrite E; apply in_or_app; right; left; reflexivity).
  rewrite E in ND. pose proof (NoDup_remove_2 _ _ _ ND) as NI.
  rewrite E, fold_left_app. cbn [fold_left]. rewrite FX; [|exact S2|].
  - apply D; [exact Sq| |exact Wq]. intros e' H'. apply FX; [exact S1|]. intros x X. apply F; auto.
  - intros x X. destruct (w x e) eqn:W; [|reflexivity]. exfalso. apply NI. apply in_or_app. right. rewrite (U q x e Sq (S2 x X) Wq W). exact X.
Qed.

(** ** The blocks of a pass *)
Lemma in_upto2 : forall s e x, In x (upto2 s e) <-> s <= x <= e /\ (x - s) mod 2 = 0.
Proof.
  intros s e x. unfold upto2. rewrite in_map_iff. split.
  - intros (n & <- & H). apply in_seq in H. split; [Z.div_mod_to_equations; lia|]. replace (s + 2 * Z.of_nat n - s) with (Z.of_nat n * 2) by lia. apply Z_mod_mult.
  - intros (H & E). exists (Z.to_nat ((x - s) / 2)). split; [Z.div_mod_to_equations; lia|]. apply in_seq. Z.div_mod_to_equations; lia.
Qed.
Lemma nodup_upto2 : forall s e, NoDup (upto2 s e).
Proof. intros s e. unfold upto2. apply Injective_map_NoDup; [intros x y H; lia|apply seq_NoDup]. Qed.
Definition blocks (nDim : nat) (ng : Z) (of : ovl) (a : axis) (s : bool) : list (Z * Z * Z) :=
  cells3 (upto2 (ps nDim ng of a s X3) (pe nDim ng of a s X3)) (upto2 (ps nDim ng of a s X2) (pe nDim ng of a s X2)) (upto2 (ps nDim ng of a s X1) (pe nDim ng of a s X1)).
Definition vof (q : Z * Z * Z) : vec := let '(k, j, i) := q in at_ k j i.
Lemma in_blocks : forall nDim ng of a s q, In q (blocks nDim ng of a s) <-> forall b, ps nDim ng of a s b <= vof q b <= pe nDim ng of a s b /\ (vof q b - ps nDim ng of a s b) mod 2 = 0.
Proof.
  intros nDim ng of a s [[k j] i]. unfold blocks. rewrite in_cells3, !in_upto2. split.
  - intros (A & B & C) []; cbn; assumption.
  - intros H. pose proof (H X1). pose proof (H X2). pose proof (H X3). cbn in *. auto.
Qed.
Lemma inblk_spec : forall nDim k j i k' j' i', inblk nDim k j i k' j' i' = true <-> forall b, at_ k j i b <= at_ k' j' i' b <= at_ k j i b + nb nDim b 1.
Proof.
  intros. unfold inblk, nb. split.
  - intros H b. destruct b; cbn [at_] in *; destruct (many nDim X2), (many nDim X3); cbn [many] in *; lia.
  - intros H. pose proof (H X1). pose proof (H X2). pose proof (H X3). cbn [at_] in *. cbn [many] in *. destruct (many nDim X2), (many nDim X3); cbn [many] in *; lia.
Qed.
(** The ghost zones of a boundary. *)
Definition regn (nDim : nat) (ng : Z) (of : ovl) (a : axis) (s : bool) (p : vec) : Prop := forall b, ps nDim ng of a s b <= p b <= pe nDim ng of a s b.
Lemma sizes : forall c nDim ng oc of a s b, paired c nDim oc of -> evn ng -> many nDim a = true ->
  if many nDim b then (ps nDim ng of a s b - o_s of b) mod 2 = 0 /\ (pe nDim ng of a s b - ps nDim ng of a s b) mod 2 = 1
  else ps nDim ng of a s b = o_s of b /\ pe nDim ng of a s b = o_s of b.
Proof.
  intros c nDim ng oc of a s b P [E0 E1] MA. unfold ps, pe. destruct (pd_len _ _ _ _ P b) as (L & L0). pose proof (pd_flat _ _ _ _ P b) as F.
  rewrite many_ratio in L, F by apply (pd_dim _ _ _ _ P). unfold len in *. destruct (many nDim b) eqn:M.
  - destruct (axis_eqb a b), s; cbn [andb negb]; Z.div_mod_to_equations; lia.
  - destruct (axis_eqb a b) eqn:Q; [apply axis_eqb_spec in Q; congruence|]. cbn [andb]. specialize (F eq_refl). lia.
Qed.
Definition bq (nDim : nat) (of : ovl) (e : el) : Z * Z * Z := (base1 nDim of X3 (epos e X3), base1 nDim of X2 (epos e X2), base1 nDim of X1 (epos e X1)).
Lemma vof_bq : forall nDim of e b, vof (bq nDim of e) b = base1 nDim of b (epos e b).
Proof. intros nDim of e []; reflexivity. Qed.
Lemma bq_in : forall c nDim ng oc of a s e, paired c nDim oc of -> evn ng -> many nDim a = true -> regn nDim ng of a s (epos e) -> In (bq nDim of e) (blocks nDim ng of a s).
Proof.
  intros c nDim ng oc of a s e P E MA RG. apply in_blocks. intros b. rewrite vof_bq. pose proof (sizes c nDim ng oc of a s b P E MA) as S. specialize (RG b).
  unfold base1, par. destruct (many nDim b); [|rewrite Z.sub_0_r; destruct S as (S1 & S2); replace (epos e b - ps nDim ng of a s b) with 0 by lia; split; [lia|reflexivity]].
  Z.div_mod_to_equations; lia.
Qed.
Lemma bq_blk : forall nDim of e k j i, bq nDim of e = (k, j, i) -> inblk nDim k j i (epos e X3) (epos e X2) (epos e X1) = true.
Proof.
  intros nDim of e k j i H. apply inblk_spec. intros b.
  assert (V : at_ k j i b = base1 nDim of b (epos e b)) by (rewrite <- vof_bq, H; reflexivity). rewrite V.
  replace (at_ (epos e X3) (epos e X2) (epos e X1) b) with (epos e b) by (destruct b; reflexivity). unfold base1, par, nb.
  destruct (many nDim b); [Z.div_mod_to_equations; lia|lia].
Qed.
(** A block that contains an element starts at [bq] of it. *)
Lemma blk_bq : forall c nDim ng oc of a s e k j i, paired c nDim oc of -> evn ng -> many nDim a = true -> In (k, j, i) (blocks nDim ng of a s) ->
  inblk nDim k j i (epos e X3) (epos e X2) (epos e X1) = true -> (k, j, i) = bq nDim of e /\ regn nDim ng of a s (epos e).
Proof.
  intros c nDim ng oc of a s e k j i P E MA IN BL. rewrite in_blocks in IN. rewrite inblk_spec in BL.
  assert (H : forall b, at_ k j i b = base1 nDim of b (epos e b) /\ ps nDim ng of a s b <= epos e b <= pe nDim ng of a s b).
  { intros b. specialize (IN b). specialize (BL b). cbn [vof] in IN. replace (at_ (epos e X3) (epos e X2) (epos e X1) b) with (epos e b) in BL by (destruct b; reflexivity).
    pose proof (sizes c nDim ng oc of a s b P E MA) as S. unfold base1, par. unfold nb in BL. destruct (many nDim b); [|lia]. Z.div_mod_to_equations; lia. }
  split; [|intros b; apply H]. unfold bq. destruct (H X1) as [H1 _], (H X2) as [H2 _], (H X3) as [H3 _]. cbn in H1, H2, H3. congruence.
Qed.

(** ** One pass *)
(** What a pass writes. *)
Definition wp (c : cfg) (nDim : nat) (ng : Z) (of : ovl) (a : axis) (s : bool) (e : el) : Prop :=
  regn nDim ng of a s (epos e) /\
  match e with
  | EU v _ _ _ => In v (vars c)
  | EB b _ _ _ => c_mhd c = true /\ (nDim <> 1%nat -> ~ (a = b /\ s = true /\ epos e b = ps nDim ng of a s b))
  end.
Definition state (c : cfg) (fo : bool) (nDim : nat) (ng : Z) (of : ovl) (dx1 dx2 dx3 : R) (a : axis) (s : bool) (f : gz) (g : gst) : gst :=
  fold_left (block c fo nDim ng of a s dx1 dx2 dx3 f) (blocks nDim ng of a s) g.
(** Entries of ProlongedF that are used. *)
Definition bit (n : Z) : Prop := n = 0 \/ n = 1.
Definition trit (n : Z) : Prop := n = 0 \/ n = 1 \/ n = 2.
Definition eqouter (p p' : rv) : Prop := forall n m l, bit n -> bit m -> (l = 0 \/ l = 2) -> x1 p n m l = x1 p' n m l /\ x2 p n l m = x2 p' n l m /\ x3 p l n m = x3 p' l n m.
Definition eqrv (p p' : rv) : Prop := forall n m l, bit n -> bit m -> trit l -> x1 p n m l = x1 p' n m l /\ x2 p n l m = x2 p' n l m /\ x3 p l n m = x3 p' l n m.
Lemma interior_ext : forall p p' dx1 dx2 dx3, eqouter p p' -> eqrv (interior p dx1 dx2 dx3) (interior p' dx1 dx2 dx3).
Proof.
  intros p p' dx1 dx2 dx3 H.
  assert (H1 : forall n m l, bit n -> bit m -> (l = 0 \/ l = 2) -> x1 p n m l = x1 p' n m l) by (intros; apply (H n m l); auto).
  assert (H2 : forall n m l, bit n -> bit m -> (l = 0 \/ l = 2) -> x2 p n l m = x2 p' n l m) by (intros; apply (H n m l); auto).
  assert (H3 : forall n m l, bit n -> bit m -> (l = 0 \/ l = 2) -> x3 p l n m = x3 p' l n m) by (intros; apply (H n m l); auto).
  assert (B0 : bit 0) by (left; reflexivity). assert (B1 : bit 1) by (right; reflexivity).
  intros n m l N M L. unfold interior, sum4. cbn [x1 x2 x3]. change (2 * 0) with 0. change (2 * 1) with 2.
  rewrite (H1 0 0 0), (H1 0 0 2), (H1 0 1 0), (H1 0 1 2), (H1 1 0 0), (H1 1 0 2), (H1 1 1 0), (H1 1 1 2) by auto.
  rewrite (H2 0 0 0), (H2 0 0 2), (H2 0 1 0), (H2 0 1 2), (H2 1 0 0), (H2 1 0 2), (H2 1 1 0), (H2 1 1 2) by auto.
  rewrite (H3 0 0 0), (H3 0 0 2), (H3 0 1 0), (H3 0 1 2), (H3 1 0 0), (H3 1 0 2), (H3 1 1 0), (H3 1 1 2) by auto.
  rewrite (H1 n m 0), (H1 n m 2), (H2 n m 0), (H2 n m 2), (H3 n m 0), (H3 n m 2) by auto.
  destruct (Z.eqb_spec l 1); [auto|]. rewrite (H1 n m l), (H2 n m l), (H3 n m l); auto; destruct L as [?|[?|?]]; auto; contradiction.
Qed.
Lemma outer_ext : forall fo b p p', eqouter p p' -> eqouter (outer fo b p) (outer fo b p').
Proof.
  intros fo b p p' H n m l N M L.
  assert (B0 : bit 0) by (left; reflexivity).
  destruct (H n m l N M L) as (A1 & A2 & A3). destruct (H 0 0 l B0 B0 L) as (C1 & C2 & C3).
  unfold outer. cbn [x1 x2 x3]. rewrite A1, A2, A3, C1, C2, C3. auto.
Qed.
Lemma bval_ext : forall c fo nDim u p p' e of, (1 <= nDim <= 3)%nat -> eqrv p p' -> bval c fo nDim u p (bq nDim of e) e = bval c fo nDim u p' (bq nDim of e) e.
Proof.
  intros c fo nDim u p p' e of ND H.
  assert (B : forall b, bit (epos e b - base1 nDim of b (epos e b))).
  { intros b. unfold base1, par, bit. destruct (many nDim b); [Z.div_mod_to_equations; lia|lia]. }
  assert (T : forall n, bit n -> trit n /\ trit (n + 1)) by (intros n [-> | ->]; unfold trit; lia).
  pose proof (B X1) as B1. pose proof (B X2) as B2. pose proof (B X3) as B3.
  destruct e as [v k j i|b k j i]; cbn [bval bq epos at_] in *.
  - destruct (isB v) as [b|]; [|reflexivity]. destruct (c_mhd c && negb (nDim =? 1)%nat); [|reflexivity].
    destruct (T _ B1), (T _ B2), (T _ B3).
    destruct b; cbn [half2].
    + f_equal. f_equal; apply H; auto.
    + f_equal. f_equal; [eapply (proj1 (proj2 (H _ _ _ B3 B1 _)))|eapply (proj1 (proj2 (H _ _ _ B3 B1 _)))].
    + f_equal. f_equal; [eapply (proj2 (proj2 (H _ _ _ B2 B1 _)))|eapply (proj2 (proj2 (H _ _ _ B2 B1 _)))].
      Unshelve. all: auto.
  - destruct (nDim =? 1)%nat; [reflexivity|]. destruct (T _ B1), (T _ B2), (T _ B3). destruct b; cbn [xof].
    + apply H; auto.
    + eapply (proj1 (proj2 (H _ _ _ B3 B1 _))).
    + eapply (proj2 (proj2 (H _ _ _ B2 B1 _))). Unshelve. all: auto.
Qed.
(** The plane of the interface. *)
Definition plane (of : ovl) (a : axis) (s : bool) : Z := if s then o_e of a + 1 else o_s of a.
Lemma iface_ext : forall nDim ng of a s g g' k j i,
  (forall k j i, at_ k j i a = plane of a s -> get g (EB a k j i) = get g' (EB a k j i)) -> eqouter (iface nDim ng of a s g k j i) (iface nDim ng of a s g' k j i).
Proof.
  intros nDim ng of a s g g' k j i H.
  assert (PL : ps nDim ng of a true a = plane of a true /\ pe nDim ng of a false a + 1 = plane of a false) by (unfold ps, pe, plane; destruct a; cbn; lia). destruct PL as [PT PF].
  intros n m l N M L. unfold iface.
  destruct a; cbn [get at_] in H.
  - destruct s.
    + destruct (i =? ps nDim ng of X1 true X1) eqn:Q; cbn [andb]; [|cbn; auto]. destruct (inrange nDim ng of X1 true X2 j); cbn [x1 x2 x3]; [|auto].
      split; [|auto]. destruct (Z.eqb_spec l 0); [|reflexivity]. apply H. lia.
    + destruct (i =? pe nDim ng of X1 false X1 - 1) eqn:Q; cbn [andb]; [|cbn; auto]. destruct (inrange nDim ng of X1 false X2 j); cbn [x1 x2 x3]; [|auto].
      split; [|auto]. destruct (Z.eqb_spec l 2); [|reflexivity]. apply H. lia.
  - destruct s.
    + destruct (j =? ps nDim ng of X2 true X2) eqn:Q; cbn [andb]; [|cbn; auto]. destruct (inrange nDim ng of X2 true X1 i); cbn [x1 x2 x3]; [|auto].
      split; [auto|]. split; [|auto]. destruct (Z.eqb_spec l 0); [|reflexivity]. apply H. lia.
    + destruct (j =? pe nDim ng of X2 false X2 - 1) eqn:Q; cbn [andb]; [|cbn; auto]. destruct (inrange nDim ng of X2 false X1 i); cbn [x1 x2 x3]; [|auto].
      split; [auto|]. split; [|auto]. destruct (Z.eqb_spec l 2); [|reflexivity]. apply H. lia.
  - destruct s.
    + destruct (k =? ps nDim ng of X3 true X3) eqn:Q; cbn [andb]; [|cbn; auto]. destruct (inrange nDim ng of X3 true X1 i); cbn [x1 x2 x3 andb]; [|auto]. destruct (inrange nDim ng of X3 true X2 j); cbn [x1 x2 x3 andb]; [|auto].
      split; [auto|]. split; [auto|]. destruct (Z.eqb_spec l 0); [|reflexivity]. apply H. lia.
    + destruct (k =? pe nDim ng of X3 false X3 - 1) eqn:Q; cbn [andb]; [|cbn; auto]. destruct (inrange nDim ng of X3 false X1 i); cbn [x1 x2 x3 andb]; [|auto]. destruct (inrange nDim ng of X3 false X2 j); cbn [x1 x2 x3 andb]; [|auto].
      split; [auto|]. split; [auto|]. destruct (Z.eqb_spec l 2); [|reflexivity]. apply H. lia.
Qed.
Lemma wr_wp : forall c nDim ng oc of a s q e, paired c nDim oc of -> evn ng -> many nDim a = true -> In q (blocks nDim ng of a s) ->
  (wr c nDim ng of a s q e = true <-> q = bq nDim of e /\ wp c nDim ng of a s e).
Proof.
  intros c nDim ng oc of a s [[k j] i] e P E MA IN.
  assert (S : inblk nDim k j i (epos e X3) (epos e X2) (epos e X1) = true <-> (k, j, i) = bq nDim of e /\ regn nDim ng of a s (epos e)).
  { split; [intros H; eapply blk_bq; eauto|]. intros [H _]. eapply bq_blk. symmetry. exact H. }
  unfold wp. destruct e as [v k' j' i'|b k' j' i']; cbn [wr epos at_] in *.
  - rewrite andb_true_iff, memv_spec, S. tauto.
  - rewrite !andb_true_iff, S, orb_true_iff, negb_true_iff, Nat.eqb_eq.
    assert (SK : (nDim = 1%nat \/ axis_eqb a b && s && (at_ k' j' i' b =? ps nDim ng of a s b) = false) <-> (nDim <> 1%nat -> ~ (a = b /\ s = true /\ at_ k' j' i' b = ps nDim ng of a s b))).
    { rewrite !andb_false_iff. split.
      - intros [H|H] N; [contradiction|]. intros (A1 & A2 & A3). destruct H as [[H|H]|H]; [|congruence|apply Z.eqb_neq in H; contradiction]. subst b. destruct a; discriminate.
      - intros H. destruct (Nat.eq_dec nDim 1) as [N|N]; [left; exact N|right]. specialize (H N). destruct (axis_eqb a b) eqn:Q1; [|auto]. apply axis_eqb_spec in Q1. destruct s; [|auto]. right. apply Z.eqb_neq. intros Q. apply H. auto. }
    tauto.
Qed.
Lemma pass_get : forall c fo nDim ng oc of a s dx1 dx2 dx3 f g e, paired c nDim oc of -> evn ng -> many nDim a = true ->
  (wp c nDim ng of a s e -> let '(k, j, i) := bq nDim of e in
     let kk := gi nDim ng of a s X3 k in let jj := gi nDim ng of a s X2 j in let ii := gi nDim ng of a s X1 i in
     get (state c fo nDim ng of dx1 dx2 dx3 a s f g) e =
     bval c fo nDim (stenc f kk jj ii) (ProFld fo (bgz f kk jj ii) (iface nDim ng of a s g k j i) dx1 dx2 dx3) (k, j, i) e) /\
  (~ wp c nDim ng of a s e -> get (state c fo nDim ng of dx1 dx2 dx3 a s f g) e = get g e).
Proof.
  intros c fo nDim ng oc of a s dx1 dx2 dx3 f g e P E MA. pose proof (pd_dim _ _ _ _ P) as ND.
  set (fx := fun e => nDim <> 1%nat /\ match e with EB b _ _ _ => b = a /\ epos e a = plane of a s | _ => False end).
  destruct (fold_steps (block c fo nDim ng of a s dx1 dx2 dx3 f) (wr c nDim ng of a s) fx (blocks nDim ng of a s)) with (g := g) (e := e) as [S1 S2].
  - apply nodup_cells3; apply nodup_upto2.
  - intros g0 q e0 _. apply block_keep.
  - intros g0 g1 q e0 IN FX W. pose proof (block_get c fo nDim ng of a s dx1 dx2 dx3 f g0 q e0 W) as G0. pose proof (block_get c fo nDim ng of a s dx1 dx2 dx3 f g1 q e0 W) as G1.
    apply (wr_wp c nDim ng oc of a s q e0 P E MA IN) in W. destruct W as [-> W]. destruct (bq nDim of e0) as [[k j] i] eqn:Q. cbv zeta in G0, G1. rewrite G0, G1, <- Q.
    destruct (Nat.eq_dec nDim 1) as [N|N].
    + subst nDim. destruct e0; cbn [bval bq]; [destruct (isB v)|]; cbn [Nat.eqb negb]; rewrite ?andb_false_r; reflexivity.
    + apply bval_ext; [exact ND|]. apply interior_ext, outer_ext, iface_ext. intros k0 j0 i0 H. apply FX. split; [exact N|]. split; [reflexivity|exact H].
  - intros q e0 IN [N F]. destruct (wr c nDim ng of a s q e0) eqn:W; [|reflexivity]. exfalso.
    apply (wr_wp c nDim ng oc of a s q e0 P E MA IN) in W. destruct W as [_ [RG W]]. destruct e0 as [|b k j i]; [contradiction|]. destruct F as [-> F]. destruct W as [_ W].
    specialize (RG a). destruct s.
    + apply (W N). repeat split. rewrite F. unfold plane, ps. destruct a; reflexivity.
    + unfold pe in RG. rewrite F in RG. unfold plane in RG. destruct a; cbn [axis_eqb andb negb] in RG; lia.
  - intros q q' e0 I1 I2 W1 W2. apply (wr_wp c nDim ng oc of a s q e0 P E MA I1) in W1. apply (wr_wp c nDim ng oc of a s q' e0 P E MA I2) in W2. destruct W1, W2. congruence.
  - split.
    + intros W. assert (IN : In (bq nDim of e) (blocks nDim ng of a s)) by (apply (bq_in c nDim ng oc); auto; apply W).
      assert (W' : wr c nDim ng of a s (bq nDim of e) e = true) by (apply (wr_wp c nDim ng oc of a s _ e P E MA IN); auto).
      specialize (S1 _ IN W'). pose proof (block_get c fo nDim ng of a s dx1 dx2 dx3 f g (bq nDim of e) e W') as G0. destruct (bq nDim of e) as [[k j] i]. cbv zeta in *. unfold state. rewrite S1. exact G0.
    + intros W. apply S2. intros q IN. destruct (wr c nDim ng of a s q e) eqn:Q; [|reflexivity]. exfalso. apply W. apply (wr_wp c nDim ng oc of a s q e P E MA IN) in Q. apply Q.
Qed.
