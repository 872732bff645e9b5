(** * Parent and child Grids agree on their overlap (C72) *)
From Coq Require Import Reals ZArith List Bool Arith Lia ZifyBool.
From Verif Require Import CStr MeshModel SmrModel.
Import ListNotations.
Open Scope Z_scope.

(** A Grid of the coarse Domain [pa] and one of the fine Domain [ch]: along every axis of
    the problem both have more than one cell and the edges of the fine Grid and Domain are
    even, and the other axes have one cell. *)
Definition aligned (nDim : nat) (pa : domain) (gp : gidx) (ch : domain) (gc : gidx) : Prop :=
  (1 <= nDim <= 3)%nat /\ forall a,
    let P := gDisp pa a (gi_ax gp a) in let pN := gNx pa a (gi_ax gp a) in
    let C := gDisp ch a (gi_ax gc a) in let cN := gNx ch a (gi_ax gc a) in
    if existsb (axis_eqb a) (axes nDim)
    then 1 < pN /\ 1 < cN /\ 1 < dm_Nx ch a /\ (2 | C) /\ (2 | cN) /\ (2 | dm_Disp ch a) /\ (2 | dm_Nx ch a)
    else P = 0 /\ pN = 1 /\ C = 0 /\ cN = 1 /\ dm_Nx ch a = 1 /\ dm_Disp ch a = 0 /\ dm_Nx pa a = 1 /\ dm_Disp pa a = 0.
(** Extent of the region of an entry along an axis, and its first cell counted from the
    edge of the level. *)
Definition len (o : ovl) (a : axis) : Z := o_e o a - o_s o a + 1.
(** Number of fine cells per coarse cell along an axis. *)
Definition ratio (nDim : nat) (a : axis) : Z := if existsb (axis_eqb a) (axes nDim) then 2 else 1.

Definition flags (oc of : ovl) : Prop := forall a s,
  some (o_flx oc a s) = some (o_flx of a s) /\ some (o_emf1 oc a s) = some (o_emf1 of a s) /\
  some (o_emf2 oc a s) = some (o_emf2 of a s) /\ some (o_emf3 oc a s) = some (o_emf3 of a s).
(** The extents of the flux and EMF arrays of an entry are those of its region. *)
Definition slow (o : ovl) (a : axis) : Z := match a with X3 => len o X2 | _ => len o X3 end.
Definition fast (o : ovl) (a : axis) : Z := match a with X1 => len o X2 | _ => len o X1 end.
Definition extents (o : ovl) : Prop := forall a s,
  (forall x, o_flx o a s = Some x -> x = (slow o a, fast o a)) /\
  (forall x, o_emf3 o a s = Some x -> x = (slow o a, fast o a + 1)) /\
  (forall x, o_emf1 o a s = Some x -> x = (slow o a + 1, fast o a)) /\
  (forall x, o_emf2 o a s = Some x -> x = match a with X3 => (slow o a, fast o a + 1) | _ => (slow o a + 1, fast o a) end).

Definition rel (oc of : ovl) : Prop := o_nRC oc = o_nRC of /\ o_nP oc = o_nP of /\ flags oc of.

Lemma some_set : forall f g a s x y, (forall b t, some (f b t) = some (g b t)) ->
  forall b t, some (set_arr f a s x b t) = some (set_arr g a s y b t).
Proof. intros. unfold set_arr. destruct (axis_eqb a b && Bool.eqb s t); auto. Qed.

Ltac relflag := repeat split; cbn; try lia; try (apply some_set; auto); try (match goal with F : flags _ _ |- _ => apply F end); auto.

Lemma fl1 : forall oc of, flags oc of -> forall b t, some (o_flx oc b t) = some (o_flx of b t). Proof. intros oc of F b t. apply F. Qed.
Lemma fl2 : forall oc of, flags oc of -> forall b t, some (o_emf1 oc b t) = some (o_emf1 of b t). Proof. intros oc of F b t. apply F. Qed.
Lemma fl3 : forall oc of, flags oc of -> forall b t, some (o_emf2 oc b t) = some (o_emf2 of b t). Proof. intros oc of F b t. apply F. Qed.
Lemma fl4 : forall oc of, flags oc of -> forall b t, some (o_emf3 oc b t) = some (o_emf3 of b t). Proof. intros oc of F b t. apply F. Qed.

Lemma rel_RC : forall n oc of, rel oc of -> rel (add_RC n oc) (add_RC n of).
Proof. intros n oc of (A & B & F). split; [cbn; lia|]. split; [cbn; lia|]. intros a s. cbn. apply F. Qed.
Lemma rel_P : forall n oc of, rel oc of -> rel (add_P n oc) (add_P n of).
Proof. intros n oc of (A & B & F). split; [cbn; lia|]. split; [cbn; lia|]. intros a s. cbn. apply F. Qed.
Lemma rel_flx : forall a s x y oc of, rel oc of -> rel (new_flx a s x oc) (new_flx a s y of).
Proof. intros a s x y oc of (A & B & F). split; [exact A|]. split; [exact B|]. intros b t. cbn. repeat split; try apply F. apply some_set. exact (fl1 _ _ F). Qed.
Lemma rel_emf1 : forall a s x y oc of, rel oc of -> rel (new_emf1 a s x oc) (new_emf1 a s y of).
Proof. intros a s x y oc of (A & B & F). split; [exact A|]. split; [exact B|]. intros b t. cbn. repeat split; try apply F. apply some_set. exact (fl2 _ _ F). Qed.
Lemma rel_emf2 : forall a s x y oc of, rel oc of -> rel (new_emf2 a s x oc) (new_emf2 a s y of).
Proof. intros a s x y oc of (A & B & F). split; [exact A|]. split; [exact B|]. intros b t. cbn. repeat split; try apply F. apply some_set. exact (fl3 _ _ F). Qed.
Lemma rel_emf3 : forall a s x y oc of, rel oc of -> rel (new_emf3 a s x oc) (new_emf3 a s y of).
Proof. intros a s x y oc of (A & B & F). split; [exact A|]. split; [exact B|]. intros b t. cbn. repeat split; try apply F. apply some_set. exact (fl4 _ _ F). Qed.

Lemma half_half : forall n, 0 <= n -> half (2 * n) = n.
Proof. intros n H. unfold half. destruct (Z.ltb_spec 1 (2 * n)); [|lia]. rewrite Z.mul_comm, Z.div_mul; lia. Qed.
Lemma half_1 : half 1 = 1. Proof. reflexivity. Qed.

Lemma face_rel : forall ng c pNx cNx Gc Gf a s oc of,
  (forall b, 0 <= ext Gc b) ->
  (forall b, (ext Gf b = 2 * ext Gc b) \/ (ext Gf b = 1 /\ ext Gc b = 1)) ->
  (forall b, (1 <? pNx b) = (1 <? cNx b)) ->
  rel oc of -> rel (cface ng c pNx Gc a s oc) (pface ng c cNx Gf a s of).
Proof.
  intros ng c pNx cNx Gc Gf a s oc of NN E N Q. unfold cface, pface.
  destruct (n12z Gc a) as [m1 m2] eqn:Em. destruct (n12z Gf a) as [f1 f2] eqn:Ef.
  assert (K : half f1 = m1 /\ half f2 = m2 /\ (0 <? f1 * f2) = (0 <? m1 * m2)).
  { assert (J : forall b, half (ext Gf b) = ext Gc b).
    { intros b. destruct (E b) as [H|[H1 H2]]; [rewrite H; apply half_half; auto|rewrite H1, H2; reflexivity]. }
    assert (J2 : forall b d, (0 <? ext Gf b * ext Gf d) = (0 <? ext Gc b * ext Gc d)).
    { intros b d. pose proof (NN b). pose proof (NN d). destruct (E b) as [Q1|[Q1 Q2]]; destruct (E d) as [Q3|[Q3 Q4]]; rewrite ?Q1, ?Q3, ?Q2, ?Q4; nia. }
    destruct a; cbn in Em, Ef; injection Em as <- <-; injection Ef as <- <-; repeat split; auto. }
  destruct K as (K1 & K2 & K3). rewrite K1, K2, K3.
  assert (V : (0 <? ext Gf X1 * ext Gf X2 * ext Gf X3) = (0 <? ext Gc X1 * ext Gc X2 * ext Gc X3)).
  { destruct (E X1) as [H2|[H2 H3]]; destruct (E X2) as [H4|[H4 H5]]; destruct (E X3) as [H6|[H6 H7]];
    rewrite ?H2, ?H4, ?H6, ?H3, ?H5, ?H7; try (match goal with |- context [0 <? ?x] => match goal with |- _ = (0 <? ?y) => first [replace x with (8 * y) by ring|replace x with (4 * y) by ring|replace x with (2 * y) by ring|idtac] end end); lia. }
  cbv zeta. rewrite V, <- !N. clear K1 K2 K3 Em Ef V.
  assert (Q1 : rel (add_RC (m1 * m2 * NVAR c) oc) (add_RC (m1 * m2 * NVAR c) of)) by (apply rel_RC; auto).
  match goal with |- context [add_P ?n (add_RC ?m oc)] => assert (Q2 : rel (add_P n (add_RC m oc)) (add_P n (add_RC m of))) by (apply rel_P; auto) end.
  clear Q Q1. match goal with Q2 : rel ?x ?y |- _ => generalize dependent x; generalize dependent y end.
  intros y x Q. destruct (0 <? m1 * m2); [|auto]. destruct (c_mhd c); [|apply rel_flx; auto].
  match goal with |- context [add_P ?n (new_flx a s (m2, m1) x)] => set (n0 := n) end.
  repeat (match goal with |- context [if ?b then _ else _] => destruct b end);
  repeat (first [apply rel_emf3|apply rel_emf2|apply rel_emf1|apply rel_flx|apply rel_RC|apply rel_P]; auto).
Qed.

Lemma dims_rel : forall ng c root pNx cNx ch gc G2 Gc G1 Gf (l : list axis) oc of,
  (forall b, 0 <= ext Gc b) ->
  (forall b, (ext Gf b = 2 * ext Gc b) \/ (ext Gf b = 1 /\ ext Gc b = 1)) ->
  (forall b, (1 <? pNx b) = (1 <? cNx b)) ->
  (forall b, In b l -> (bl G2 b =? bl Gc b) = (bl G1 b =? bl Gf b) /\ (br G2 b =? br Gc b) = (br G1 b =? br Gf b)) ->
  rel oc of -> rel (fold_left (cdim ng c root pNx ch gc G2 Gc) l oc) (fold_left (pdim ng c root cNx ch gc G1 Gf) l of).
Proof.
  intros ng c root pNx cNx ch gc G2 Gc G1 Gf l. induction l as [|a l IH]; intros oc of NN E N B Q; [exact Q|].
  cbn [fold_left]. apply IH; auto; [intros b I; apply B; right; auto|].
  destruct (B a (or_introl eq_refl)) as [B1 B2]. unfold cdim, pdim. rewrite B1, B2. cbv zeta.
  repeat (match goal with |- context [if ?b then _ else _] => destruct b end); repeat (apply face_rel; auto); auto.
Qed.

Lemma region_cface : forall ng c pNx G a s o, o_s (cface ng c pNx G a s o) = o_s o /\ o_e (cface ng c pNx G a s o) = o_e o.
Proof.
  intros. unfold cface. destruct (n12z G a). cbv zeta. destruct (0 <? z * z0); [|auto]. destruct (c_mhd c); [|auto].
  repeat (match goal with |- context [if ?b then _ else _] => destruct b end); auto.
Qed.
Lemma region_pface : forall ng c pNx G a s o, o_s (pface ng c pNx G a s o) = o_s o /\ o_e (pface ng c pNx G a s o) = o_e o.
Proof.
  intros. unfold pface. destruct (n12z G a). cbv zeta. destruct (0 <? z * z0); [|auto]. destruct (c_mhd c); [|auto].
  repeat (match goal with |- context [if ?b then _ else _] => destruct b end); auto.
Qed.
Lemma region_cdims : forall ng c root pNx ch gc G2 G3 l o, o_s (fold_left (cdim ng c root pNx ch gc G2 G3) l o) = o_s o /\ o_e (fold_left (cdim ng c root pNx ch gc G2 G3) l o) = o_e o.
Proof.
  intros ng c root pNx ch gc G2 G3 l. induction l as [|a l IH]; intros o; [auto|]. cbn [fold_left].
  destruct (IH (cdim ng c root pNx ch gc G2 G3 o a)) as [A B]. rewrite A, B. clear. unfold cdim. cbv zeta.
  repeat (match goal with |- context [if ?b then _ else _] => destruct b end);
  repeat (match goal with |- context [cface ?a ?b ?c ?d ?e ?f ?o] => destruct (region_cface a b c d e f o) as [-> ->] end); auto.
Qed.
Lemma region_pdims : forall ng c root pNx ch gc G2 G3 l o, o_s (fold_left (pdim ng c root pNx ch gc G2 G3) l o) = o_s o /\ o_e (fold_left (pdim ng c root pNx ch gc G2 G3) l o) = o_e o.
Proof.
  intros ng c root pNx ch gc G2 G3 l. induction l as [|a l IH]; intros o; [auto|]. cbn [fold_left].
  destruct (IH (pdim ng c root pNx ch gc G2 G3 o a)) as [A B]. rewrite A, B. clear. unfold pdim. cbv zeta.
  repeat (match goal with |- context [if ?b then _ else _] => destruct b end);
  repeat (match goal with |- context [pface ?a ?b ?c ?d ?e ?f ?o] => destruct (region_pface a b c d e f o) as [-> ->] end); auto.
Qed.

(** Sides of the overlap, in units of the coarse and of the fine Grid. *)
Lemma div2_even : forall n, (2 | n) -> 2 * (n / 2) = n.
Proof. intros n [k ->]. rewrite Z.div_mul; lia. Qed.

Lemma quot2_even : forall n, (2 | n) -> 2 * Z.quot n 2 = n.
Proof. intros n [k ->]. rewrite Z.quot_mul; lia. Qed.

(** ** C72: both ends describe the same overlap and announce messages of the same length *)
Theorem C72_overlap : forall ng c root nDim pa gp ch gc, aligned nDim pa gp ch gc ->
  match cgrid ng c root nDim pa gp ch gc, pgrid ng c root nDim pa gp ch gc with
  | None, None => True
  | Some oc, Some of =>
      o_nRC oc = o_nRC of /\ o_nP oc = o_nP of /\ flags oc of /\
      forall a,
        len of a = ratio nDim a * len oc a /\ 0 <= len oc a /\
        (o_s of a - gis ng (gNx ch a (gi_ax gc a)) + gDisp ch a (gi_ax gc a)) = ratio nDim a * (o_s oc a - gis ng (gNx pa a (gi_ax gp a)) + gDisp pa a (gi_ax gp a))
  | _, _ => False
  end.
Proof.
  intros ng c root nDim pa gp ch gc [ND A].
  assert (D : fst (checkOverlap (sides pa) (child_sides ch)) = fst (checkOverlap (sides ch) (parent_sides pa))).
  { unfold checkOverlap. cbn [fst]. unfold all3.
    assert (K : forall a, (bl (sides pa) a <? br (child_sides ch) a) && (br (sides pa) a >? bl (child_sides ch) a) =
                          (bl (sides ch) a <? br (parent_sides pa) a) && (br (sides ch) a >? bl (parent_sides pa) a)).
    { intros a. specialize (A a). cbv zeta in A. unfold sides, child_sides, parent_sides. cbn [bl br].
      destruct (existsb (axis_eqb a) (axes nDim)).
      - destruct A as (A1 & A2 & A3 & A4 & A5 & A6 & A7).
        pose proof (quot2_even _ A6). pose proof (quot2_even _ (Z.divide_add_r _ _ _ A6 A7)).
        destruct (Z.ltb_spec 1 (dm_Nx ch a)); [|lia]. lia.
      - destruct A as (A1 & A2 & A3 & A4 & A5 & A6 & A7 & A8). rewrite A5, A6, A7, A8. reflexivity. }
    rewrite !K. reflexivity. }
  unfold cgrid, pgrid. rewrite D. destruct (fst (checkOverlap (sides ch) (parent_sides pa))); [|exact I]. cbn [negb]. clear D.
  (* per axis: edges of the Grids *)
  assert (K : forall a,
     0 <= gNx pa a (gi_ax gp a) /\
     (bl (grid_box ch gc) a = ratio nDim a * bl (child_grid_sides ch gc) a /\ br (grid_box ch gc) a = ratio nDim a * br (child_grid_sides ch gc) a) /\
     ((ratio nDim a = 2 /\ bl (parent_grid_sides pa gp) a = 2 * bl (grid_box pa gp) a /\ br (parent_grid_sides pa gp) a = 2 * br (grid_box pa gp) a) \/
      (ratio nDim a = 1 /\ bl (parent_grid_sides pa gp) a = 0 /\ br (parent_grid_sides pa gp) a = 2 /\ bl (grid_box pa gp) a = 0 /\ br (grid_box pa gp) a = 1
       /\ bl (grid_box ch gc) a = 0 /\ br (grid_box ch gc) a = 1))).
  { intros a. specialize (A a). cbv zeta in A. unfold ratio, grid_box, child_grid_sides, parent_grid_sides. cbn [bl br].
    destruct (existsb (axis_eqb a) (axes nDim)).
    - destruct A as (A1 & A2 & A3 & A4 & A5 & A6 & A7).
      pose proof (div2_even _ A4). pose proof (div2_even _ (Z.divide_add_r _ _ _ A4 A5)).
      destruct (Z.ltb_spec 1 (dm_Nx ch a)); [|lia]. lia.
    - destruct A as (A1 & A2 & A3 & A4 & A5 & A6 & A7 & A8). rewrite A1, A2, A3, A4, A5. cbn. lia. }
  assert (T : fst (checkOverlapTouch (grid_box pa gp) (child_grid_sides ch gc)) = fst (checkOverlapTouch (grid_box ch gc) (parent_grid_sides pa gp))).
  { unfold checkOverlapTouch. cbn [fst]. unfold all3.
    assert (L : forall a, (bl (grid_box pa gp) a <=? br (child_grid_sides ch gc) a) && (br (grid_box pa gp) a >=? bl (child_grid_sides ch gc) a) =
                          (bl (grid_box ch gc) a <=? br (parent_grid_sides pa gp) a) && (br (grid_box ch gc) a >=? bl (parent_grid_sides pa gp) a)).
    { intros a. destruct (K a) as (K0 & (K1 & K2) & [(K3 & K4 & K5)|(K3 & K4 & K5 & K6 & K7 & K8 & K9)]); rewrite K3 in *; rewrite ?K4, ?K5, ?K6, ?K7, ?K8, ?K9; lia. }
    rewrite !L. reflexivity. }
  destruct (checkOverlapTouch (grid_box pa gp) (child_grid_sides ch gc)) as [y1 Gc] eqn:E1.
  destruct (checkOverlapTouch (grid_box ch gc) (parent_grid_sides pa gp)) as [y2 Gf] eqn:E2. cbn [fst] in T. subst y2.
  destruct y1; cbn [negb]; [|exact I]. cbv zeta.
  assert (G : forall a, bl Gf a = ratio nDim a * bl Gc a /\ br Gf a = ratio nDim a * br Gc a /\ 0 <= ext Gc a /\ (ratio nDim a = 1 -> bl Gc a = 0 /\ br Gc a = 1) /\
       (ratio nDim a = 1 \/ ratio nDim a = 2) /\ bl (grid_box ch gc) a = ratio nDim a * bl (child_grid_sides ch gc) a /\ br (grid_box ch gc) a = ratio nDim a * br (child_grid_sides ch gc) a).
  { intros a. unfold checkOverlapTouch in E1, E2. cbv zeta in E1, E2. injection E1 as Y1 <-. injection E2 as Y2 <-. rewrite Y1, Y2. unfold overlap_box, ext. cbn [bl br].
    assert (Y3 : (bl (grid_box pa gp) a <=? br (child_grid_sides ch gc) a) && (br (grid_box pa gp) a >=? bl (child_grid_sides ch gc) a) = true).
    { unfold all3 in Y1. rewrite !andb_true_iff in Y1. rewrite andb_true_iff. destruct a; intuition. }
    specialize (A a). cbv zeta in A. assert (SP : br (grid_box pa gp) a = bl (grid_box pa gp) a + gNx pa a (gi_ax gp a)) by reflexivity.
    assert (SC : br (grid_box ch gc) a = bl (grid_box ch gc) a + gNx ch a (gi_ax gc a)) by reflexivity.
    assert (CN : 0 <= gNx ch a (gi_ax gc a)) by (destruct (existsb (axis_eqb a) (axes nDim)); lia).
    destruct (K a) as (K0 & (K1 & K2) & [(K3 & K4 & K5)|(K3 & K4 & K5 & K6 & K7 & K8 & K9)]); rewrite K3 in *; rewrite ?K4, ?K5, ?K6, ?K7, ?K8, ?K9 in *; lia. }
  clear K E1 E2.
  assert (Ex : forall b, ext Gf b = 2 * ext Gc b \/ ext Gf b = 1 /\ ext Gc b = 1).
  { intros b. destruct (G b) as (G1 & G2 & G3 & G4 & G5 & _). unfold ext in *. destruct G5 as [G5|G5]; rewrite G5 in *; lia. }
  assert (NxE : forall b, (1 <? gNx pa b (gi_ax gp b)) = (1 <? gNx ch b (gi_ax gc b))).
  { intros b. specialize (A b). cbv zeta in A. destruct (existsb (axis_eqb b) (axes nDim)); lia. }
  assert (H2 : forall a, ratio nDim a = 2 -> ext Gf a / 2 = ext Gc a).
  { intros a Q. destruct (G a) as (G1 & G2 & _). unfold ext. rewrite G1, G2, Q.
    replace (2 * br Gc a - 2 * bl Gc a) with ((br Gc a - bl Gc a) * 2) by ring. rewrite Z.div_mul; lia. }
  assert (N1 : ext Gf X1 / 2 = ext Gc X1) by (apply H2; unfold ratio; destruct nDim as [|n]; [lia|reflexivity]).
  assert (N23 : forall a, (if 1 <? gNx ch a (gi_ax gc a) then ext Gf a / 2 else 1) = ext Gc a).
  { intros a. specialize (A a). cbv zeta in A. unfold ratio in *. specialize (H2 a). destruct (G a) as (_ & _ & _ & G4 & _).
    destruct (existsb (axis_eqb a) (axes nDim)).
    - destruct (Z.ltb_spec 1 (gNx ch a (gi_ax gc a))); [auto|lia].
    - destruct A as (_ & _ & _ & -> & _). cbn. destruct (G4 eq_refl). unfold ext. lia. }
  rewrite N1, !N23. clear N1 N23 H2.
  set (w := if c_mhd c && _ then _ else _).
  match goal with |- context [fold_left (cdim ng c root ?pN ch gc ?g2 Gc) (axes nDim) ?o1] =>
    match goal with |- context [fold_left (pdim ng c root ?cN ch gc ?g1 Gf) (axes nDim) ?o2] =>
      assert (REL : rel (fold_left (cdim ng c root pN ch gc g2 Gc) (axes nDim) o1) (fold_left (pdim ng c root cN ch gc g1 Gf) (axes nDim) o2));
      [|destruct (region_cdims ng c root pN ch gc g2 Gc (axes nDim) o1) as [S1 S2]; destruct (region_pdims ng c root cN ch gc g1 Gf (axes nDim) o2) as [S3 S4]]
    end end.
  - apply dims_rel; auto.
    + intros b. apply G.
    + intros b _. destruct (G b) as (G1 & G2 & G3 & G4 & G5 & G6 & G7). rewrite G1, G2, G6, G7. destruct G5 as [-> | ->]; split; lia.
    + repeat split.
  - destruct REL as (R1 & R2 & R3). split; [exact R1|]. split; [exact R2|]. split; [exact R3|].
    intros a. unfold len. rewrite S1, S2, S3, S4. cbn [o_s o_e]. destruct (G a) as (G1 & G2 & G3 & G4 & G5 & G6 & G7). unfold ext in G3.
    change (bl (grid_box pa gp) a) with (gDisp pa a (gi_ax gp a)). change (bl (grid_box ch gc) a) with (gDisp ch a (gi_ax gc a)).
    rewrite G1, G2. repeat split; destruct G5 as [Q|Q]; rewrite ?Q; lia.
Qed.
Print Assumptions C72_overlap.

(** The arrays for fluxes and EMFs have the extents of the region. *)
Lemma ext_set : forall (f : axis -> bool -> option (Z * Z)) a s y (Q : axis -> bool -> Z * Z -> Prop),
  (forall b t x, f b t = Some x -> Q b t x) -> Q a s y -> forall b t x, set_arr f a s y b t = Some x -> Q b t x.
Proof.
  intros f a s y Q F Y b t x. unfold set_arr. destruct (axis_eqb a b && Bool.eqb s t) eqn:E; [|apply F].
  intros X. injection X as <-. apply andb_prop in E. destruct E as [E1 E2]. apply Bool.eqb_prop in E2. subst t.
  destruct a, b; try discriminate; exact Y.
Qed.
Definition exts (G : box) (o : ovl) : Prop :=
  (forall a s x, o_flx o a s = Some x -> x = (snd (n12z G a), fst (n12z G a))) /\
  (forall a s x, o_emf3 o a s = Some x -> x = (snd (n12z G a), fst (n12z G a) + 1)) /\
  (forall a s x, o_emf1 o a s = Some x -> x = (snd (n12z G a) + 1, fst (n12z G a))) /\
  (forall a s x, o_emf2 o a s = Some x -> x = match a with X3 => (snd (n12z G a), fst (n12z G a) + 1) | _ => (snd (n12z G a) + 1, fst (n12z G a)) end).
Lemma exts_RC : forall G n o, exts G o -> exts G (add_RC n o). Proof. intros G n o H. exact H. Qed.
Lemma exts_P : forall G n o, exts G o -> exts G (add_P n o). Proof. intros G n o H. exact H. Qed.
Lemma exts_cface : forall ng c pNx G a s o, exts G o -> exts G (cface ng c pNx G a s o).
Proof.
  intros ng c pNx G a s o H. unfold cface. destruct (n12z G a) as [n1 n2] eqn:E. cbv zeta.
  assert (H1 : exts G (add_P ((ng / 2 + 2) * (if 0 <? ext G X1 * ext G X2 * ext G X3 then n1 + (if 1 <? pNx X2 then ng + 2 else 0) else 0)
     * (if 0 <? ext G X1 * ext G X2 * ext G X3 then n2 + (if 1 <? pNx X3 then ng + 2 else 0) else 0) * NVAR c) (add_RC (n1 * n2 * NVAR c) o))) by exact H.
  match goal with H1 : exts G ?x |- _ => generalize dependent x end. intros x Hx.
  destruct (0 <? n1 * n2); [|exact Hx].
  assert (H2 : exts G (new_flx a s (n2, n1) x)).
  { destruct Hx as (A1 & A2 & A3 & A4). repeat split; auto. cbn [o_flx new_flx].
    apply (ext_set _ a s (n2, n1) (fun a s x => x = (snd (n12z G a), fst (n12z G a)))); [auto|]. rewrite E. reflexivity. }
  destruct (c_mhd c); [|exact H2].
  match goal with |- context [add_P ?n (new_flx a s (n2, n1) x)] => assert (H3 : exts G (add_P n (new_flx a s (n2, n1) x))) by exact H2; generalize dependent (add_P n (new_flx a s (n2, n1) x)) end.
  intros y Hy.
  assert (E3 : forall n z, exts G z -> exts G (new_emf3 a s (n2, n1 + 1) (add_RC n z))).
  { intros n z (A1 & A2 & A3 & A4). repeat split; auto. cbn [o_emf3 new_emf3].
    apply (ext_set _ a s (n2, n1 + 1) (fun a s x => x = (snd (n12z G a), fst (n12z G a) + 1))); [auto|]. rewrite E. reflexivity. }
  assert (E1 : forall n z, exts G z -> exts G (new_emf1 a s (n2 + 1, n1) (add_RC n z))).
  { intros n z (A1 & A2 & A3 & A4). repeat split; auto. cbn [o_emf1 new_emf1].
    apply (ext_set _ a s (n2 + 1, n1) (fun a s x => x = (snd (n12z G a) + 1, fst (n12z G a)))); [auto|]. rewrite E. reflexivity. }
  assert (E2 : forall n z, a <> X3 -> exts G z -> exts G (new_emf2 a s (n2 + 1, n1) (add_RC n z))).
  { intros n z NA (A1 & A2 & A3 & A4). repeat split; auto. cbn [o_emf2 new_emf2].
    apply (ext_set _ a s (n2 + 1, n1) (fun a s x => x = match a with X3 => (snd (n12z G a), fst (n12z G a) + 1) | _ => (snd (n12z G a) + 1, fst (n12z G a)) end)); [auto|]. rewrite E. destruct a; auto. congruence. }
  assert (E2' : forall z, a = X3 -> exts G z -> exts G (new_emf2 a s (n2, n1 + 1) z)).
  { intros z NA (A1 & A2 & A3 & A4). repeat split; auto. cbn [o_emf2 new_emf2].
    apply (ext_set _ a s (n2, n1 + 1) (fun a s x => x = match a with X3 => (snd (n12z G a), fst (n12z G a) + 1) | _ => (snd (n12z G a) + 1, fst (n12z G a)) end)); [auto|]. rewrite E. subst a. reflexivity. }
  destruct a; cbn [axis_eqb negb]; rewrite ?andb_false_r, ?andb_true_r;
  repeat (match goal with |- context [if ?b then _ else _] => destruct b end); auto;
  repeat (first [apply E2; [discriminate|]|apply E1|apply E3|apply E2'; [reflexivity|]]; auto).
Qed.
Lemma exts_pface : forall ng c pNx G a s o, exts G o -> exts G (pface ng c pNx G a s o).
Proof.
  intros ng c pNx G a s o H. unfold pface. destruct (n12z G a) as [n1 n2] eqn:E. cbv zeta.
  assert (H1 : exts G (add_P ((ng / 2 + 2) * (if 0 <? ext G X1 * ext G X2 * ext G X3 then half n1 + (if 1 <? pNx X2 then ng + 2 else 0) else 0)
     * (if 0 <? ext G X1 * ext G X2 * ext G X3 then half n2 + (if 1 <? pNx X3 then ng + 2 else 0) else 0) * NVAR c) (add_RC (half n1 * half n2 * NVAR c) o))) by exact H.
  match goal with H1 : exts G ?x |- _ => generalize dependent x end. intros x Hx.
  destruct (0 <? n1 * n2); [|exact Hx].
  assert (H2 : exts G (new_flx a s (n2, n1) x)).
  { destruct Hx as (A1 & A2 & A3 & A4). repeat split; auto. cbn [o_flx new_flx].
    apply (ext_set _ a s (n2, n1) (fun a s x => x = (snd (n12z G a), fst (n12z G a)))); [auto|]. rewrite E. reflexivity. }
  destruct (c_mhd c); [|exact H2].
  match goal with |- context [add_P ?n (new_flx a s (n2, n1) x)] => assert (H3 : exts G (add_P n (new_flx a s (n2, n1) x))) by exact H2; generalize dependent (add_P n (new_flx a s (n2, n1) x)) end.
  intros y Hy.
  assert (E3 : forall n z, exts G z -> exts G (new_emf3 a s (n2, n1 + 1) (add_RC n z))).
  { intros n z (A1 & A2 & A3 & A4). repeat split; auto. cbn [o_emf3 new_emf3].
    apply (ext_set _ a s (n2, n1 + 1) (fun a s x => x = (snd (n12z G a), fst (n12z G a) + 1))); [auto|]. rewrite E. reflexivity. }
  assert (E1 : forall n z, exts G z -> exts G (new_emf1 a s (n2 + 1, n1) (add_RC n z))).
  { intros n z (A1 & A2 & A3 & A4). repeat split; auto. cbn [o_emf1 new_emf1].
    apply (ext_set _ a s (n2 + 1, n1) (fun a s x => x = (snd (n12z G a) + 1, fst (n12z G a)))); [auto|]. rewrite E. reflexivity. }
  assert (E2 : forall n z, a <> X3 -> exts G z -> exts G (new_emf2 a s (n2 + 1, n1) (add_RC n z))).
  { intros n z NA (A1 & A2 & A3 & A4). repeat split; auto. cbn [o_emf2 new_emf2].
    apply (ext_set _ a s (n2 + 1, n1) (fun a s x => x = match a with X3 => (snd (n12z G a), fst (n12z G a) + 1) | _ => (snd (n12z G a) + 1, fst (n12z G a)) end)); [auto|]. rewrite E. destruct a; auto. congruence. }
  assert (E2' : forall z, a = X3 -> exts G z -> exts G (new_emf2 a s (n2, n1 + 1) z)).
  { intros z NA (A1 & A2 & A3 & A4). repeat split; auto. cbn [o_emf2 new_emf2].
    apply (ext_set _ a s (n2, n1 + 1) (fun a s x => x = match a with X3 => (snd (n12z G a), fst (n12z G a) + 1) | _ => (snd (n12z G a) + 1, fst (n12z G a)) end)); [auto|]. rewrite E. subst a. reflexivity. }
  destruct a; cbn [axis_eqb negb]; rewrite ?andb_false_r, ?andb_true_r;
  repeat (match goal with |- context [if ?b then _ else _] => destruct b end); auto;
  repeat (first [apply E2; [discriminate|]|apply E1|apply E3|apply E2'; [reflexivity|]]; auto).
Qed.
Lemma exts_cdims : forall ng c root pNx ch gc G2 G3 l o, exts G3 o -> exts G3 (fold_left (cdim ng c root pNx ch gc G2 G3) l o).
Proof.
  intros ng c root pNx ch gc G2 G3 l. induction l as [|a l IH]; intros o H; [exact H|]. cbn [fold_left]. apply IH. unfold cdim. cbv zeta.
  repeat (match goal with |- context [if ?b then _ else _] => destruct b end); repeat (apply exts_cface; auto); auto.
Qed.
Lemma exts_pdims : forall ng c root pNx ch gc G2 G3 l o, exts G3 o -> exts G3 (fold_left (pdim ng c root pNx ch gc G2 G3) l o).
Proof.
  intros ng c root pNx ch gc G2 G3 l. induction l as [|a l IH]; intros o H; [exact H|]. cbn [fold_left]. apply IH. unfold pdim. cbv zeta.
  repeat (match goal with |- context [if ?b then _ else _] => destruct b end); repeat (apply exts_pface; auto); auto.
Qed.
Lemma exts_extents : forall G o, (forall a, len o a = ext G a) -> exts G o -> extents o.
Proof.
  intros G o L (H1 & H2 & H3 & H4) a s. unfold slow, fast.
  repeat split; intros x E; [apply H1 in E|apply H2 in E|apply H3 in E|apply H4 in E]; rewrite E; destruct a; cbn; rewrite !L; reflexivity.
Qed.
Theorem C72_extents : forall ng c root nDim pa gp ch gc,
  (forall o, cgrid ng c root nDim pa gp ch gc = Some o -> extents o) /\
  (forall o, pgrid ng c root nDim pa gp ch gc = Some o -> extents o).
Proof.
  intros ng c root nDim pa gp ch gc. split; intros o H; unfold cgrid, pgrid in H.
  - destruct (fst (checkOverlap (sides pa) (child_sides ch))); [|discriminate]. cbn [negb] in H.
    destruct (checkOverlapTouch (grid_box pa gp) (child_grid_sides ch gc)) as [y G]. destruct y; [|discriminate]. cbn [negb] in H. cbv zeta in H.
    injection H as <-. apply (exts_extents G).
    + intros a. unfold len. match goal with |- context [fold_left (cdim ?a ?b ?c ?d ?e ?f ?g ?h) ?l ?o] => destruct (region_cdims a b c d e f g h l o) as [-> ->] end. cbn [o_s o_e]. unfold ext. lia.
    + apply exts_cdims. repeat split; discriminate.
  - destruct (fst (checkOverlap (sides ch) (parent_sides pa))); [|discriminate]. cbn [negb] in H.
    destruct (checkOverlapTouch (grid_box ch gc) (parent_grid_sides pa gp)) as [y G]. destruct y; [|discriminate]. cbn [negb] in H. cbv zeta in H.
    injection H as <-. apply (exts_extents G).
    + intros a. unfold len. match goal with |- context [fold_left (pdim ?a ?b ?c ?d ?e ?f ?g ?h) ?l ?o] => destruct (region_pdims a b c d e f g h l o) as [-> ->] end. cbn [o_s o_e]. unfold ext. lia.
    + apply exts_pdims. repeat split; discriminate.
Qed.
Print Assumptions C72_extents.

(** A 3D example meeting the hypotheses: a root Domain of 16x16x16 cells on 2x1x1 Grids and
    a level-1 Domain of 16x16x8 cells on 2x2x1 Grids. *)
Definition v3 (x y z : Z) : vec := fun a => match a with X1 => x | X2 => y | X3 => z end.
Definition ex_pa : domain := Dom 0 0 (v3 16 16 16) (v3 0 0 0) (v3 2 1 1) [].
Definition ex_ch : domain := Dom 1 1 (v3 16 16 8) (v3 8 8 12) (v3 2 2 1) [].
Example C72_overlap_example :
  aligned 3 ex_pa (Gi 0 0 0) ex_ch (Gi 0 1 0) /\ aligned 3 ex_pa (Gi 1 0 0) ex_ch (Gi 0 1 0) /\
  (exists o, cgrid 4 (Cfg false true 1) (v3 16 16 16) 3 ex_pa (Gi 0 0 0) ex_ch (Gi 0 1 0) = Some o /\
     o_nRC o = 1552 /\ o_flx o X1 false = Some (4, 4) /\ o_flx o X1 true = None /\ o_emf2 o X3 true = Some (4, 5)) /\
  (** the fine Grid touches this parent Grid without being inside it *)
  (exists o, cgrid 4 (Cfg false true 1) (v3 16 16 16) 3 ex_pa (Gi 1 0 0) ex_ch (Gi 0 1 0) = Some o /\ len o X1 = 0 /\ o_nRC o = 0).
Proof.
  split; [|split].
  - split; [lia|]. intros []; cbn; repeat split; try lia; try (eexists; reflexivity || (exists 4; reflexivity)); try (apply Z.mod_divide; [lia|reflexivity]).
  - split; [lia|]. intros []; cbn; repeat split; try lia; try (apply Z.mod_divide; [lia|reflexivity]).
  - split; eexists; split; try reflexivity; repeat split; reflexivity.
Qed.

(** The evenness of the edges of the Grids is necessary, and init_mesh does not check it:
    12 cells on 4 Grids give Grids of 3 cells, and the parent expects two coarse cells from
    the second one, which sends one. *)
Definition odd_ch : domain := Dom 1 1 (v3 12 1 1) (v3 8 0 0) (v3 4 1 1) [].
Theorem C72_odd_grid_refuted : exists root nDim pa gp ch gc oc of,
  (exists b, b_level b = 1 /\ make_domain root nDim 1 b = Ok ch) /\ nested_pair 4 root nDim 0 pa ch = true /\
  cgrid 4 (Cfg false false 0) root nDim pa gp ch gc = Some oc /\ pgrid 4 (Cfg false false 0) root nDim pa gp ch gc = Some of /\
  o_nRC oc = 10 /\ o_nRC of = 5.
Proof.
  exists (v3 16 1 1), 1%nat, (Dom 0 0 (v3 16 1 1) (v3 0 0 0) (v3 1 1 1) []), (Gi 0 0 0), (Dom 1 1 (v3 12 1 1) (fun a => if (1 =? 0)%nat then 0 else
                       match a with
                       | X1 => v3 8 0 0 X1
                       | X2 => if 1 <? v3 16 1 1 X2 then v3 8 0 0 X2 else 0
                       | X3 => if 1 <? v3 16 1 1 X3 then v3 8 0 0 X3 else 0
                       end) (v3 4 1 1) []), (Gi 1 0 0).
  eexists. eexists. split; [exists (Blk 1 (v3 12 1 1) (v3 8 0 0) (v3 4 1 1) 0); split; reflexivity|].
  split; [reflexivity|]. split; [reflexivity|]. split; [reflexivity|]. split; reflexivity.
Qed.
Print Assumptions C72_odd_grid_refuted.

(** When every Grid of the fine Domain gets the same even number of cells, all edges are even. *)
Theorem C72_even_split : forall d a i, 0 < dm_NG d a -> (2 * dm_NG d a | dm_Nx d a) -> (2 | dm_Disp d a) ->
  (2 | gNx d a i) /\ (2 | gDisp d a i).
Proof.
  intros d a i N [q Q] D.
  assert (E : forall j, gNx d a j = 2 * q).
  { intros j. unfold gNx. rewrite Q. replace (q * (2 * dm_NG d a)) with (2 * q * dm_NG d a) by ring.
    rewrite Z.quot_mul, Z.rem_mul by lia. destruct (Z.ltb_spec (Z.of_nat j) 0); lia. }
  split; [rewrite E; apply Z.divide_factor_l|].
  induction i as [|i IH]; cbn [gDisp]; [exact D|]. apply Z.divide_add_r; [exact IH|]. rewrite E. apply Z.divide_factor_l.
Qed.
Print Assumptions C72_even_split.
Example C72_even_split_example : 0 < dm_NG ex_ch X2 /\ (2 * dm_NG ex_ch X2 | dm_Nx ex_ch X2) /\ (2 | dm_Disp ex_ch X2).
Proof. cbn. split; [lia|]. split; apply Z.mod_divide; try lia; reflexivity. Qed.
