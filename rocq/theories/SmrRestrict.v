(** * RestrictCorrect as a whole (C42) *)
From Coq Require Import Reals ZArith Bool Arith Lia Lra ZifyBool List.
From Verif Require Import CStr MeshModel SmrModel SmrOverlap SmrFacts SmrProps SmrApply SmrPaired.
Import ListNotations.
Open Scope Z_scope.
Local Open Scope R_scope.

(** ** The six flux corrections of a cell *)
Definition cor1 (c : cfg) (nDim : nat) (oc : ovl) (r : R) (fc ff : flx) (s : bool) (k j i : Z) (v : var) : R :=
  corrected c oc X1 s r i (inb oc X3 k && inb oc X2 j) (fun v => f_flx fc X1 s (k - o_s oc X3)%Z (j - o_s oc X2)%Z v - avgF nDim X3 X2 (f_flx ff X1 s) (k - o_s oc X3, j - o_s oc X2)%Z v) v.
Definition cor2 (c : cfg) (nDim : nat) (oc : ovl) (r : R) (fc ff : flx) (s : bool) (k j i : Z) (v : var) : R :=
  corrected c oc X2 s r j (inb oc X3 k && inb oc X1 i) (fun v => f_flx fc X2 s (k - o_s oc X3)%Z (i - o_s oc X1)%Z v - avgF nDim X3 X1 (f_flx ff X2 s) (k - o_s oc X3, i - o_s oc X1)%Z v) v.
Definition cor3 (c : cfg) (nDim : nat) (oc : ovl) (r : R) (fc ff : flx) (s : bool) (k j i : Z) (v : var) : R :=
  corrected c oc X3 s r k (inb oc X2 j && inb oc X1 i) (fun v => f_flx fc X3 s (j - o_s oc X2)%Z (i - o_s oc X1)%Z v - avgF nDim X2 X1 (f_flx ff X3 s) (j - o_s oc X2, i - o_s oc X1)%Z v) v.
Definition cor (c : cfg) (nDim : nat) (oc : ovl) (r1 r2 r3 : R) (fc ff : flx) (k j i : Z) (v : var) : R :=
  cor1 c nDim oc r1 fc ff false k j i v + cor1 c nDim oc r1 fc ff true k j i v +
  cor2 c nDim oc r2 fc ff false k j i v + cor2 c nDim oc r2 fc ff true k j i v +
  cor3 c nDim oc r3 fc ff false k j i v + cor3 c nDim oc r3 fc ff true k j i v.

Lemma corrs_eq : forall c nDim oc r1 r2 r3 fc ff g rest (K : gst -> list R -> option (gst * list R)),
  exists g', bnd (corr1 c oc r1 fc false g (flxs c nDim oc (f_flx ff X1 false) X1 X3 X2 false ++ flxs c nDim oc (f_flx ff X1 true) X1 X3 X2 true ++
     flxs c nDim oc (f_flx ff X2 false) X2 X3 X1 false ++ flxs c nDim oc (f_flx ff X2 true) X2 X3 X1 true ++
     flxs c nDim oc (f_flx ff X3 false) X3 X2 X1 false ++ flxs c nDim oc (f_flx ff X3 true) X3 X2 X1 true ++ rest))
     (fun g m => bnd (corr1 c oc r1 fc true g m) (fun g m =>
      bnd (corr2 c oc r2 fc false g m) (fun g m => bnd (corr2 c oc r2 fc true g m) (fun g m =>
      bnd (corr3 c oc r3 fc false g m) (fun g m => bnd (corr3 c oc r3 fc true g m) K))))) = K g' rest /\
    gB1 g' = gB1 g /\ gB2 g' = gB2 g /\ gB3 g' = gB3 g /\
    forall k j i v, gU g' k j i v = gU g k j i v + cor c nDim oc r1 r2 r3 fc ff k j i v.
Proof.
  intros.
  match goal with |- context [corr1 c oc r1 fc false g (_ ++ ?r)] => destruct (corr1_eq c nDim oc r1 fc (f_flx ff X1 false) false g r) as (g1 & -> & P1 & P2 & P3 & P4) end. cbn [bnd].
  match goal with |- context [corr1 c oc r1 fc true g1 (_ ++ ?r)] => destruct (corr1_eq c nDim oc r1 fc (f_flx ff X1 true) true g1 r) as (g2 & -> & Q1 & Q2 & Q3 & Q4) end. cbn [bnd].
  match goal with |- context [corr2 c oc r2 fc false g2 (_ ++ ?r)] => destruct (corr2_eq c nDim oc r2 fc (f_flx ff X2 false) false g2 r) as (g3 & -> & S1 & S2 & S3 & S4) end. cbn [bnd].
  match goal with |- context [corr2 c oc r2 fc true g3 (_ ++ ?r)] => destruct (corr2_eq c nDim oc r2 fc (f_flx ff X2 true) true g3 r) as (g4 & -> & T1 & T2 & T3 & T4) end. cbn [bnd].
  match goal with |- context [corr3 c oc r3 fc false g4 (_ ++ ?r)] => destruct (corr3_eq c nDim oc r3 fc (f_flx ff X3 false) false g4 r) as (g5 & -> & U1 & U2 & U3 & U4) end. cbn [bnd].
  match goal with |- context [corr3 c oc r3 fc true g5 (_ ++ ?r)] => destruct (corr3_eq c nDim oc r3 fc (f_flx ff X3 true) true g5 r) as (g6 & -> & V1 & V2 & V3 & V4) end. cbn [bnd].
  exists g6. split; [reflexivity|]. split; [congruence|]. split; [congruence|]. split; [congruence|].
  intros k j i v. rewrite V4, U4, T4, S4, Q4, P4. unfold cor, cor1, cor2, cor3. ring.
Qed.
Lemma cor_inside : forall c nDim oc r1 r2 r3 fc ff k j i v, inside oc k j i -> cor c nDim oc r1 r2 r3 fc ff k j i v = 0.
Proof.
  intros c nDim oc r1 r2 r3 fc ff k j i v (K & J & I). unfold cor, cor1, cor2, cor3, corrected, side.
  replace (i =? o_s oc X1 - 1)%Z with false by lia. replace (i =? o_e oc X1 + 1)%Z with false by lia.
  replace (j =? o_s oc X2 - 1)%Z with false by lia. replace (j =? o_e oc X2 + 1)%Z with false by lia.
  replace (k =? o_s oc X3 - 1)%Z with false by lia. replace (k =? o_e oc X3 + 1)%Z with false by lia.
  rewrite !andb_false_r. cbn [ind andb]. lra.
Qed.

(** ** The EMF corrections of the faces *)
Definition Ef3 (nDim : nat) (ff : flx) (a : axis) (s : bool) : Z -> Z -> R := avgE_slow nDim X3 (match a with X1 => X2 | _ => X1 end) (f_emf3 ff a s).
Definition Ef2 (nDim : nat) (ff : flx) (a : axis) (s : bool) : Z -> Z -> R :=
  match a with X1 => avgE_fast nDim X3 X2 (f_emf2 ff a s) | _ => avgE_slow nDim X2 X1 (f_emf2 ff a s) end.
Definition Ef1 (nDim : nat) (ff : flx) (a : axis) (s : bool) : Z -> Z -> R :=
  match a with X2 => avgE_fast nDim X3 X1 (f_emf1 ff a s) | _ => avgE_fast nDim X2 X1 (f_emf1 ff a s) end.

Section emf.
  Context (nDim : nat) (oc : ovl) (last : vec) (r1 r2 r3 : R) (fc ff : flx).
  Definition td : bool := (nDim =? 3)%nat.
  Definition d1 (a : axis) (s : bool) (x y : Z) : R := f_emf1 fc a s x y - Ef1 nDim ff a s x y.
  Definition d2 (a : axis) (s : bool) (x y : Z) : R := f_emf2 fc a s x y - Ef2 nDim ff a s x y.
  Definition d3 (a : axis) (s : bool) (x y : Z) : R := f_emf3 fc a s x y - Ef3 nDim ff a s x y.
  Definition touch (a : axis) : bool := (o_e oc a <? o_s oc a)%Z.
  Definition fl (a : axis) (s : bool) : bool := match a with X3 => some (o_emf1 oc X3 s) | _ => some (o_emf3 oc a s) end.
  (** last index of the edges that are corrected outside the boundary of axis [a] *)
  Definition l1 (a : axis) : Z := if (match a with X2 => some (o_emf3 oc X1 true) | _ => some (o_emf2 oc X1 true) end) || (o_e oc X1 =? last X1)%Z || touch a then (o_e oc X1 + 1)%Z else o_e oc X1.
  Definition l2 (a : axis) : Z := if (match a with X1 => some (o_emf3 oc X2 true) | _ => some (o_emf1 oc X2 true) end) || (o_e oc X2 =? last X2)%Z || touch a then (o_e oc X2 + 1)%Z else o_e oc X2.
  Definition l3 (a : axis) : Z := if (match a with X1 => some (o_emf2 oc X3 true) | _ => some (o_emf1 oc X3 true) end) || (o_e oc X3 =? last X3)%Z || touch a then (o_e oc X3 + 1)%Z else o_e oc X3.
  Definition k' (k : Z) : Z := (k - o_s oc X3)%Z.
  Definition j' (j : Z) : Z := (j - o_s oc X2)%Z.
  Definition i' (i : Z) : Z := (i - o_s oc X1)%Z.
  (** change of B1 by emfs1, emfs2, emfs3, and so on *)
  Definition c11 (s : bool) (k j i : Z) : R :=
    ind (fl X1 s && inb oc X3 k && inb oc X2 j && (i =? bface oc X1 s)%Z) (r2 * d3 X1 s (k' k) (j' j + 1) - r2 * d3 X1 s (k' k) (j' j))
    + ind (fl X1 s && touch X1 && inb oc X3 k && (j =? o_s oc X2 - 1)%Z && (i =? bface oc X1 s)%Z) (r2 * d3 X1 s (k' k) 0)
    - ind (fl X1 s && touch X1 && inb oc X3 k && (j =? o_e oc X2 + 1)%Z && (i =? bface oc X1 s)%Z) (r2 * d3 X1 s (k' k) (len oc X2))
    - ind (fl X1 s && td && inb oc X3 k && inb oc X2 j && (i =? bface oc X1 s)%Z) (r3 * d2 X1 s (k' k + 1) (j' j) - r3 * d2 X1 s (k' k) (j' j))
    - ind (fl X1 s && td && touch X1 && inb oc X2 j && (k =? o_s oc X3 - 1)%Z && (i =? bface oc X1 s)%Z) (r3 * d2 X1 s 0 (j' j))
    + ind (fl X1 s && td && touch X1 && inb oc X2 j && (k =? o_e oc X3 + 1)%Z && (i =? bface oc X1 s)%Z) (r3 * d2 X1 s (len oc X3) (j' j)).
  Definition c12 (s : bool) (k j i : Z) : R :=
    - ind (fl X2 s && inb oc X3 k && (j =? side oc X2 s)%Z && btw (o_s oc X1) i (l1 X2)) (sgn s r2 * d3 X2 s (k' k) (i' i)).
  Definition c13 (s : bool) (k j i : Z) : R :=
    ind (fl X3 s && (k =? side oc X3 s)%Z && inb oc X2 j && btw (o_s oc X1) i (l1 X3)) (sgn s r3 * d2 X3 s (j' j) (i' i)).
  Definition c21 (s : bool) (k j i : Z) : R :=
    ind (fl X1 s && inb oc X3 k && btw (o_s oc X2) j (l2 X1) && (i =? side oc X1 s)%Z) (sgn s r1 * d3 X1 s (k' k) (j' j)).
  Definition c22 (s : bool) (k j i : Z) : R :=
    - ind (fl X2 s && inb oc X3 k && (j =? bface oc X2 s)%Z && inb oc X1 i) (r1 * d3 X2 s (k' k) (i' i + 1) - r1 * d3 X2 s (k' k) (i' i))
    - ind (fl X2 s && touch X2 && inb oc X3 k && (i =? o_s oc X1 - 1)%Z && (j =? bface oc X2 s)%Z) (r1 * d3 X2 s (k' k) 0)
    + ind (fl X2 s && touch X2 && inb oc X3 k && (i =? o_e oc X1 + 1)%Z && (j =? bface oc X2 s)%Z) (r1 * d3 X2 s (k' k) (len oc X1))
    + ind (fl X2 s && td && inb oc X3 k && (j =? bface oc X2 s)%Z && inb oc X1 i) (r3 * d1 X2 s (k' k + 1) (i' i) - r3 * d1 X2 s (k' k) (i' i))
    + ind (fl X2 s && td && touch X2 && inb oc X1 i && (k =? o_s oc X3 - 1)%Z && (j =? bface oc X2 s)%Z) (r3 * d1 X2 s 0 (i' i))
    - ind (fl X2 s && td && touch X2 && inb oc X1 i && (k =? o_e oc X3 + 1)%Z && (j =? bface oc X2 s)%Z) (r3 * d1 X2 s (len oc X3) (i' i)).
  Definition c23 (s : bool) (k j i : Z) : R :=
    - ind (fl X3 s && (k =? side oc X3 s)%Z && btw (o_s oc X2) j (l2 X3) && inb oc X1 i) (sgn s r3 * d1 X3 s (j' j) (i' i)).
  Definition c31 (s : bool) (k j i : Z) : R :=
    - ind (fl X1 s && td && btw (o_s oc X3) k (l3 X1) && inb oc X2 j && (i =? side oc X1 s)%Z) (sgn s r1 * d2 X1 s (k' k) (j' j)).
  Definition c32 (s : bool) (k j i : Z) : R :=
    ind (fl X2 s && td && btw (o_s oc X3) k (l3 X2) && (j =? side oc X2 s)%Z && inb oc X1 i) (sgn s r2 * d1 X2 s (k' k) (i' i)).
  Definition c33 (s : bool) (k j i : Z) : R :=
    ind (fl X3 s && (k =? bface oc X3 s)%Z && inb oc X2 j && inb oc X1 i)
          (r1 * d2 X3 s (j' j) (i' i + 1) - r1 * d2 X3 s (j' j) (i' i) - (r2 * d1 X3 s (j' j + 1) (i' i) - r2 * d1 X3 s (j' j) (i' i)))
    + ind (fl X3 s && touch X3 && (k =? bface oc X3 s)%Z && inb oc X2 j && (i =? o_s oc X1 - 1)%Z) (r1 * d2 X3 s (j' j) 0)
    - ind (fl X3 s && touch X3 && (k =? bface oc X3 s)%Z && inb oc X2 j && (i =? o_e oc X1 + 1)%Z) (r1 * d2 X3 s (j' j) (len oc X1))
    - ind (fl X3 s && touch X3 && (k =? bface oc X3 s)%Z && (j =? o_s oc X2 - 1)%Z && inb oc X1 i) (r2 * d1 X3 s 0 (i' i))
    + ind (fl X3 s && touch X3 && (k =? bface oc X3 s)%Z && (j =? o_e oc X2 + 1)%Z && inb oc X1 i) (r2 * d1 X3 s (len oc X2) (i' i)).
  Definition cB1 (k j i : Z) : R := c11 false k j i + c11 true k j i + c12 false k j i + c12 true k j i + c13 false k j i + c13 true k j i.
  Definition cB2 (k j i : Z) : R := c21 false k j i + c21 true k j i + c22 false k j i + c22 true k j i + c23 false k j i + c23 true k j i.
  Definition cB3 (k j i : Z) : R := c31 false k j i + c31 true k j i + c32 false k j i + c32 true k j i + c33 false k j i + c33 true k j i.
End emf.

(** ** Cell-centred and face-centred fields agree *)
Definition okc1 (g : gst) (k j i : Z) : Prop := gU g k j i VB1 = 1/2 * (gB1 g k j i + gB1 g k j (i + 1)%Z).
Definition okc2 (g : gst) (k j i : Z) : Prop := gU g k j i VB2 = 1/2 * (gB2 g k j i + gB2 g k (j + 1)%Z i).
Definition okc3 (g : gst) (k j i : Z) : Prop := gU g k j i VB3 = 1/2 * (gB3 g k j i + gB3 g (k + 1)%Z j i).
(** The cell is next to the boundary [s] of the region along [a]. *)
Definition beside (oc : ovl) (a : axis) (s : bool) (k j i : Z) : bool :=
  match a with
  | X1 => inb oc X3 k && inb oc X2 j && (i =? side oc X1 s)%Z
  | X2 => inb oc X3 k && (j =? side oc X2 s)%Z && inb oc X1 i
  | X3 => (k =? side oc X3 s)%Z && inb oc X2 j && inb oc X1 i
  end.
Ltac t_ind H :=
  match type of H with context [ind ?c ?x] => let E := fresh "E" in destruct c eqn:E; cbn [ind] in H end.
Ltac killind := repeat match goal with |- context [ind ?c ?x] => replace c with false by lia; cbn [ind] end.

Lemma emfs1_st : forall nDim oc last r1 r2 r3 fc ff s g rest, (2 <= nDim <= 3)%nat -> (forall a, (0 <= len oc a)%Z) ->
  exists g', emfs1 nDim oc (last X2) (last X3) r1 r2 r3 fc s g
      ((if some (o_emf3 oc X1 s) then emfl (avgE_slow nDim X3 X2 (f_emf3 ff X1 s)) (len oc X3) (len oc X2 + 1) ++
          (if (nDim =? 3)%nat then emfl (avgE_fast nDim X3 X2 (f_emf2 ff X1 s)) (len oc X3 + 1) (len oc X2) else []) else []) ++ rest) = Some (g', rest) /\
    (forall k j i, gB1 g' k j i = gB1 g k j i + c11 nDim oc r2 r3 fc ff s k j i) /\
    (forall k j i, gB2 g' k j i = gB2 g k j i + c21 nDim oc last r1 fc ff s k j i) /\
    (forall k j i, gB3 g' k j i = gB3 g k j i + c31 nDim oc last r1 fc ff s k j i) /\
    (forall k j i v, plain nDim v -> gU g' k j i v = gU g k j i v) /\
    (touch oc X1 = false -> forall k j i,
       (okc1 g k j i \/ some (o_emf3 oc X1 s) && beside oc X1 s k j i = true -> okc1 g' k j i) /\
       (okc2 g k j i \/ some (o_emf3 oc X1 s) && beside oc X1 s k j i = true -> okc2 g' k j i) /\
       (nDim = 3%nat -> okc3 g k j i \/ some (o_emf3 oc X1 s) && beside oc X1 s k j i = true -> okc3 g' k j i)).
Proof.
  intros nDim oc last r1 r2 r3 fc ff s g rest D N.
  destruct (emfs1_eq nDim oc (last X2) (last X3) r1 r2 r3 fc (avgE_slow nDim X3 X2 (f_emf3 ff X1 s)) (avgE_fast nDim X3 X2 (f_emf2 ff X1 s)) s g rest D N) as (g' & H0 & H1 & H2 & H3 & H4 & H5 & H6 & H7).
  exists g'. split; [exact H0|].
  split. { intros. rewrite H1. unfold c11, fl, touch, td, d3, d2, Ef3, Ef2, k', j'. ring. }
  split. { intros. rewrite H2. unfold c21, fl, l2, touch, d3, Ef3, k', j'. ring. }
  split. { intros. rewrite H3. unfold c31, fl, l3, touch, td, d2, Ef2, k', j'. ring. }
  split; [exact H4|].
  intros T k j i. unfold touch in T. rewrite T in *. pose proof (N X1) as N1. unfold len in N1.
  split; [|split].
  - intros HH. unfold okc1 in *. rewrite H5.
    destruct (some (o_emf3 oc X1 s) && inb oc X3 k && inb oc X2 j && ((i =? bface oc X1 s) || (i =? bface oc X1 s - 1))%Z) eqn:C; [reflexivity|].
    rewrite !H1. rewrite !andb_false_r; cbn [andb ind].
    destruct HH as [HH|HH].
    + rewrite HH. killind. lra.
    + exfalso. unfold beside, side, bface in *. destruct s; lia.
  - intros HH. unfold okc2 in *. rewrite H6.
    destruct (some (o_emf3 oc X1 s) && inb oc X3 k && btw (o_s oc X2 - 1) j (o_e oc X2 + 1) && (i =? side oc X1 s)%Z) eqn:C; [reflexivity|].
    rewrite !H2. unfold btw in *.
    destruct HH as [HH|HH].
    + rewrite HH. match goal with |- context [(?x <=? (if ?b then ?u else ?v))%Z] => assert (J : ((if b then u else v) <= o_e oc X2 + 1)%Z) by (destruct b; lia) end.
      killind. lra.
    + exfalso. unfold beside, inb in *. lia.
  - intros D3 HH. unfold okc3 in *. rewrite (H7 D3).
    destruct (some (o_emf3 oc X1 s) && inb oc X2 j && btw (o_s oc X3 - 1) k (o_e oc X3 + 1) && (i =? side oc X1 s)%Z) eqn:C; [reflexivity|].
    rewrite !H3. unfold btw in *.
    destruct HH as [HH|HH].
    + rewrite HH. match goal with |- context [(?x <=? (if ?b then ?u else ?v))%Z] => assert (J : ((if b then u else v) <= o_e oc X3 + 1)%Z) by (destruct b; lia) end.
      killind. lra.
    + exfalso. unfold beside, inb in *. lia.
Qed.
Lemma emfs2_st : forall nDim oc last r1 r2 r3 fc ff s g rest, (2 <= nDim <= 3)%nat -> (forall a, (0 <= len oc a)%Z) ->
  exists g', emfs2 nDim oc (last X1) (last X3) r1 r2 r3 fc s g
      ((if some (o_emf3 oc X2 s) then emfl (avgE_slow nDim X3 X1 (f_emf3 ff X2 s)) (len oc X3) (len oc X1 + 1) ++
          (if (nDim =? 3)%nat then emfl (avgE_fast nDim X3 X1 (f_emf1 ff X2 s)) (len oc X3 + 1) (len oc X1) else []) else []) ++ rest) = Some (g', rest) /\
    (forall k j i, gB1 g' k j i = gB1 g k j i + c12 nDim oc last r2 fc ff s k j i) /\
    (forall k j i, gB2 g' k j i = gB2 g k j i + c22 nDim oc r1 r3 fc ff s k j i) /\
    (forall k j i, gB3 g' k j i = gB3 g k j i + c32 nDim oc last r2 fc ff s k j i) /\
    (forall k j i v, plain nDim v -> gU g' k j i v = gU g k j i v) /\
    (touch oc X2 = false -> forall k j i,
       (okc1 g k j i \/ some (o_emf3 oc X2 s) && beside oc X2 s k j i = true -> okc1 g' k j i) /\
       (okc2 g k j i \/ some (o_emf3 oc X2 s) && beside oc X2 s k j i = true -> okc2 g' k j i) /\
       (nDim = 3%nat -> okc3 g k j i \/ some (o_emf3 oc X2 s) && beside oc X2 s k j i = true -> okc3 g' k j i)).
Proof.
  intros nDim oc last r1 r2 r3 fc ff s g rest D N.
  destruct (emfs2_eq nDim oc (last X1) (last X3) r1 r2 r3 fc (avgE_slow nDim X3 X1 (f_emf3 ff X2 s)) (avgE_fast nDim X3 X1 (f_emf1 ff X2 s)) s g rest D N) as (g' & H0 & H1 & H2 & H3 & H4 & H5 & H6 & H7).
  exists g'. split; [exact H0|].
  split. { intros. rewrite H1. unfold c12, fl, l1, touch, td, d3, d2, Ef3, Ef2, k', i'. ring. }
  split. { intros. rewrite H2. unfold c22, fl, touch, td, d3, d1, Ef3, Ef1, k', i'. ring. }
  split. { intros. rewrite H3. unfold c32, fl, l3, touch, td, d1, Ef1, k', i'. ring. }
  split; [exact H4|].
  intros T k j i. unfold touch in T. rewrite T in *. pose proof (N X2) as N1. unfold len in N1.
  split; [|split].
  - intros HH. unfold okc1 in *. rewrite H5.
    destruct (some (o_emf3 oc X2 s) && inb oc X3 k && (j =? side oc X2 s)%Z && btw (o_s oc X1 - 1) i (o_e oc X1 + 1)) eqn:C; [reflexivity|].
    rewrite !H1. unfold btw in *.
    destruct HH as [HH|HH].
    + rewrite HH. match goal with |- context [(?x <=? (if ?b then ?u else ?v))%Z] => assert (J : ((if b then u else v) <= o_e oc X1 + 1)%Z) by (destruct b; lia) end.
      killind. lra.
    + exfalso. unfold beside, inb in *. lia.
  - intros HH. unfold okc2 in *. rewrite H6.
    destruct (some (o_emf3 oc X2 s) && inb oc X3 k && ((j =? bface oc X2 s) || (j =? bface oc X2 s - 1))%Z && inb oc X1 i) eqn:C; [reflexivity|].
    rewrite !H2. rewrite !andb_false_r; cbn [andb ind].
    destruct HH as [HH|HH].
    + rewrite HH. killind. lra.
    + exfalso. unfold beside, side, bface in *. destruct s; lia.
  - intros D3 HH. unfold okc3 in *. rewrite (H7 D3).
    destruct (some (o_emf3 oc X2 s) && btw (o_s oc X3 - 1) k (o_e oc X3 + 1) && (j =? side oc X2 s)%Z && inb oc X1 i) eqn:C; [reflexivity|].
    rewrite !H3. unfold btw in *.
    destruct HH as [HH|HH].
    + rewrite HH. match goal with |- context [(?x <=? (if ?b then ?u else ?v))%Z] => assert (J : ((if b then u else v) <= o_e oc X3 + 1)%Z) by (destruct b; lia) end.
      killind. lra.
    + exfalso. unfold beside, inb in *. lia.
Qed.
Lemma emfs3_st : forall oc last r1 r2 r3 fc ff s g rest, (forall a, (0 <= len oc a)%Z) ->
  exists g', emfs3 oc (last X1) (last X2) r1 r2 r3 fc s g
      ((if some (o_emf1 oc X3 s) then emfl (avgE_fast 3 X2 X1 (f_emf1 ff X3 s)) (len oc X2 + 1) (len oc X1) ++
          emfl (avgE_slow 3 X2 X1 (f_emf2 ff X3 s)) (len oc X2) (len oc X1 + 1) else []) ++ rest) = Some (g', rest) /\
    (forall k j i, gB1 g' k j i = gB1 g k j i + c13 3 oc last r3 fc ff s k j i) /\
    (forall k j i, gB2 g' k j i = gB2 g k j i + c23 3 oc last r3 fc ff s k j i) /\
    (forall k j i, gB3 g' k j i = gB3 g k j i + c33 3 oc r1 r2 fc ff s k j i) /\
    (forall k j i v, plain 3 v -> gU g' k j i v = gU g k j i v) /\
    (touch oc X3 = false -> forall k j i,
       (okc1 g k j i \/ some (o_emf1 oc X3 s) && beside oc X3 s k j i = true -> okc1 g' k j i) /\
       (okc2 g k j i \/ some (o_emf1 oc X3 s) && beside oc X3 s k j i = true -> okc2 g' k j i) /\
       (okc3 g k j i \/ some (o_emf1 oc X3 s) && beside oc X3 s k j i = true -> okc3 g' k j i)).
Proof.
  intros oc last r1 r2 r3 fc ff s g rest N.
  destruct (emfs3_eq oc (last X1) (last X2) r1 r2 r3 fc (avgE_fast 3 X2 X1 (f_emf1 ff X3 s)) (avgE_slow 3 X2 X1 (f_emf2 ff X3 s)) s g rest N) as (g' & H0 & H1 & H2 & H3 & H4 & H5 & H6 & H7).
  exists g'. split; [exact H0|].
  split. { intros. rewrite H1. unfold c13, fl, l1, touch, d2, Ef2, j', i'. ring. }
  split. { intros. rewrite H2. unfold c23, fl, l2, touch, d1, Ef1, j', i'. ring. }
  split. { intros. rewrite H3. unfold c33, fl, touch, d1, d2, Ef1, Ef2, j', i'. ring. }
  split; [exact H4|].
  intros T k j i. unfold touch in T. rewrite T in *. pose proof (N X3) as N1. unfold len in N1.
  split; [|split].
  - intros HH. unfold okc1 in *. rewrite H5.
    destruct (some (o_emf1 oc X3 s) && (k =? side oc X3 s)%Z && inb oc X2 j && btw (o_s oc X1 - 1) i (o_e oc X1 + 1)) eqn:C; [reflexivity|].
    rewrite !H1. unfold btw in *.
    destruct HH as [HH|HH].
    + rewrite HH. match goal with |- context [(?x <=? (if ?b then ?u else ?v))%Z] => assert (J : ((if b then u else v) <= o_e oc X1 + 1)%Z) by (destruct b; lia) end.
      killind. lra.
    + exfalso. unfold beside, inb in *. lia.
  - intros HH. unfold okc2 in *. rewrite H6.
    destruct (some (o_emf1 oc X3 s) && (k =? side oc X3 s)%Z && btw (o_s oc X2 - 1) j (o_e oc X2 + 1) && inb oc X1 i) eqn:C; [reflexivity|].
    rewrite !H2. unfold btw in *.
    destruct HH as [HH|HH].
    + rewrite HH. match goal with |- context [(?x <=? (if ?b then ?u else ?v))%Z] => assert (J : ((if b then u else v) <= o_e oc X2 + 1)%Z) by (destruct b; lia) end.
      killind. lra.
    + exfalso. unfold beside, inb in *. lia.
  - intros HH. unfold okc3 in *. rewrite H7.
    destruct (some (o_emf1 oc X3 s) && ((k =? bface oc X3 s) || (k =? bface oc X3 s - 1))%Z && inb oc X2 j && inb oc X1 i) eqn:C; [reflexivity|].
    rewrite !H3. rewrite !andb_false_r; cbn [andb ind].
    destruct HH as [HH|HH].
    + rewrite HH. killind. lra.
    + exfalso. unfold beside, side, bface in *. destruct s; lia.
Qed.

(** All EMF corrections. *)
Definition anyside (oc : ovl) (k j i : Z) : bool :=
  (fl oc X1 false && beside oc X1 false k j i) || (fl oc X1 true && beside oc X1 true k j i) ||
  (fl oc X2 false && beside oc X2 false k j i) || (fl oc X2 true && beside oc X2 true k j i) ||
  (fl oc X3 false && beside oc X3 false k j i) || (fl oc X3 true && beside oc X3 true k j i).
Lemma emfs_eq : forall c nDim oc of last r1 r2 r3 fc ff g, paired c nDim oc of -> c_mhd c = true -> (2 <= nDim)%nat ->
  exists g',
    bnd (emfs1 nDim oc (last X2) (last X3) r1 r2 r3 fc false g (pack_emf1 nDim of ff false ++ pack_emf1 nDim of ff true ++
       pack_emf2 nDim of ff false ++ pack_emf2 nDim of ff true ++ pack_emf3 of ff false ++ pack_emf3 of ff true)) (fun g m =>
    bnd (emfs1 nDim oc (last X2) (last X3) r1 r2 r3 fc true g m) (fun g m =>
    bnd (emfs2 nDim oc (last X1) (last X3) r1 r2 r3 fc false g m) (fun g m =>
    bnd (emfs2 nDim oc (last X1) (last X3) r1 r2 r3 fc true g m) (fun g m =>
    bnd (emfs3 oc (last X1) (last X2) r1 r2 r3 fc false g m) (fun g m =>
    emfs3 oc (last X1) (last X2) r1 r2 r3 fc true g m))))) = Some (g', []) /\
    (forall k j i, gB1 g' k j i = gB1 g k j i + cB1 nDim oc last r2 r3 fc ff k j i) /\
    (forall k j i, gB2 g' k j i = gB2 g k j i + cB2 nDim oc last r1 r3 fc ff k j i) /\
    (forall k j i, gB3 g' k j i = gB3 g k j i + cB3 nDim oc last r1 r2 fc ff k j i) /\
    (forall k j i v, plain nDim v -> gU g' k j i v = gU g k j i v) /\
    ((forall a, (0 < len oc a)%Z) -> forall k j i,
       (okc1 g k j i \/ anyside oc k j i = true -> okc1 g' k j i) /\
       (okc2 g k j i \/ anyside oc k j i = true -> okc2 g' k j i) /\
       (nDim = 3%nat -> okc3 g k j i \/ anyside oc k j i = true -> okc3 g' k j i)).
Proof.
  intros c nDim oc of last r1 r2 r3 fc ff g P M TD.
  assert (D : (2 <= nDim <= 3)%nat) by (pose proof (pd_dim _ _ _ _ P); lia).
  assert (N : forall a, (0 <= len oc a)%Z) by (intros a; apply (pd_len _ _ _ _ P)).
  rewrite !(pack_emf1_eq _ _ _ _ _ _ P TD), !(pack_emf2_eq _ _ _ _ _ _ P TD), !(pack_emf3_eq _ _ _ _ _ _ P TD).
  match goal with |- context [emfs1 _ _ _ _ _ _ _ _ false g (_ ++ ?r)] => destruct (emfs1_st nDim oc last r1 r2 r3 fc ff false g r D N) as (g1 & -> & A1 & A2 & A3 & A4 & A5) end. cbn [bnd].
  match goal with |- context [emfs1 _ _ _ _ _ _ _ _ true g1 (_ ++ ?r)] => destruct (emfs1_st nDim oc last r1 r2 r3 fc ff true g1 r D N) as (g2 & -> & B1 & B2 & B3 & B4 & B5) end. cbn [bnd].
  match goal with |- context [emfs2 _ _ _ _ _ _ _ _ false g2 (_ ++ ?r)] => destruct (emfs2_st nDim oc last r1 r2 r3 fc ff false g2 r D N) as (g3 & -> & C1 & C2 & C3 & C4 & C5) end. cbn [bnd].
  match goal with |- context [emfs2 _ _ _ _ _ _ _ _ true g3 (_ ++ ?r)] => destruct (emfs2_st nDim oc last r1 r2 r3 fc ff true g3 r D N) as (g4 & -> & D1 & D2 & D3 & D4 & D5) end. cbn [bnd].
  assert (S3 : exists g6, bnd (emfs3 oc (last X1) (last X2) r1 r2 r3 fc false g4
        ((if some (o_emf1 oc X3 false) then emfl (avgE_fast nDim X2 X1 (f_emf1 ff X3 false)) (len oc X2 + 1) (len oc X1) ++ emfl (avgE_slow nDim X2 X1 (f_emf2 ff X3 false)) (len oc X2) (len oc X1 + 1) else []) ++
         (if some (o_emf1 oc X3 true) then emfl (avgE_fast nDim X2 X1 (f_emf1 ff X3 true)) (len oc X2 + 1) (len oc X1) ++ emfl (avgE_slow nDim X2 X1 (f_emf2 ff X3 true)) (len oc X2) (len oc X1 + 1) else [])))
        (fun g m => emfs3 oc (last X1) (last X2) r1 r2 r3 fc true g m) = Some (g6, []) /\
      (forall k j i, gB1 g6 k j i = gB1 g4 k j i + (c13 nDim oc last r3 fc ff false k j i + c13 nDim oc last r3 fc ff true k j i)) /\
      (forall k j i, gB2 g6 k j i = gB2 g4 k j i + (c23 nDim oc last r3 fc ff false k j i + c23 nDim oc last r3 fc ff true k j i)) /\
      (forall k j i, gB3 g6 k j i = gB3 g4 k j i + (c33 nDim oc r1 r2 fc ff false k j i + c33 nDim oc r1 r2 fc ff true k j i)) /\
      (forall k j i v, plain nDim v -> gU g6 k j i v = gU g4 k j i v) /\
      (touch oc X3 = false -> forall k j i, let b := fl oc X3 false && beside oc X3 false k j i || fl oc X3 true && beside oc X3 true k j i in
       (okc1 g4 k j i \/ b = true -> okc1 g6 k j i) /\ (okc2 g4 k j i \/ b = true -> okc2 g6 k j i) /\ (nDim = 3%nat -> okc3 g4 k j i \/ b = true -> okc3 g6 k j i))).
  { assert (ND : nDim = 2%nat \/ nDim = 3%nat) by lia. destruct ND as [-> | ->].
    - assert (F : forall s, some (o_emf1 oc X3 s) = false) by (intros s; rewrite (pd_emf3 _ _ _ _ P ltac:(lia) s); reflexivity).
      rewrite !F. unfold emfs3. rewrite !F. cbn [app negb bnd]. exists g4. split; [reflexivity|].
      unfold c13, c23, c33, fl. rewrite !F. cbn [andb ind orb].
      split; [intros; lra|]. split; [intros; lra|]. split; [intros; lra|]. split; [reflexivity|].
      intros _ k j i. split; [|split]; intros; intuition; discriminate.
    - match goal with |- context [emfs3 _ _ _ _ _ _ _ false g4 (_ ++ ?r)] => destruct (emfs3_st oc last r1 r2 r3 fc ff false g4 r N) as (g5 & -> & E1 & E2 & E3 & E4 & E5) end. cbn [bnd].
      match goal with |- context [emfs3 _ _ _ _ _ _ _ true g5 ?r] => destruct (emfs3_st oc last r1 r2 r3 fc ff true g5 [] N) as (g6 & F0 & F1 & F2 & F3 & F4 & F5) end.
      rewrite app_nil_r in F0. rewrite F0. exists g6. split; [reflexivity|].
      split; [intros; rewrite F1, E1; lra|]. split; [intros; rewrite F2, E2; lra|]. split; [intros; rewrite F3, E3; lra|]. split; [intros; rewrite F4, E4 by assumption; reflexivity|].
      intros T k j i. cbv zeta. specialize (E5 T k j i). specialize (F5 T k j i). unfold fl. rewrite !orb_true_iff.
      destruct E5 as (X & Y & Z0). destruct F5 as (X' & Y' & Z'). repeat split; intuition. }
  destruct S3 as (g6 & -> & E1 & E2 & E3 & E4 & E5).
  exists g6. split; [reflexivity|].
  split; [intros; rewrite E1, D1, C1, B1, A1; unfold cB1; ring|].
  split; [intros; rewrite E2, D2, C2, B2, A2; unfold cB2; ring|].
  split; [intros; rewrite E3, D3, C3, B3, A3; unfold cB3; ring|].
  split; [intros; rewrite E4, D4, C4, B4, A4 by assumption; reflexivity|].
  intros T k j i.
  assert (T' : forall a, touch oc a = false) by (intros a; unfold touch; specialize (T a); unfold len in T; lia).
  specialize (A5 (T' X1) k j i). specialize (B5 (T' X1) k j i). specialize (C5 (T' X2) k j i). specialize (D5 (T' X2) k j i). specialize (E5 (T' X3) k j i). cbv zeta in E5.
  unfold anyside. rewrite !orb_true_iff. rewrite orb_true_iff in E5. change (fl oc X1 false) with (some (o_emf3 oc X1 false)). change (fl oc X1 true) with (some (o_emf3 oc X1 true)).
  change (fl oc X2 false) with (some (o_emf3 oc X2 false)). change (fl oc X2 true) with (some (o_emf3 oc X2 true)).
  destruct A5 as (a1 & a2 & a3). destruct B5 as (b1 & b2 & b3). destruct C5 as (cc1 & cc2 & cc3). destruct D5 as (dd1 & dd2 & dd3). destruct E5 as (e1 & e2 & e3).
  split; [|split].
  - clear - a1 b1 cc1 dd1 e1. tauto.
  - clear - a2 b2 cc2 dd2 e2. tauto.
  - intros Q. specialize (a3 Q). specialize (b3 Q). specialize (cc3 Q). specialize (dd3 Q). specialize (e3 Q). clear - a3 b3 cc3 dd3 e3. tauto.
Qed.

(** ** The whole function *)
Lemma pack_RC_eq : forall c nDim oc of g f, paired c nDim oc of ->
  pack_RC c nDim of g f = map (fun '(p, v) => avgU nDim of g p v) (cells2 (base3 oc) (vars c)) ++ (if c_mhd c then pack_fld nDim of g else []) ++
    flxs c nDim oc (f_flx f X1 false) X1 X3 X2 false ++ flxs c nDim oc (f_flx f X1 true) X1 X3 X2 true ++
    flxs c nDim oc (f_flx f X2 false) X2 X3 X1 false ++ flxs c nDim oc (f_flx f X2 true) X2 X3 X1 true ++
    flxs c nDim oc (f_flx f X3 false) X3 X2 X1 false ++ flxs c nDim oc (f_flx f X3 true) X3 X2 X1 true ++
    (if c_mhd c then pack_emf1 nDim of f false ++ pack_emf1 nDim of f true ++ pack_emf2 nDim of f false ++ pack_emf2 nDim of f true ++ pack_emf3 of f false ++ pack_emf3 of f true else []).
Proof.
  intros c nDim oc of g f P. unfold pack_RC. rewrite (pack_cons_eq _ _ _ _ _ P), !(pack_flx1_eq _ _ _ _ _ _ P), !(pack_flx2_eq _ _ _ _ _ _ P), !(pack_flx3_eq _ _ _ _ _ _ P). reflexivity.
Qed.
(** No boundary of the region next to the cell is without correction. *)
Definition seen (oc : ovl) (k j i : Z) : Prop := forall a s, beside oc a s k j i = true -> some (o_flx oc a s) = true.
Definition newU (c : cfg) (nDim : nat) (oc of : ovl) (r1 r2 r3 : R) (fc ff : flx) (g gf : gst) (k j i : Z) (v : var) : R :=
  (if in3 oc k j i && in_vars c v then avgU nDim of gf (k - o_s oc X3, j - o_s oc X2, i - o_s oc X1)%Z v else gU g k j i v) + cor c nDim oc r1 r2 r3 fc ff k j i v.

Lemma beside_corr : forall c nDim oc r1 r2 r3 fc ff k j i v, (forall a s, some (o_flx oc a s) && beside oc a s k j i = false) -> cor c nDim oc r1 r2 r3 fc ff k j i v = 0.
Proof.
  intros c nDim oc r1 r2 r3 fc ff k j i v H. unfold cor, cor1, cor2, cor3, corrected.
  assert (K1 : forall a b c d e, a && (b && c && d) = false -> a && (b && c) && d && e = false) by (intros [] [] [] [] []; cbn; auto).
  assert (K2 : forall a b c d e, a && (b && d && c) = false -> a && (b && c) && d && e = false) by (intros [] [] [] [] []; cbn; auto).
  assert (K3 : forall a b c d e, a && (d && b && c) = false -> a && (b && c) && d && e = false) by (intros [] [] [] [] []; cbn; auto).
  rewrite (K1 _ _ _ _ _ (H X1 false)), (K1 _ _ _ _ _ (H X1 true)), (K2 _ _ _ _ _ (H X2 false)), (K2 _ _ _ _ _ (H X2 true)), (K3 _ _ _ _ _ (H X3 false)), (K3 _ _ _ _ _ (H X3 true)). cbn [ind]. lra.
Qed.

Lemma correct_mhd : forall c nDim oc of last r1 r2 r3 fc g gf ff, paired c nDim oc of -> wide c nDim oc -> c_mhd c = true -> (2 <= nDim)%nat ->
  exists g', correct_RC c nDim oc last r1 r2 r3 fc g (pack_RC c nDim of gf ff) = Some (g', []) /\
    (forall k j i v, plain nDim v -> gU g' k j i v = newU c nDim oc of r1 r2 r3 fc ff g gf k j i v) /\
    (forall k j i, gB1 g' k j i = set1 nDim oc of (gB1 gf) (gB1 g) k j i + cB1 nDim oc last r2 r3 fc ff k j i) /\
    (forall k j i, gB2 g' k j i = set2 nDim oc of (gB2 gf) (gB2 g) k j i + cB2 nDim oc last r1 r3 fc ff k j i) /\
    (nDim = 3%nat -> forall k j i, gB3 g' k j i = set3 nDim oc of (gB3 gf) (gB3 g) k j i + cB3 nDim oc last r1 r2 fc ff k j i) /\
    (nDim = 2%nat -> forall k j i, gB3 g' k j i = if in3 oc k j i then gU g' k j i VB3 else gB3 g k j i) /\
    ((forall a, (0 < len oc a)%Z) -> forall k j i, seen oc k j i ->
       (okc1 g k j i \/ inside oc k j i -> okc1 g' k j i) /\
       (okc2 g k j i \/ inside oc k j i -> okc2 g' k j i) /\
       (nDim = 3%nat -> okc3 g k j i \/ inside oc k j i -> okc3 g' k j i)).
Proof.
  intros c nDim oc of last r1 r2 r3 fc g gf ff P W M TD. rewrite (pack_RC_eq _ _ _ _ _ _ P). unfold correct_RC. rewrite M. replace (2 <=? nDim)%nat with true by lia. cbn [andb].
  match goal with |- context [get_cons c oc g (_ ++ ?r)] => destruct (get_cons_eq c nDim oc of g gf r P) as (g1 & -> & A1 & A2 & A3 & A4) end. cbn [bnd].
  match goal with |- context [get_fld nDim oc g1 (_ ++ ?r)] => destruct (get_fld_eq c nDim oc of g1 gf r P W M TD) as (g2 & -> & B1 & B2 & B3 & B4 & B5 & B6 & B7) end. cbn [bnd].
  match goal with |- context [corr3 c oc r3 fc true _ _] => idtac end.
  match goal with |- context [flxs c nDim oc (f_flx ff X3 true) X3 X2 X1 true ++ ?r] => 
    match goal with |- context [corr3 c oc r3 fc true _ _] => destruct (corrs_eq c nDim oc r1 r2 r3 fc ff g2 r (fun g m =>
    bnd (emfs1 nDim oc (last X2) (last X3) r1 r2 r3 fc false g m) (fun g m =>
    bnd (emfs1 nDim oc (last X2) (last X3) r1 r2 r3 fc true g m) (fun g m =>
    bnd (emfs2 nDim oc (last X1) (last X3) r1 r2 r3 fc false g m) (fun g m =>
    bnd (emfs2 nDim oc (last X1) (last X3) r1 r2 r3 fc true g m) (fun g m =>
    bnd (emfs3 oc (last X1) (last X2) r1 r2 r3 fc false g m) (fun g m =>
    emfs3 oc (last X1) (last X2) r1 r2 r3 fc true g m)))))) ) as (g3 & -> & C1 & C2 & C3 & C4) end end.
  destruct (emfs_eq c nDim oc of last r1 r2 r3 fc ff g3 P M TD) as (g4 & -> & D1 & D2 & D3 & D4 & D5).
  exists g4. split; [reflexivity|].
  assert (NB : forall v, plain nDim v -> forall k j i, gU g4 k j i v = newU c nDim oc of r1 r2 r3 fc ff g gf k j i v).
  { intros v V k j i. rewrite D4, C4, B4, A1 by exact V. reflexivity. }
  split; [intros; apply NB; assumption|].
  split; [intros; rewrite D1, C1, B1; unfold set1; rewrite A2; reflexivity|].
  split; [intros; rewrite D2, C2, B2; unfold set2; rewrite A3; reflexivity|].
  split. { intros ND k j i. rewrite D3, C3, B3, ND. cbn [Nat.eqb]. unfold set3. rewrite A4. reflexivity. }
  split. { intros ND k j i. rewrite D3, C3, B3, ND. cbn [Nat.eqb]. subst nDim.
    assert (F : forall s, some (o_emf1 oc X3 s) = false) by (intros s; rewrite (pd_emf3 _ _ _ _ P ltac:(lia) s); reflexivity).
    unfold cB3, c31, c32, c33, fl, td. rewrite !F. cbn [Nat.eqb]. rewrite !andb_false_r. cbn [andb ind].
    destruct (in3 oc k j i) eqn:EI; [|rewrite A4; lra]. rewrite (NB VB3) by (cbn; lia). rewrite A1. unfold newU. rewrite cor_inside by (apply in3_inside; exact EI). rewrite EI. lra. }
  intros T k j i SN. specialize (D5 T k j i).
  pose proof (pd_same _ _ _ _ P TD M) as SM.
  assert (AS : (forall a s, some (o_flx oc a s) && beside oc a s k j i = false) \/ anyside oc k j i = true).
  { destruct (anyside oc k j i) eqn:AN; [right; reflexivity|left]. unfold anyside in AN. rewrite !orb_false_iff in AN. unfold fl in AN.
    destruct (SM false) as (-> & -> & ->) in AN. destruct (SM true) as (-> & -> & ->) in AN. intros [] []; tauto. }
  destruct AS as [AS|AS].
  2:{ destruct D5 as (x & y & z). split; [|split]; intros; [apply x|apply y|apply z]; auto. }
  assert (NB0 : in3 oc k j i = true \/ (forall a s, beside oc a s k j i = false)).
  { right. intros a s. destruct (beside oc a s k j i) eqn:Q; [|reflexivity]. specialize (SN a s Q). specialize (AS a s). rewrite SN, Q in AS. discriminate. }
  assert (U3 : forall v, gU g3 k j i v = gU g2 k j i v) by (intros v; rewrite C4, beside_corr by exact AS; lra).
  destruct D5 as (x & y & z).
  destruct (in3 oc k j i) eqn:EI.
  - split; [|split].
    + intros _. apply x. left. unfold okc1. rewrite U3, C1, B5, EI. reflexivity.
    + intros _. apply y. left. unfold okc2. rewrite U3, C2, B6, EI. reflexivity.
    + intros Q _. apply z; [exact Q|]. left. unfold okc3. rewrite U3, C3, (B7 Q), EI. reflexivity.
  - destruct NB0 as [NB0|NB0]; [discriminate|].
    assert (NI : ~ inside oc k j i) by (rewrite <- in3_inside; congruence).
    pose proof (T X1) as T1. pose proof (T X2) as T2. pose proof (T X3) as T3. unfold len in T1, T2, T3.
    pose proof (NB0 X1 false) as b1. pose proof (NB0 X1 true) as b2. pose proof (NB0 X2 false) as b3. pose proof (NB0 X2 true) as b4. pose proof (NB0 X3 false) as b5. pose proof (NB0 X3 true) as b6.
    cbn [beside side] in *. clear NB0 SN AS SM.
    assert (Q1 : set1 nDim oc of (gB1 gf) (gB1 g1) k j i = gB1 g1 k j i /\ set1 nDim oc of (gB1 gf) (gB1 g1) k j (i + 1) = gB1 g1 k j (i + 1)%Z).
    { unfold set1, st1, in3, inb in *. clear - EI b1 b2 T1.
      split; match goal with |- (if ?c then _ else _) = _ => destruct c eqn:CC; [exfalso; lia|reflexivity] end. }
    assert (Q2 : set2 nDim oc of (gB2 gf) (gB2 g1) k j i = gB2 g1 k j i /\ set2 nDim oc of (gB2 gf) (gB2 g1) k (j + 1) i = gB2 g1 k (j + 1)%Z i).
    { unfold set2, st2, in3, inb in *. clear - EI b3 b4 T2.
      split; match goal with |- (if ?c then _ else _) = _ => destruct c eqn:CC; [exfalso; lia|reflexivity] end. }
    assert (Q3 : set3 nDim oc of (gB3 gf) (gB3 g1) k j i = gB3 g1 k j i /\ set3 nDim oc of (gB3 gf) (gB3 g1) (k + 1) j i = gB3 g1 (k + 1)%Z j i).
    { unfold set3, st3, in3, inb in *. clear - EI b5 b6 T3.
      split; match goal with |- (if ?c then _ else _) = _ => destruct c eqn:CC; [exfalso; lia|reflexivity] end. }
    split; [|split].
    + intros [H|H]; [|contradiction]. apply x. left. unfold okc1 in *. rewrite U3, C1, B5, EI, A1, EI, !B1. destruct Q1 as [-> ->]. rewrite A2. exact H.
    + intros [H|H]; [|contradiction]. apply y. left. unfold okc2 in *. rewrite U3, C2, B6, EI, A1, EI, !B2. destruct Q2 as [-> ->]. rewrite A3. exact H.
    + intros Q [H|H]; [|contradiction]. apply z; [exact Q|]. left. unfold okc3 in *. rewrite U3, C3, (B7 Q), EI, A1, EI, !B3. replace (nDim =? 3)%nat with true by lia. destruct Q3 as [-> ->]. rewrite A4. exact H.
Qed.

Lemma correct_hyd : forall c nDim oc of last r1 r2 r3 fc g gf ff, paired c nDim oc of -> c_mhd c = false \/ nDim = 1%nat ->
  exists g', correct_RC c nDim oc last r1 r2 r3 fc g (pack_RC c nDim of gf ff) = Some (g', []) /\
    (forall k j i v, gU g' k j i v = newU c nDim oc of r1 r2 r3 fc ff g gf k j i v) /\
    (c_mhd c = true -> forall k j i,
       gB1 g' k j i = (if in3 oc k j i then gU g' k j i VB1 else gB1 g k j i) /\
       gB2 g' k j i = (if in3 oc k j i then gU g' k j i VB2 else gB2 g k j i) /\
       gB3 g' k j i = (if in3 oc k j i then gU g' k j i VB3 else gB3 g k j i)).
Proof.
  intros c nDim oc of last r1 r2 r3 fc g gf ff P HM. rewrite (pack_RC_eq _ _ _ _ _ _ P). unfold correct_RC.
  replace (c_mhd c && (2 <=? nDim)%nat) with false by (destruct HM as [-> | ->]; [reflexivity|symmetry; apply andb_false_r]).
  assert (FL : (if c_mhd c then pack_fld nDim of gf else []) = []) by (destruct HM as [-> | ->]; [reflexivity|]; destruct (c_mhd c); reflexivity).
  assert (EM : (if c_mhd c then pack_emf1 nDim of ff false ++ pack_emf1 nDim of ff true ++ pack_emf2 nDim of ff false ++ pack_emf2 nDim of ff true ++ pack_emf3 of ff false ++ pack_emf3 of ff true else []) = []).
  { destruct (c_mhd c) eqn:M; [|reflexivity]. destruct HM as [HM | HM]; [discriminate|]. subst nDim.
    assert (PE : forall s, pack_emf1 1 of ff s = [] /\ pack_emf2 1 of ff s = [] /\ pack_emf3 of ff s = []).
    { intros s. unfold pack_emf1, pack_emf2, pack_emf3. destruct (pd_flags _ _ _ _ P X1 s) as (_ & _ & _ & <-). destruct (pd_flags _ _ _ _ P X2 s) as (_ & _ & _ & <-). destruct (pd_flags _ _ _ _ P X3 s) as (_ & <- & _ & _).
      destruct (pd_emf12 _ _ _ _ P ltac:(lia) X1 s) as (_ & _ & ->). destruct (pd_emf12 _ _ _ _ P ltac:(lia) X2 s) as (_ & _ & ->). destruct (pd_emf12 _ _ _ _ P ltac:(lia) X3 s) as (-> & _ & _). auto. }
    destruct (PE false) as (-> & -> & ->). destruct (PE true) as (-> & -> & ->). reflexivity. }
  rewrite FL, EM. cbn [app].
  match goal with |- context [get_cons c oc g (_ ++ ?r)] => destruct (get_cons_eq c nDim oc of g gf r P) as (g1 & -> & A1 & A2 & A3 & A4) end. cbn [bnd].
  set (rest := flxs c nDim oc (f_flx ff X1 false) X1 X3 X2 false ++ _).
  assert (FD : exists g2, (if c_mhd c then get_fld nDim oc g1 rest else Some (g1, rest)) = Some (g2, rest) /\ gU g2 = gU g1 /\
     (c_mhd c = true -> forall k j i,
       gB1 g2 k j i = (if in3 oc k j i then gU g2 k j i VB1 else gB1 g k j i) /\
       gB2 g2 k j i = (if in3 oc k j i then gU g2 k j i VB2 else gB2 g k j i) /\
       gB3 g2 k j i = (if in3 oc k j i then gU g2 k j i VB3 else gB3 g k j i))).
  { destruct (c_mhd c) eqn:M; [|exists g1; split; [reflexivity|]; split; [reflexivity|]; discriminate].
    destruct HM as [HM | HM]; [discriminate|]. subst nDim. unfold get_fld. cbn [Nat.eqb]. cbv zeta.
    set (ps := cells3 _ _ _).
    assert (ND : NoDup ps) by (apply nodup_cells3; apply nodup_upto).
    assert (IN : forall k j i, In (k, j, i) ps <-> in3 oc k j i = true).
    { intros. unfold ps. rewrite in_cells3, !in_upto, in3_inside. unfold inside. tauto. }
    clearbody ps.
    assert (G : forall ps g1, NoDup ps -> let g2 := fold_left (fun g p => Gst (gU g) (upd3 (gB1 g) p (at3 (gU g) p VB1)) (upd3 (gB2 g) p (at3 (gU g) p VB2)) (upd3 (gB3 g) p (at3 (gU g) p VB3))) ps g1 in
       gU g2 = gU g1 /\ forall q, (In q ps -> at3 (gB1 g2) q = at3 (gU g1) q VB1 /\ at3 (gB2 g2) q = at3 (gU g1) q VB2 /\ at3 (gB3 g2) q = at3 (gU g1) q VB3) /\
          (~ In q ps -> at3 (gB1 g2) q = at3 (gB1 g1) q /\ at3 (gB2 g2) q = at3 (gB2 g1) q /\ at3 (gB3 g2) q = at3 (gB3 g1) q)).
    { clear. induction ps as [|p ps IH]; intros g1 ND; cbn [fold_left]; [cbn; split; [reflexivity|]; intros q; split; [contradiction|auto]|].
      inversion ND as [|? ? NI ND']; subst. 
      match goal with |- context [fold_left _ ps ?x] => destruct (IH x ND') as [E1 E2]; clear IH end. cbn [gU gB1 gB2 gB3] in *. cbv zeta. split; [exact E1|].
      intros q. destruct (E2 q) as [E3 E4]. split.
      - intros [<-|I]; [|apply E3; exact I]. destruct (E4 NI) as (-> & -> & ->). rewrite !at3_upd3_same. auto.
      - intros NQ. assert (p <> q) by (intros ->; apply NQ; left; reflexivity). destruct (E4 ltac:(intros X; apply NQ; right; exact X)) as (-> & -> & ->). rewrite !at3_upd3_other by assumption. auto. }
    specialize (G ps g1 ND). cbv zeta in G.
    eexists. split; [reflexivity|]. destruct G as [G1 G2]. split; [exact G1|]. intros _ k j i. destruct (G2 (k, j, i)) as [G3 G4]. rewrite G1. cbn [at3] in *.
    destruct (in3 oc k j i) eqn:EI; [apply G3; apply IN; exact EI|]. rewrite <- A2, <- A3, <- A4. apply G4. rewrite IN. congruence. }
  destruct FD as (g2 & FD1 & FD2 & FD3). rewrite FD1. cbn [bnd]. subst rest.
  match goal with |- context [flxs c nDim oc (f_flx ff X3 true) X3 X2 X1 true ++ ?r] => destruct (corrs_eq c nDim oc r1 r2 r3 fc ff g2 r (fun g m => Some (g, m))) as (g3 & -> & C1 & C2 & C3 & C4) end.
  exists g3. split; [reflexivity|].
  split. { intros k j i v. rewrite C4, FD2, A1. reflexivity. }
  intros M k j i. destruct (FD3 M k j i) as (E1 & E2 & E3). rewrite C1, C2, C3, E1, E2, E3. rewrite !C4. destruct (in3 oc k j i) eqn:EI; [|auto].
  rewrite !cor_inside by (apply in3_inside; exact EI). rewrite !Rplus_0_r. auto.
Qed.
