(** Vocabulary for the properties of the ghost-zone code: which array elements exist, which
    of them are active, and for each boundary condition which element a ghost element copies
    and with what sign.  Nothing here refers to the loops of BvalsModel.v. *)
From Coq Require Import ZArith List Bool Lia.
From Verif Require Import Loop BvalsModel.
Import ListNotations.
Open Scope Z_scope.

(** Coordinates of an array element [k][j][i]. *)
Definition co (a : axis) (c : idx) : Z :=
  match c with (k, j, i) => match a with A1 => i | A2 => j | A3 => k end end.
Definition upd (a : axis) (c : idx) (x : Z) : idx :=
  match c with (k, j, i) => match a with A1 => (k, j, x) | A2 => (k, x, i) | A3 => (x, j, i) end end.
(** First and last active cell along an axis. *)
Definition fst_ (G : geom) (a : axis) : Z := if g_N G a >? 1 then g_ng G else 0.
Definition lst_ (G : geom) (a : axis) : Z := if g_N G a >? 1 then g_N G a + g_ng G - 1 else 0.
(** What an array holds: one value per cell, or one value per face normal to an axis. *)
Inductive kind := Cell | Face (a : axis).
Definition normal (X : kind) (a : axis) : bool := match X with Cell => false | Face b => axis_eqb a b end.
Definition btoz (b : bool) : Z := if b then 1 else 0.
Definition rng (lo hi x : Z) : bool := (lo <=? x) && (x <=? hi).

(** Active elements along an axis: the cells, or the faces of the cells. *)
Definition act (G : geom) (X : kind) (a : axis) (x : Z) : bool :=
  rng (fst_ G a) (lst_ G a + btoz (normal X a && (g_N G a >? 1))) x.
(** All elements along an axis that carry data: nghost more cells on either side, and the
    faces between these cells. *)
Definition ext (G : geom) (X : kind) (a : axis) (x : Z) : bool :=
  if g_N G a >? 1 then rng (fst_ G a - g_ng G + btoz (normal X a)) (lst_ G a + g_ng G) x else x =? 0.
Definition active (G : geom) (X : kind) (c : idx) : Prop := forall a, act G X a (co a c) = true.
Definition exists_ (G : geom) (X : kind) (c : idx) : Prop := forall a, ext G X a (co a c) = true.

(** A Grid with at least two cells along x1, and nghost or more cells along every axis that
    has more than one. *)
Definition geom_ok (G : geom) : Prop :=
  1 <= g_ng G /\ 1 < g_N1 G /\ forall a, g_N G a = 1 \/ (1 < g_N G a /\ g_ng G <= g_N G a).

Section Spec.
Context {F : Type} (neg : F -> F) (zero : F).
Definition val (X : kind) : Type := match X with Cell => @cons F | Face _ => F end.
Definition get (X : kind) (f : @fields F) : arr (val X) :=
  match X return arr (val X) with Cell => fU f | Face A1 => fB1 f | Face A2 => fB2 f | Face A3 => fB3 f end.

(** Where a ghost element at coordinate [x] takes its value from, in a row whose first and
    last cells are [s] and [e]; [n]: the array holds faces normal to the axis. *)
Definition mirror (n right : bool) (s e x : Z) : Z :=
  if right then 2 * e + 1 + btoz n - x else 2 * s - 1 + btoz n - x.
Definition source (b : bc) (n right : bool) (s e x : Z) : Z :=
  match b with
  | Refl | Cond => mirror n right s e x
  | Outf => if right then e else s
  | Peri => if right then x - (e - s + 1) else x + (e - s + 1)
  end.
(** The sign with which it takes it. *)
Definition flip_M (a : axis) : @cons F -> @cons F := match a with A1 => neg_M1 neg | A2 => neg_M2 neg | A3 => neg_M3 neg end.
Definition flip_B (a : axis) : @cons F -> @cons F := match a with A1 => neg_B1c neg | A2 => neg_B2c neg | A3 => neg_B3c neg end.
Definition flip_others (a : axis) (c : @cons F) : @cons F :=
  match a with
  | A1 => flip_B A3 (flip_B A2 c) | A2 => flip_B A3 (flip_B A1 c) | A3 => flip_B A2 (flip_B A1 c)
  end.
Definition trans (b : bc) (a : axis) (X : kind) : val X -> val X :=
  match X return val X -> val X with
  | Cell => match b with
            | Refl => fun c => flip_B a (flip_M a c)
            | Cond => fun c => flip_others a (flip_M a c)
            | _ => fun c => c
            end
  | Face n => match b with
              | Refl => if axis_eqb a n then neg else fun v => v
              | Cond => if axis_eqb a n then fun v => v else neg
              | _ => fun v => v
              end
  end.
(** Reflecting boundaries also put zero on the boundary face itself. *)
Definition blank (b : bc) (a : axis) (X : kind) : val X -> val X :=
  match X return val X -> val X with
  | Cell => fun v => v
  | Face n => match b with Refl => if axis_eqb a n then fun _ => zero else fun v => v | _ => fun v => v end
  end.

(** Element of the row from which the element at [x] gets its value, and the function
    applied to it, for boundary conditions [bl] and [br] at the two ends. *)
Definition src_row (bl br : bc) (G : geom) (X : kind) (a : axis) (x : Z) : Z :=
  let s := fst_ G a in let e := lst_ G a in let n := normal X a in
  if g_N G a >? 1 then
    if x <? s then source bl n false s e x
    else if x >? e + btoz n then source br n true s e x
    else x
  else x.
Definition tr_row (bl br : bc) (G : geom) (X : kind) (a : axis) (x : Z) : val X -> val X :=
  let s := fst_ G a in let e := lst_ G a in let n := normal X a in
  if g_N G a >? 1 then
    if x <? s then trans bl a X
    else if x >? e + btoz n then trans br a X
    else if n && (x =? s) then blank bl a X
    else if n && (x =? e + 1) then blank br a X
    else fun v => v
  else fun v => v.
End Spec.
