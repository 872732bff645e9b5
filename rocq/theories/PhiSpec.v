(** * What the ghost zones of the potential must contain *)
From Coq Require Import ZArith List Bool.
From Verif Require Import Loop BvalsModel BvalsSpec PhiModel.
Open Scope Z_scope.

Section Spec.
Context {F : Type} (ext3 : F -> F -> F -> F).
(** [a] is the last axis along which cell [c] is a ghost zone. *)
Definition later (a b : axis) : bool := match a, b with A1, A2 | A1, A3 | A2, A3 => true | _, _ => false end.
Definition last_ghost (G : geom) (a : axis) (c : idx) : Prop :=
  exists_ G Cell c /\ 1 < g_N G a /\ act G Cell a (co a c) = false /\ forall b, later a b = true -> act G Cell b (co b c) = true.
(** What the condition [b] on the left (right) side says of cell [c]: the mirror image of the cell, the cell one
    period away, or the value the three next cells extrapolate to. *)
Definition left_cond (b : gbc) (G : geom) (a : axis) (R : arr F) (c : idx) : Prop :=
  let x := co a c in let s := fst_ G a in
  match b with
  | GRefl => R c = R (upd a c (2 * s - 1 - x))
  | GPeri => R c = R (upd a c (x + g_N G a))
  | GOpen => R c = ext3 (R (upd a c (x + 1))) (R (upd a c (x + 2))) (R (upd a c (x + 3)))
  end.
Definition right_cond (b : gbc) (G : geom) (a : axis) (R : arr F) (c : idx) : Prop :=
  let x := co a c in let e := lst_ G a in
  match b with
  | GRefl => R c = R (upd a c (2 * e + 1 - x))
  | GPeri => R c = R (upd a c (x - g_N G a))
  | GOpen => R c = ext3 (R (upd a c (x - 1))) (R (upd a c (x - 2))) (R (upd a c (x - 3)))
  end.
Definition filled (bl br : axis -> gbc) (G : geom) (R : arr F) : Prop :=
  forall a c, last_ghost G a c ->
    (co a c < fst_ G a -> left_cond (bl a) G a R c) /\ (lst_ G a < co a c -> right_cond (br a) G a R c).
(** Open sides need three cells to extrapolate from. *)
Definition open_ok (bl br : axis -> gbc) (G : geom) : Prop :=
  forall a, bl a = GOpen \/ br a = GOpen -> g_N G a <= 1 \/ 3 <= g_N G a.
End Spec.
