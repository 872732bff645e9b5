(** * Vocabulary for slices and averages *)
From Coq Require Import ZArith List Bool Reals.
From Verif Require Import MeshModel PosModel PosProps SliceModel IntegSpec.
Open Scope R_scope.

(** Cell [k] reaches from its lower face to its upper face; the range l <= x <= u touches it
    if it contains a point of it (the upper face belongs to the next cell). *)
Definition touches (G : ogrid) (a : axis) (lx ux : R) (k : Z) : Prop :=
  face (og_p G) a k <= ux /\ lx < face (og_p G) a (k + 1).
(** [ks..ke] are exactly the cells of the Grid that the range touches. *)
Definition touched (G : ogrid) (first last : Z) (a : axis) (lx ux : R) (ks ke : Z) : Prop :=
  (first <= ks <= ke)%Z /\ (ke <= last)%Z /\ forall k, (first <= k <= last)%Z -> ((ks <= k <= ke)%Z <-> touches G a lx ux k).
(** Arithmetic mean. *)
Definition mean (ks ke : Z) (f : Z -> R) : R := sumZ ks ke f / IZR (ke - ks + 1).
(** The Grid lies outside the range. *)
Definition misses (G : ogrid) (o : slice) (a : axis) : Prop := sl_u o a < p_MinX (og_p G) a \/ og_MaxX G a <= sl_l o a.
(** What init_grid sets up (property C30): positive cell sizes, Nx cells, MaxX the upper face of
    the last. *)
Definition sound_grid (G : ogrid) : Prop :=
  forall a, 0 < p_dx (og_p G) a /\ (1 <= og_Nx G a)%Z /\ (og_e G a = p_s (og_p G) a + og_Nx G a - 1)%Z /\
            og_MaxX G a = face (og_p G) a (og_e G a + 1).
(** The other two axes, in order. *)
Definition others (a : axis) : axis * axis := match a with X1 => (X2, X3) | X2 => (X1, X3) | X3 => (X1, X2) end.
(** The cell with index [k] along [a] and [x], [y] along the other axes. *)
Definition put (a : axis) (k x y : Z) : vec := fun b =>
  match a, b with
  | X1, X1 => k | X1, X2 => x | X1, X3 => y
  | X2, X1 => x | X2, X2 => k | X2, X3 => y
  | X3, X1 => x | X3, X2 => y | X3, X3 => k
  end.
Definition at_cell (expr : Z -> Z -> Z -> R) (v : vec) : R := expr (v X1) (v X2) (v X3).
