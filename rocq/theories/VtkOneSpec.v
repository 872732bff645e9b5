(** * How a reader understands a VTK file of cell data on structured points *)
From Coq Require Import ZArith List Bool Reals.
From Verif Require Import MeshModel PosModel PosProps SliceModel VtkOneModel.
Open Scope R_scope.

(** DIMENSIONS counts points: one fewer cells, but a single point is a single layer. *)
Definition cells (V : vtkone) (a : axis) : Z := Z.max 1 (vo_dims V a - 1).
Definition inside (n : axis -> Z) (v : axis -> Z) : Prop := forall a, (0 <= v a < n a)%Z.
(** The data are stored with x1 fastest and x3 slowest. *)
Definition value_at (V : vtkone) (v : axis -> Z) : option R :=
  nth_error (vo_data V) (Z.to_nat ((v X3 * cells V X2 + v X2) * cells V X1 + v X1)).
(** The cell lies between these coordinates. *)
Definition from_ (V : vtkone) (a : axis) (n : Z) : R := vo_origin V a + IZR n * vo_spacing V a.
Definition to_ (V : vtkone) (a : axis) (n : Z) : R := from_ V a (n + 1).
(** The header announces as many values as there are cells and data. *)
Definition complete (V : vtkone) : Prop :=
  vo_cells V = (cells V X1 * cells V X2 * cells V X3)%Z /\ Z.of_nat (length (vo_data V)) = vo_cells V.
