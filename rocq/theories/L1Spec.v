(** * The error of a run: the mean difference from the solution *)
From Coq Require Import Reals ZArith List.
From Verif Require Import GasModel L1Model.
Import ListNotations.
Open Scope R_scope.

Definition sumR (l : list R) : R := fold_right Rplus 0 l.
(** The volume of a cell with sides dx1, dx2, dx3; in cylindrical coordinates x1 is the radius and x2 an angle. *)
Definition volume (D : l1dom) (c : l1cell) : R := ldx1 D * ldx2 D * ldx3 D * (if cyl D then l1x c else 1).
(** Sum over the cells of the difference of one variable times the volume. *)
Definition l1_norm (D : l1dom) (var : cons -> R) (cells : list l1cell) : R :=
  sumR (map (fun c => volume D c * Rabs (var (l1U c) - var (l1S c))) cells).
(** The volume of the Domain, or 1. *)
Definition norm_by (D : l1dom) : R :=
  if (errortype D =? 1)%Z then (lmax1 D - lmin1 D) * (lmax2 D - lmin2 D) * (lmax3 D - lmin3 D) * (if cyl D then (lmin1 D + lmax1 D) / 2 else 1)
  else 1.

(** The variables in the order of the columns. *)
Definition columns (n : nat) : list (cons -> R) :=
  [cd; cM1; cM2; cM3; cE; cB1; cB2; cB3] ++ map (fun i U => nth i (cs U) 0) (seq 0 n).

Definition right_line (D : l1dom) (cells : list l1cell) (l : l1line) : Prop :=
  l = ((lN1 D, lN2 D, lN3 D),
       sqrt (sumR (map (fun v => (l1_norm D v cells) ^ 2) (columns 0))) / norm_by D,
       map (fun v => l1_norm D v cells / norm_by D) (columns (nscal D))).

Definition well_formed (D : l1dom) : Prop :=
  0 < ldx1 D /\ 0 < ldx2 D /\ 0 < ldx3 D /\ lmin1 D < lmax1 D /\ lmin2 D < lmax2 D /\ lmin3 D < lmax3 D.
Definition has_scalars (D : l1dom) (c : l1cell) : Prop := length (cs (l1U c)) = nscal D /\ length (cs (l1S c)) = nscal D.
