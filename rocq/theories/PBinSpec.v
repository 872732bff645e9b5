(** * Vocabulary for binned particles *)
From Coq Require Import ZArith Bool Reals List.
From Verif Require Import CStr MeshModel PosModel PartModel PartProps.
Import ListNotations.
Open Scope R_scope.

(** Sum over particles. *)
Fixpoint psum (ps : list grain) (f : grain -> R) : R := match ps with [] => 0 | g :: ps => f g + psum ps f end.
(** The particles that an output selects. *)
Definition chosen (sel : grain -> R -> bool) (ps : list (grain * R)) : list grain := map fst (filter (fun p => sel (fst p) (snd p)) ps).
(** Part of a particle in a cell: its interpolation weight there (C51), nothing outside its stencil. *)
Definition part_in (m : interp) (Nx : axis -> Z) (pG : pgrid) (g : grain) (k j i : Z) : R :=
  match getweight m pG (g_x g) (cell1_of Nx pG) junk with
  | Ok (w, is, js, ks) =>
      if ((0 <=? k - ks) && (k - ks <? ncell m) && (0 <=? j - js) && (j - js <? ncell m) && (0 <=? i - is) && (i - is <? ncell m))%Z
      then w (k - ks)%Z (j - js)%Z (i - is)%Z else 0
  | _ => 0
  end.
(** The stencil of the particle lies within the Grid and its ghost zones. *)
Definition fits (m : interp) (Nx : axis -> Z) (pG : pgrid) (L : plim) (g : grain) : Prop :=
  forall W, getweight m pG (g_x g) (cell1_of Nx pG) junk = Ok W -> inside Nx pG L m W.
(** A cell of the Grid or its ghost zones. *)
Definition in_grid (L : plim) (k j i : Z) : Prop :=
  (l_lo L X3 <= k <= l_up L X3)%Z /\ (l_lo L X2 <= j <= l_up L X2)%Z /\ (l_lo L X1 <= i <= l_up L X1)%Z.
