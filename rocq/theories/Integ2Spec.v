(** * Specification vocabulary for the 2D integrators *)
From Coq Require Import Reals ZArith List Lia.
From Verif Require Import GasModel IntegModel IntegSpec SchemeModel.
From Verif Require Ctu2Model Vl2Model.
Import Ctu2Model (grid2, scratch2, is, ie, js, je, dt, dx1, dx2, MinX1, MinX2, X3, U, B1i, B2i, B3i, Phi, x1c, x2c).
Open Scope R_scope.

Definition integrate_2d (k : integrator) : scheme -> scratch2 -> grid2 -> grid2 :=
  match k with CTU => Ctu2Model.integrate_2d_ctu | VL => Vl2Model.integrate_2d_vl end.

(** Around cell (j,i) of g and cell (j',i') of g' the data agree for offsets aj..bj
    and ai..bi, and the static potential (if any) looks the same from both.  (The
    faces to the left of and below the outermost ghost zones are never set by
    bvals_mhd.c, so they may differ.) *)
Record near2 (sc : scheme) (g g' : grid2) (j i j' i' aj bj ai bi : Z) : Prop := Near2 {
  n2_dt : dt g' = dt g; n2_dx1 : dx1 g' = dx1 g; n2_dx2 : dx2 g' = dx2 g;
  n2_pot : forall phi, s_grav sc = Some phi -> forall x y,
    phi (x1c g' i' + x) (x2c g' j' + y) (X3 g') = phi (x1c g i + x) (x2c g j + y) (X3 g);
  n2_U : forall dj di, (aj <= dj <= bj)%Z -> (ai <= di <= bi)%Z -> U g' (j' + dj)%Z (i' + di)%Z = U g (j + dj)%Z (i + di)%Z;
  n2_B1 : forall dj di, (aj <= dj <= bj)%Z -> (ai < di <= bi)%Z -> B1i g' (j' + dj)%Z (i' + di)%Z = B1i g (j + dj)%Z (i + di)%Z;
  n2_B2 : forall dj di, (aj < dj <= bj)%Z -> (ai <= di <= bi)%Z -> B2i g' (j' + dj)%Z (i' + di)%Z = B2i g (j + dj)%Z (i + di)%Z;
  n2_Phi : s_selfg sc <> None -> forall dj di, (aj <= dj <= bj)%Z -> (ai <= di <= bi)%Z -> Phi g' (j' + dj)%Z (i' + di)%Z = Phi g (j + dj)%Z (i + di)%Z }.

(** The amount of a quantity in the active zones (per unit of cell volume). *)
Definition total2 (f : cons -> Z -> Z -> R) (g : grid2) : R :=
  sumZ (js g) (je g) (fun j => sumZ (is g) (ie g) (fun i => f (U g j i) j i)).
(** Total energy including the potential energy in the static potential. *)
Definition etot2 (phi : R -> R -> R -> R) (g : grid2) : cons -> Z -> Z -> R :=
  fun u j i => cE u + cd u * phi (x1c g i) (x2c g j) (X3 g).

(** The ghost zones hold the periodic images of the active zones, and the static
    potential, if there is one, has the same periods. *)
Definition periodic2 (sc : scheme) (g : grid2) : Prop :=
  let N1 := (ie g - is g + 1)%Z in let N2 := (je g - js g + 1)%Z in
  (forall phi, s_grav sc = Some phi -> forall x y,
     phi (x + IZR N1 * dx1 g) y (X3 g) = phi x y (X3 g) /\ phi x (y + IZR N2 * dx2 g) (X3 g) = phi x y (X3 g)) /\
  forall j i, (js g - nghost <= j <= je g + nghost)%Z -> (is g - nghost <= i <= ie g + nghost)%Z ->
    ((i + N1 <= ie g + nghost)%Z ->
       U g j (i + N1)%Z = U g j i /\ (s_selfg sc <> None -> Phi g j (i + N1)%Z = Phi g j i) /\
       ((is g - nghost < i)%Z -> B1i g j (i + N1)%Z = B1i g j i) /\
       ((js g - nghost < j)%Z -> B2i g j (i + N1)%Z = B2i g j i)) /\
    ((j + N2 <= je g + nghost)%Z ->
       U g (j + N2)%Z i = U g j i /\ (s_selfg sc <> None -> Phi g (j + N2)%Z i = Phi g j i) /\
       ((is g - nghost < i)%Z -> B1i g (j + N2)%Z i = B1i g j i) /\
       ((js g - nghost < j)%Z -> B2i g (j + N2)%Z i = B2i g j i)).
(** Every active cell has n scalars. *)
Definition scalars2 (g : grid2) (n : nat) : Prop :=
  forall j i, (js g <= j <= je g)%Z -> (is g <= i <= ie g)%Z -> length (cs (U g j i)) = n.
(** The field of every active cell is the average of the fields of its faces. *)
Definition centred2 (g : grid2) : Prop :=
  forall j i, (js g <= j <= je g)%Z -> (is g <= i <= ie g)%Z ->
    cB1 (U g j i) = half * (B1i g j i + B1i g j (i + 1)%Z) /\ cB2 (U g j i) = half * (B2i g j i + B2i g (j + 1)%Z i).
(** The magnetic flux out of a cell, per unit volume. *)
Definition divB2 (g : grid2) (j i : Z) : R :=
  (B1i g j (i + 1)%Z - B1i g j i) / dx1 g + (B2i g (j + 1)%Z i - B2i g j i) / dx2 g.

(** No source term acts on the quantity in 2D. *)
Definition unsourced2 (sc : scheme) (q : quantity) : Prop :=
  match q with
  | Energy => s_grav sc = None /\ s_cool sc = None /\ s_selfg sc = None
  | Mom1 | Mom2 => s_grav sc = None
  | _ => True
  end.

(** g' has the same geometry and the same active zones and faces as h; the ghost
    zones, the timestep and the self-gravitational potential may be new. *)
Definition same_active2 (h g' : grid2) : Prop :=
  is g' = is h /\ ie g' = ie h /\ js g' = js h /\ je g' = je h /\ dx1 g' = dx1 h /\ dx2 g' = dx2 h /\
  MinX1 g' = MinX1 h /\ MinX2 g' = MinX2 h /\ X3 g' = X3 h /\
  (forall j i, (js h <= j <= je h)%Z -> (is h <= i <= ie h)%Z -> U g' j i = U h j i) /\
  (forall j i, (js h <= j <= je h)%Z -> (is h <= i <= ie h + 1)%Z -> B1i g' j i = B1i h j i) /\
  (forall j i, (js h <= j <= je h + 1)%Z -> (is h <= i <= ie h)%Z -> B2i g' j i = B2i h j i).
(** The states reached from g by any number of steps of any size, with ghost zones
    filled before each in a way that satisfies bc and anything in the work arrays. *)
Inductive run2 (bc : grid2 -> Prop) (k : integrator) (sc : scheme) (g : grid2) : grid2 -> Prop :=
| run2_start : run2 bc k sc g g
| run2_step : forall h z g', run2 bc k sc g h -> bc h -> same_active2 (integrate_2d k sc z h) g' -> run2 bc k sc g g'.
