(** * Specification vocabulary for the 1D integrators *)
From Coq Require Import Reals ZArith List Lia.
From Verif Require Import GasModel IntegModel IntegSpec SchemeModel.
From Verif Require Ctu1Model Vl1Model.
Import Ctu1Model (grid1, scratch1, is, ie, dt, dx1, MinX1, X2, X3, U, B1i, B2i, B3i, Phi, x1c).
Open Scope R_scope.

Definition integrate_1d (k : integrator) : scheme -> scratch1 -> grid1 -> grid1 :=
  match k with CTU => Ctu1Model.integrate_1d_ctu | VL => Vl1Model.integrate_1d_vl end.

(** Around cell i of g and cell i' of g' the data agree for offsets a..b, and the
    static potential (if any) looks the same from both.  (The face field to the left
    of the outermost ghost zone is never set by bvals_mhd.c, so it may differ.) *)
Record near1 (sc : scheme) (g g' : grid1) (i i' a b : Z) : Prop := Near1 {
  n_dt : dt g' = dt g; n_dx : dx1 g' = dx1 g;
  n_pot : forall phi, s_grav sc = Some phi ->
    forall x, phi (x1c g' i' + x) (X2 g') (X3 g') = phi (x1c g i + x) (X2 g) (X3 g);
  n_U : forall d, (a <= d <= b)%Z -> U g' (i' + d)%Z = U g (i + d)%Z;
  n_B : forall d, (a < d <= b)%Z -> B1i g' (i' + d)%Z = B1i g (i + d)%Z;
  n_Phi : s_selfg sc <> None -> forall d, (a <= d <= b)%Z -> Phi g' (i' + d)%Z = Phi g (i + d)%Z }.

(** The amount of a quantity in the active zones (per unit of cell volume). *)
Definition total1 (f : cons -> Z -> R) (g : grid1) : R := sumZ (is g) (ie g) (fun i => f (U g i) i).
(** Total energy including the potential energy in the static potential. *)
Definition etot1 (phi : R -> R -> R -> R) (g : grid1) : cons -> Z -> R :=
  fun u i => cE u + cd u * phi (x1c g i) (X2 g) (X3 g).

(** The ghost zones hold the periodic images of the active zones, and the static
    potential, if there is one, has the same period. *)
Definition periodic1 (sc : scheme) (g : grid1) : Prop :=
  let N := (ie g - is g + 1)%Z in
  (forall phi, s_grav sc = Some phi -> forall x, phi (x + IZR N * dx1 g) (X2 g) (X3 g) = phi x (X2 g) (X3 g)) /\
  forall i, (is g - nghost <= i)%Z -> (i + N <= ie g + nghost)%Z ->
    U g (i + N)%Z = U g i /\ (s_selfg sc <> None -> Phi g (i + N)%Z = Phi g i) /\
    ((is g - nghost < i)%Z -> B1i g (i + N)%Z = B1i g i).
(** Every active cell has n scalars. *)
Definition scalars1 (g : grid1) (n : nat) : Prop := forall i, (is g <= i <= ie g)%Z -> length (cs (U g i)) = n.

(** No source term acts on the quantity in 1D. *)
Definition unsourced1 (sc : scheme) (q : quantity) : Prop :=
  match q with
  | Energy => s_grav sc = None /\ s_cool sc = None /\ s_selfg sc = None
  | Mom1 => s_grav sc = None
  | _ => True
  end.

(** g' has the same geometry and the same active zones as h; the ghost zones, the
    timestep and the self-gravitational potential may be new. *)
Definition same_active1 (h g' : grid1) : Prop :=
  is g' = is h /\ ie g' = ie h /\ dx1 g' = dx1 h /\ MinX1 g' = MinX1 h /\ X2 g' = X2 h /\ X3 g' = X3 h /\
  forall i, (is h <= i <= ie h)%Z -> U g' i = U h i.
(** The states reached from g by any number of steps of any size, with ghost zones
    filled periodically before each and anything in the work arrays. *)
Inductive run1 (k : integrator) (sc : scheme) (g : grid1) : grid1 -> Prop :=
| run1_start : run1 k sc g g
| run1_step : forall h z g', run1 k sc g h -> periodic1 sc h -> same_active1 (integrate_1d k sc z h) g' -> run1 k sc g g'.
