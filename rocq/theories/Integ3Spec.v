(** * Specification vocabulary for the 3D integrators *)
From Coq Require Import Reals ZArith List Lia.
From Verif Require Import GasModel IntegModel IntegSpec SchemeModel.
From Verif Require Ctu3Model Vl3Model.
Import Ctu3Model (grid3, scratch3, is, ie, js, je, ks, ke, dt, dx1, dx2, dx3, MinX1, MinX2, MinX3, U, B1i, B2i, B3i, Phi, x1c, x2c, x3c).
Open Scope R_scope.

Definition integrate_3d (m : integrator) : scheme -> scratch3 -> grid3 -> grid3 :=
  match m with CTU => Ctu3Model.integrate_3d_ctu | VL => Vl3Model.integrate_3d_vl end.

(** Around cell (k,j,i) of g and cell (k',j',i') of g' the data agree for offsets from a
    to b in every direction, and the static potential (if any) looks the same from
    both.  (The faces below the outermost ghost zones are never set by bvals_mhd.c, so
    they may differ.) *)
Record near3 (sc : scheme) (g g' : grid3) (k j i k' j' i' a b : Z) : Prop := Near3 {
  n3_dt : dt g' = dt g; n3_dx1 : dx1 g' = dx1 g; n3_dx2 : dx2 g' = dx2 g; n3_dx3 : dx3 g' = dx3 g;
  n3_pot : forall phi, s_grav sc = Some phi -> forall x y w,
    phi (x1c g' i' + x) (x2c g' j' + y) (x3c g' k' + w) = phi (x1c g i + x) (x2c g j + y) (x3c g k + w);
  n3_U : forall dk dj di, (a <= dk <= b)%Z -> (a <= dj <= b)%Z -> (a <= di <= b)%Z ->
    U g' (k' + dk)%Z (j' + dj)%Z (i' + di)%Z = U g (k + dk)%Z (j + dj)%Z (i + di)%Z;
  n3_B1 : forall dk dj di, (a <= dk <= b)%Z -> (a <= dj <= b)%Z -> (a < di <= b)%Z ->
    B1i g' (k' + dk)%Z (j' + dj)%Z (i' + di)%Z = B1i g (k + dk)%Z (j + dj)%Z (i + di)%Z;
  n3_B2 : forall dk dj di, (a <= dk <= b)%Z -> (a < dj <= b)%Z -> (a <= di <= b)%Z ->
    B2i g' (k' + dk)%Z (j' + dj)%Z (i' + di)%Z = B2i g (k + dk)%Z (j + dj)%Z (i + di)%Z;
  n3_B3 : forall dk dj di, (a < dk <= b)%Z -> (a <= dj <= b)%Z -> (a <= di <= b)%Z ->
    B3i g' (k' + dk)%Z (j' + dj)%Z (i' + di)%Z = B3i g (k + dk)%Z (j + dj)%Z (i + di)%Z;
  n3_Phi : s_selfg sc <> None -> forall dk dj di, (a <= dk <= b)%Z -> (a <= dj <= b)%Z -> (a <= di <= b)%Z ->
    Phi g' (k' + dk)%Z (j' + dj)%Z (i' + di)%Z = Phi g (k + dk)%Z (j + dj)%Z (i + di)%Z }.

(** An active cell of the Grid. *)
Definition active3 (g : grid3) (k j i : Z) : Prop :=
  (ks g <= k <= ke g)%Z /\ (js g <= j <= je g)%Z /\ (is g <= i <= ie g)%Z.
(** A cell of the Grid or one of its ghost zones. *)
Definition zone3 (g : grid3) (k j i : Z) : Prop :=
  (ks g - nghost <= k <= ke g + nghost)%Z /\ (js g - nghost <= j <= je g + nghost)%Z /\ (is g - nghost <= i <= ie g + nghost)%Z.
(** There is at least one active cell. *)
Definition nonempty3 (g : grid3) : Prop := (is g <= ie g)%Z /\ (js g <= je g)%Z /\ (ks g <= ke g)%Z.

(** The amount of a quantity in the active zones (per unit of cell volume). *)
Definition total3 (f : cons -> Z -> Z -> Z -> R) (g : grid3) : R :=
  sumZ (ks g) (ke g) (fun k => sumZ (js g) (je g) (fun j => sumZ (is g) (ie g) (fun i => f (U g k j i) k j i))).
(** Total energy including the potential energy in the static potential. *)
Definition etot3 (phi : R -> R -> R -> R) (g : grid3) : cons -> Z -> Z -> Z -> R :=
  fun u k j i => cE u + cd u * phi (x1c g i) (x2c g j) (x3c g k).

(** The zone or face data at (k,j,i) and at the shifted place are the same. *)
Definition image3 (sc : scheme) (g : grid3) (k j i k' j' i' : Z) : Prop :=
  U g k' j' i' = U g k j i /\ (s_selfg sc <> None -> Phi g k' j' i' = Phi g k j i) /\
  ((is g - nghost < i)%Z -> B1i g k' j' i' = B1i g k j i) /\
  ((js g - nghost < j)%Z -> B2i g k' j' i' = B2i g k j i) /\
  ((ks g - nghost < k)%Z -> B3i g k' j' i' = B3i g k j i).
(** The ghost zones hold the periodic images of the active zones, and the static
    potential, if there is one, has the same periods. *)
Definition periodic3 (sc : scheme) (g : grid3) : Prop :=
  let N1 := (ie g - is g + 1)%Z in let N2 := (je g - js g + 1)%Z in let N3 := (ke g - ks g + 1)%Z in
  (forall phi, s_grav sc = Some phi -> forall x y w,
     phi (x + IZR N1 * dx1 g) y w = phi x y w /\ phi x (y + IZR N2 * dx2 g) w = phi x y w /\ phi x y (w + IZR N3 * dx3 g) = phi x y w) /\
  forall k j i, zone3 g k j i ->
    (zone3 g k j (i + N1) -> image3 sc g k j i k j (i + N1)) /\
    (zone3 g k (j + N2) i -> image3 sc g k j i k (j + N2) i) /\
    (zone3 g (k + N3) j i -> image3 sc g k j i (k + N3) j i).
(** Every active cell has n scalars. *)
Definition scalars3 (g : grid3) (n : nat) : Prop := forall k j i, active3 g k j i -> length (cs (U g k j i)) = n.
(** The field of every active cell is the average of the fields of its faces. *)
Definition centred3 (g : grid3) : Prop :=
  forall k j i, active3 g k j i ->
    cB1 (U g k j i) = half * (B1i g k j i + B1i g k j (i + 1)%Z) /\
    cB2 (U g k j i) = half * (B2i g k j i + B2i g k (j + 1)%Z i) /\
    cB3 (U g k j i) = half * (B3i g k j i + B3i g (k + 1)%Z j i).
(** The magnetic flux out of a cell, per unit volume. *)
Definition divB3 (g : grid3) (k j i : Z) : R :=
  (B1i g k j (i + 1)%Z - B1i g k j i) / dx1 g + (B2i g k (j + 1)%Z i - B2i g k j i) / dx2 g
  + (B3i g (k + 1)%Z j i - B3i g k j i) / dx3 g.

(** No source term acts on the quantity in 3D. *)
Definition unsourced3 (sc : scheme) (q : quantity) : Prop :=
  match q with
  | Energy => s_grav sc = None /\ s_cool sc = None /\ s_selfg sc = None
  | Mom1 | Mom2 | Mom3 => s_grav sc = None
  | _ => True
  end.

(** g' has the same geometry and the same active zones and faces as h; the ghost
    zones, the timestep and the self-gravitational potential may be new. *)
Record same_active3 (h g' : grid3) : Prop := SameActive3 {
  sa_is : is g' = is h; sa_ie : ie g' = ie h; sa_js : js g' = js h; sa_je : je g' = je h; sa_ks : ks g' = ks h; sa_ke : ke g' = ke h;
  sa_dx1 : dx1 g' = dx1 h; sa_dx2 : dx2 g' = dx2 h; sa_dx3 : dx3 g' = dx3 h;
  sa_m1 : MinX1 g' = MinX1 h; sa_m2 : MinX2 g' = MinX2 h; sa_m3 : MinX3 g' = MinX3 h;
  sa_U : forall k j i, active3 h k j i -> U g' k j i = U h k j i;
  sa_B1 : forall k j i, active3 h k j i -> B1i g' k j i = B1i h k j i /\ B1i g' k j (i + 1)%Z = B1i h k j (i + 1)%Z;
  sa_B2 : forall k j i, active3 h k j i -> B2i g' k j i = B2i h k j i /\ B2i g' k (j + 1)%Z i = B2i h k (j + 1)%Z i;
  sa_B3 : forall k j i, active3 h k j i -> B3i g' k j i = B3i h k j i /\ B3i g' (k + 1)%Z j i = B3i h (k + 1)%Z j i }.
(** The states reached from g by any number of steps of any size, with ghost zones
    filled before each in a way that satisfies bc and anything in the work arrays. *)
Inductive run3 (bc : grid3 -> Prop) (m : integrator) (sc : scheme) (g : grid3) : grid3 -> Prop :=
| run3_start : run3 bc m sc g g
| run3_step : forall h z g', run3 bc m sc g h -> bc h -> same_active3 (integrate_3d m sc z h) g' -> run3 bc m sc g g'.
