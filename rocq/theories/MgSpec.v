(** * Poisson's equation on a grid of cells with a fixed edge *)
From Coq Require Import Reals ZArith List.
From Verif Require Import MgModel IntegSpec.
Import ListNotations.
Open Scope R_scope.

(** The cells that are solved for, the layer of cells around them. *)
Definition active (g : mgrid) (k j i : Z) : Prop :=
  (1 <= k <= Nx3 g /\ 1 <= j <= Nx2 g /\ 1 <= i <= Nx1 g)%Z.
Definition edge (g : mgrid) (k j i : Z) : Prop :=
  (0 <= k <= Nx3 g + 1 /\ 0 <= j <= Nx2 g + 1 /\ 0 <= i <= Nx1 g + 1)%Z /\ ~ active g k j i.

(** The second differences. *)
Definition laplacian (g : mgrid) (p : fld) (k j i : Z) : R :=
  (p k j (i + 1)%Z - 2 * p k j i + p k j (i - 1)%Z) / (dx1 g) ^ 2 +
  (p k (j + 1)%Z i - 2 * p k j i + p k (j - 1)%Z i) / (dx2 g) ^ 2 +
  (p (k + 1)%Z j i - 2 * p k j i + p (k - 1)%Z j i) / (dx3 g) ^ 2.
Definition solves (g : mgrid) (p : fld) : Prop :=
  forall k j i, active g k j i -> laplacian g p k j i = rhs g k j i.

(** A grid with cells of positive size and more than one layer. *)
Record mg_ok (g : mgrid) : Prop := {
  ok_1 : (1 <= Nx1 g)%Z; ok_2 : (1 <= Nx2 g)%Z; ok_3 : (1 < Nx3 g)%Z;
  ok_d1 : 0 < dx1 g; ok_d2 : 0 < dx2 g; ok_d3 : 0 < dx3 g }.

(** ** The potential on a Grid *)
Definition g_active (G : pgrid) (k j i : Z) : Prop := (ks G <= k <= ke G /\ js G <= j <= je G /\ is G <= i <= ie G)%Z.
(** The cells of the array that are not active. *)
Definition g_ghost (nghost : Z) (G : pgrid) (k j i : Z) : Prop :=
  (ks G - nghost <= k <= ke G + nghost /\ js G - nghost <= j <= je G + nghost /\ is G - nghost <= i <= ie G + nghost)%Z /\
  ~ g_active G k j i.
(** No side of the Grid has a neighbour. *)
Definition isolated (G : pgrid) : Prop :=
  (lx1_id G < 0 /\ rx1_id G < 0 /\ lx2_id G < 0 /\ rx2_id G < 0 /\ lx3_id G < 0 /\ rx3_id G < 0)%Z.
(** The mass on the Grid, the distance of a cell from the origin, the potential of
    a point mass there. *)
Definition all_mass (G : pgrid) : R :=
  sumZ (ks G) (ke G) (fun k => sumZ (js G) (je G) (fun j => sumZ (is G) (ie G) (fun i => dens G k j i))) * (gdx1 G * gdx2 G * gdx3 G).
Definition dist (G : pgrid) (k j i : Z) : R :=
  sqrt ((MinX1 G + (IZR (i - is G) + 1 / 2) * gdx1 G) ^ 2 + (MinX2 G + (IZR (j - js G) + 1 / 2) * gdx2 G) ^ 2 +
        (MinX3 G + (IZR (k - ks G) + 1 / 2) * gdx3 G) ^ 2).
Definition point_mass (four_pi_G : R) (G : pgrid) (k j i : Z) : R := - (four_pi_G / (4 * PI)) * all_mass G / dist G k j i.
(** [p] is a potential of the density with that value in the ghost cells. *)
Definition potential (nghost : Z) (four_pi_G : R) (G : pgrid) (p : fld) : Prop :=
  (forall k j i, g_active G k j i ->
     (p k j (i + 1)%Z - 2 * p k j i + p k j (i - 1)%Z) / (gdx1 G) ^ 2 +
     (p k (j + 1)%Z i - 2 * p k j i + p k (j - 1)%Z i) / (gdx2 G) ^ 2 +
     (p (k + 1)%Z j i - 2 * p k j i + p (k - 1)%Z j i) / (gdx3 G) ^ 2 = four_pi_G * dens G k j i) /\
  (forall k j i, g_ghost nghost G k j i -> p k j i = point_mass four_pi_G G k j i).
(** The Grid with another potential. *)
Definition with_Phi (G : pgrid) (p : fld) : pgrid :=
  PGrid (is G) (ie G) (js G) (je G) (ks G) (ke G) (gdx1 G) (gdx2 G) (gdx3 G) (MinX1 G) (MinX2 G) (MinX3 G)
    (lx1_id G) (rx1_id G) (lx2_id G) (rx2_id G) (lx3_id G) (rx3_id G) (dens G) p (Phi_old G).
Definition size1 (G : pgrid) := (ie G - is G + 1)%Z.
Definition size2 (G : pgrid) := (je G - js G + 1)%Z.
Definition size3 (G : pgrid) := (ke G - ks G + 1)%Z.
Record grid_ok (nghost : Z) (G : pgrid) : Prop := {
  gr_1 : (1 <= size1 G)%Z; gr_2 : (1 <= size2 G)%Z; gr_3 : (1 < size3 G)%Z; gr_n : (1 <= nghost)%Z;
  gr_d1 : 0 < gdx1 G; gr_d2 : 0 < gdx2 G; gr_d3 : 0 < gdx3 G; gr_iso : isolated G }.
