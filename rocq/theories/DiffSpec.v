(** * Specification vocabulary for conduction, viscosity and resistivity *)
From Coq Require Import Reals ZArith List.
From Verif Require Import GasModel IntegModel IntegSpec Ctu3Model Integ3Spec CondModel.
Open Scope R_scope.

(** A Grid of the run's dimension: at least one cell, and only one in the directions in
    which the Mesh has only one. *)
Definition shaped (c : dcfg) (g : grid3) : Prop :=
  nonempty3 g /\ (two c = false -> js g = je g) /\ (three c = false -> ks g = ke g) /\ (three c = true -> two c = true).
(** Offsets from a to b in the directions the run has. *)
Definition offset (c : dcfg) (a b dk dj di : Z) : Prop :=
  (a <= di <= b)%Z /\ (if two c then (a <= dj <= b)%Z else dj = 0%Z) /\ (if three c then (a <= dk <= b)%Z else dk = 0%Z).
(** A cell of the Grid or one of its ghost zones. *)
Definition dzone (c : dcfg) (g : grid3) (k j i : Z) : Prop :=
  (is g - nghost <= i <= ie g + nghost)%Z /\
  (if two c then (js g - nghost <= j <= je g + nghost)%Z else j = js g) /\
  (if three c then (ks g - nghost <= k <= ke g + nghost)%Z else k = ks g).
(** The two cells share a face. *)
Definition beside (c : dcfg) (k j i k' j' i' : Z) : Prop :=
  (k' = k /\ j' = j /\ (i' = i + 1 \/ i' = i - 1)%Z) \/
  (two c = true /\ k' = k /\ i' = i /\ (j' = j + 1 \/ j' = j - 1)%Z) \/
  (three c = true /\ j' = j /\ i' = i /\ (k' = k + 1 \/ k' = k - 1)%Z).
Definition positive_sizes (g : grid3) : Prop := 0 < dx1 g /\ 0 < dx2 g /\ 0 < dx3 g.

(** Pressure over density, from the conserved variables. *)
Definition temperature (c : dcfg) (u : cons) : R :=
  Gamma_1 c * (cE u - (cM1 u * cM1 u + cM2 u * cM2 u + cM3 u * cM3 u) / (2 * cd u)
               - (if mhd c then (cB1 u * cB1 u + cB2 u * cB2 u + cB3 u * cB3 u) / 2 else 0)) / cd u.

(** Around cell (k,j,i) of g and cell (k',j',i') of g' the data agree for offsets from a to b. *)
Record dnear (c : dcfg) (g g' : grid3) (k j i k' j' i' a b : Z) : Prop := DNear {
  dn_dx1 : dx1 g' = dx1 g; dn_dx2 : dx2 g' = dx2 g; dn_dx3 : dx3 g' = dx3 g;
  dn_U : forall dk dj di, offset c a b dk dj di -> U g' (k' + dk)%Z (j' + dj)%Z (i' + di)%Z = U g (k + dk)%Z (j + dj)%Z (i + di)%Z;
  dn_B1 : forall dk dj di, offset c a b dk dj di -> (a < di)%Z -> B1i g' (k' + dk)%Z (j' + dj)%Z (i' + di)%Z = B1i g (k + dk)%Z (j + dj)%Z (i + di)%Z;
  dn_B2 : forall dk dj di, offset c a b dk dj di -> (two c = true -> a < dj)%Z -> B2i g' (k' + dk)%Z (j' + dj)%Z (i' + di)%Z = B2i g (k + dk)%Z (j + dj)%Z (i + di)%Z;
  dn_B3 : forall dk dj di, offset c a b dk dj di -> (three c = true -> a < dk)%Z -> B3i g' (k' + dk)%Z (j' + dj)%Z (i' + di)%Z = B3i g (k + dk)%Z (j + dj)%Z (i + di)%Z }.

(** The ghost zones hold the periodic images of the active zones. *)
Definition dimage (c : dcfg) (g : grid3) (k j i k' j' i' : Z) : Prop :=
  U g k' j' i' = U g k j i /\
  ((is g - nghost < i)%Z -> B1i g k' j' i' = B1i g k j i) /\
  ((two c = true -> js g - nghost < j)%Z -> B2i g k' j' i' = B2i g k j i) /\
  ((three c = true -> ks g - nghost < k)%Z -> B3i g k' j' i' = B3i g k j i).
Definition dperiodic (c : dcfg) (g : grid3) : Prop :=
  let N1 := (ie g - is g + 1)%Z in let N2 := (je g - js g + 1)%Z in let N3 := (ke g - ks g + 1)%Z in
  forall k j i, dzone c g k j i ->
    (dzone c g k j (i + N1) -> dimage c g k j i k j (i + N1)) /\
    (two c = true -> dzone c g k (j + N2) i -> dimage c g k j i k (j + N2) i) /\
    (three c = true -> dzone c g (k + N3) j i -> dimage c g k j i (k + N3) j i).
(** Nothing but the conserved variables of active zones differs. *)
Record same_but_U (g g' : grid3) : Prop := SameButU {
  sb_is : is g' = is g; sb_ie : ie g' = ie g; sb_js : js g' = js g; sb_je : je g' = je g; sb_ks : ks g' = ks g; sb_ke : ke g' = ke g;
  sb_dx1 : dx1 g' = dx1 g; sb_dx2 : dx2 g' = dx2 g; sb_dx3 : dx3 g' = dx3 g; sb_dt : dt g' = dt g;
  sb_B1 : B1i g' = B1i g; sb_B2 : B2i g' = B2i g; sb_B3 : B3i g' = B3i g; sb_Phi : Phi g' = Phi g;
  sb_U : forall k j i, ~ active3 g k j i -> U g' k j i = U g k j i }.
(** Heat flowing into the cell with u from the neighbour with v, per unit area and time, for
    conductivity kap times the mean density: Fourier's law. *)
Definition heat_in (c : dcfg) (kap dx : R) (u v : cons) : R := kap * ((cd u + cd v) / 2) * (temperature c v - temperature c u) / dx.
(** The state seen by an observer who moves with velocity -(w1,w2,w3). *)
Definition boost (w1 w2 w3 : R) (u : cons) : cons :=
  Cons (cd u) (cM1 u + cd u * w1) (cM2 u + cd u * w2) (cM3 u + cd u * w3)
    (cE u + (w1 * cM1 u + w2 * cM2 u + w3 * cM3 u) + cd u * (w1 * w1 + w2 * w2 + w3 * w3) / 2) (cB1 u) (cB2 u) (cB3 u) (cs u).
(** Velocity v + A x, density d, around cell (k,j,i); A has no column for a direction that the
    run does not have. *)
Record matrix := Matrix { a11 : R; a12 : R; a13 : R; a21 : R; a22 : R; a23 : R; a31 : R; a32 : R; a33 : R }.
Definition trace (A : matrix) : R := a11 A + a22 A + a33 A.
Record linear_flow (c : dcfg) (g : grid3) (k j i : Z) (d v1 v2 v3 : R) (A : matrix) : Prop := LinearFlow {
  lf_two : two c = false -> a12 A = 0 /\ a22 A = 0 /\ a32 A = 0;
  lf_three : three c = false -> a13 A = 0 /\ a23 A = 0 /\ a33 A = 0;
  lf_U : forall dk dj di, offset c (-2) 2 dk dj di -> let u := U g (k + dk)%Z (j + dj)%Z (i + di)%Z in
    let x := IZR di * dx1 g in let y := IZR dj * dx2 g in let w := IZR dk * dx3 g in
    cd u = d /\ cM1 u = d * (v1 + a11 A * x + a12 A * y + a13 A * w) /\ cM2 u = d * (v2 + a21 A * x + a22 A * y + a23 A * w) /\ cM3 u = d * (v3 + a31 A * x + a32 A * y + a33 A * w) }.
(** The dissipation function of a Navier-Stokes fluid with this velocity gradient. *)
Definition dissipation (A : matrix) : R :=
  2 * (a11 A * a11 A + a22 A * a22 A + a33 A * a33 A) + (a12 A + a21 A) * (a12 A + a21 A) + (a13 A + a31 A) * (a13 A + a31 A)
  + (a23 A + a32 A) * (a23 A + a32 A) - 2 / 3 * (trace A * trace A).
(** A uniform field around the cell. *)
Record uniform_field (c : dcfg) (g : grid3) (k j i : Z) (b1 b2 b3 : R) : Prop := UniformField {
  uf_U : forall dk dj di, offset c (-1) 1 dk dj di -> let u := U g (k + dk)%Z (j + dj)%Z (i + di)%Z in cB1 u = b1 /\ cB2 u = b2 /\ cB3 u = b3;
  uf_B1 : B1i g k j i = b1 /\ B1i g k j (i + 1)%Z = b1;
  uf_B2 : B2i g k j i = b2 /\ B2i g k (j + 1)%Z i = b2;
  uf_B3 : three c = true -> B3i g k j i = b3 /\ B3i g (k + 1)%Z j i = b3 }.
(** The rate of strain along the field, without its trace (Braginskii). *)
Definition strain_along (A : matrix) (b1 b2 b3 : R) : R :=
  (b1 * (a11 A * b1 + a12 A * b2 + a13 A * b3) + b2 * (a21 A * b1 + a22 A * b2 + a23 A * b3) + b3 * (a31 A * b1 + a32 A * b2 + a33 A * b3))
  / (b1 * b1 + b2 * b2 + b3 * b3) - trace A / 3.
(** The magnetic flux out of a cell per unit volume, in the directions the run has. *)
Definition flux_out (c : dcfg) (g : grid3) (k j i : Z) : R :=
  (B1i g k j (i + 1)%Z - B1i g k j i) / dx1 g + (if two c then (B2i g k (j + 1)%Z i - B2i g k j i) / dx2 g else 0)
  + (if three c then (B3i g (k + 1)%Z j i - B3i g k j i) / dx3 g else 0).
(** The field of every active cell is the average of the fields of its faces; in a direction
    that the run does not have there is one face with the same field. *)
Definition dcentred (c : dcfg) (g : grid3) : Prop :=
  forall k j i, active3 g k j i ->
    cB1 (U g k j i) = half * (B1i g k j i + B1i g k j (i + 1)%Z) /\
    cB2 (U g k j i) = (if two c then half * (B2i g k j i + B2i g k (j + 1)%Z i) else B2i g k j i) /\
    cB3 (U g k j i) = (if three c then half * (B3i g k j i + B3i g (k + 1)%Z j i) else B3i g k j i).
(** A corner of an active cell (as an index pair in 2D, an index in 1D). *)
Definition corner (c : dcfg) (g : grid3) (k j i : Z) : Prop :=
  (is g <= i <= ie g + 1)%Z /\ (if two c then (js g <= j <= je g + 1)%Z else j = js g) /\ (if three c then (ks g <= k <= ke g + 1)%Z else k = ks g).
