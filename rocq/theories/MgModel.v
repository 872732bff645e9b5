(** * Model of the multigrid Poisson solver, src/gravity/selfg_multigrid.c:110-530

    One Grid: with MPI or mesh refinement the file does not compile (lines 31, 35).
    Real numbers stand for double-precision numbers; the cell sizes are not 0.
    An array is a function of k, j, i.  A loop nest in which every pass writes a
    cell of its own and reads other arrays is a function of the cell.
    Not modelled: allocation, and the division by zero of a boundary cell whose
    centre is the origin (it would hold an infinity). *)
From Coq Require Import Reals ZArith List Bool.
Import ListNotations.
Open Scope R_scope.

Definition fld := Z -> Z -> Z -> R.

(** selfg_multigrid.c:45-55 MGrid; active cells have the indices 1 to Nx. *)
Record mgrid := MGrid { Nx1 : Z; Nx2 : Z; Nx3 : Z; dx1 : R; dx2 : R; dx3 : R; rhs : fld; mPhi : fld }.

Definition inside (lo hi x : Z) : bool := ((lo <=? x) && (x <=? hi))%Z.
Definition act (g : mgrid) (k j i : Z) : bool :=
  inside 1 (Nx3 g) k && inside 1 (Nx2 g) j && inside 1 (Nx1 g) i.

(** selfg_multigrid.c:394-416: one of the iterations in three dimensions. *)
Definition jacobi3 (g : mgrid) (p : fld) : fld := fun k j i =>
  if act g k j i then
    let error := - rhs g k j i in
    let error := error + (p k j (i + 1)%Z + p k j (i - 1)%Z) / (dx1 g * dx1 g) in
    let error := error + (p k (j + 1)%Z i + p k (j - 1)%Z i) / (dx2 g * dx2 g) in
    let error := error + (p (k + 1)%Z j i + p (k - 1)%Z j i) / (dx3 g * dx3 g) in
    error / (2 / (dx1 g * dx1 g) + 2 / (dx2 g * dx2 g) + 2 / (dx3 g * dx3 g))
  else p k j i.
(** selfg_multigrid.c:421-440: the same in two dimensions, in the plane ks = 1. *)
Definition jacobi2 (g : mgrid) (p : fld) : fld := fun k j i =>
  if (k =? 1)%Z && inside 1 (Nx2 g) j && inside 1 (Nx1 g) i then
    let error := - rhs g k j i in
    let error := error + (p k j (i + 1)%Z + p k j (i - 1)%Z) / (dx1 g * dx1 g) in
    let error := error + (p k (j + 1)%Z i + p k (j - 1)%Z i) / (dx2 g * dx2 g) in
    error / (2 / (dx1 g * dx1 g) + 2 / (dx2 g * dx2 g))
  else p k j i.
(** selfg_multigrid.c:380-443 Jacobi: n runs from 0 to 10. *)
Definition Jacobi (g : mgrid) (p : fld) : fld :=
  let p := if (1 <? Nx3 g)%Z then Nat.iter 11 (jacobi3 g) p else p in
  if (Nx3 g =? 1)%Z then Nat.iter 11 (jacobi2 g) p else p.

(** selfg_multigrid.c:458-471: the array error in Restriction_3d. *)
Definition residual (g : mgrid) (p : fld) : fld := fun k j i =>
  let error := rhs g k j i in
  let error := error - (p k j (i + 1)%Z + p k j (i - 1)%Z - 2 * p k j i) / (dx1 g * dx1 g) in
  let error := error - (p k (j + 1)%Z i + p k (j - 1)%Z i - 2 * p k j i) / (dx2 g * dx2 g) in
  error - (p (k + 1)%Z j i + p (k - 1)%Z j i - 2 * p k j i) / (dx3 g * dx3 g).
(** selfg_multigrid.c:475-486: the mean of eight cells. *)
Definition mean8 (f : fld) (k j i : Z) : R :=
  let k2 := (2 * k)%Z in let j2 := (2 * j)%Z in let i2 := (2 * i)%Z in
  (f k2 j2 i2 + f k2 j2 (i2 - 1)%Z
   + f k2 (j2 - 1)%Z i2 + f k2 (j2 - 1)%Z (i2 - 1)%Z
   + f (k2 - 1)%Z j2 i2 + f (k2 - 1)%Z j2 (i2 - 1)%Z
   + f (k2 - 1)%Z (j2 - 1)%Z i2 + f (k2 - 1)%Z (j2 - 1)%Z (i2 - 1)%Z) / 8.

(** selfg_multigrid.c:322-345: the coarse grid, whose arrays come from calloc, and
    Restriction_3d (449-491). *)
Definition coarse (g : mgrid) (p : fld) : mgrid :=
  let m1 := (Nx1 g / 2)%Z in let m2 := (Nx2 g / 2)%Z in let m3 := (Nx3 g / 2)%Z in
  let c := MGrid m1 m2 m3 (2 * dx1 g) (2 * dx2 g) (2 * dx3 g) (fun _ _ _ => 0) (fun _ _ _ => 0) in
  MGrid m1 m2 m3 (2 * dx1 g) (2 * dx2 g) (2 * dx3 g)
    (fun k j i => if act c k j i then mean8 (residual g p) k j i else 0)
    (fun k j i => if act c k j i then mean8 p k j i else 0).

(** selfg_multigrid.c:496-537 Prolongation_3d: the eight pairs of statements, by
    the fine cell that they write. *)
Definition Prolongation_3d (c : mgrid) (q p : fld) : fld := fun K J I =>
  let k := ((K + 1) / 2)%Z in let j := ((J + 1) / 2)%Z in let i := ((I + 1) / 2)%Z in
  if act c k j i then
    p K J I + (3 / 4) * q k j i + (1 / 4) *
      match Z.even K, Z.even J, Z.even I with
      | true, true, true => q (k + 1)%Z (j + 1)%Z (i + 1)%Z
      | true, true, false => q (k + 1)%Z (j + 1)%Z (i - 1)%Z
      | true, false, true => q (k + 1)%Z (j - 1)%Z (i + 1)%Z
      | false, true, true => q (k - 1)%Z (j + 1)%Z (i + 1)%Z
      | true, false, false => q (k + 1)%Z (j - 1)%Z (i - 1)%Z
      | false, false, true => q (k - 1)%Z (j - 1)%Z (i + 1)%Z
      | false, true, false => q (k - 1)%Z (j + 1)%Z (i - 1)%Z
      | false, false, false => q (k - 1)%Z (j - 1)%Z (i - 1)%Z
      end
  else p K J I.

(** selfg_multigrid.c:298-371 multig_3d: the new array Phi.  [None]: the recursion
    is deeper than [fuel]. *)
Fixpoint multig_3d (fuel : nat) (g : mgrid) : option fld :=
  match fuel with
  | O => None
  | S n =>
      if ((Nx1 g =? 4) || (Nx2 g =? 4) || (Nx3 g =? 4))%Z then Some (Jacobi g (mPhi g))
      else
        let p := Jacobi g (mPhi g) in
        let c := coarse g p in
        match multig_3d n c with
        | None => None
        | Some q => Some (Jacobi g (Prolongation_3d c q p))
        end
  end.

(** What selfg_multig_3d uses of a Grid (src/athena.h:275-330). *)
Record pgrid := PGrid {
  is : Z; ie : Z; js : Z; je : Z; ks : Z; ke : Z;
  gdx1 : R; gdx2 : R; gdx3 : R;
  MinX1 : R; MinX2 : R; MinX3 : R;
  lx1_id : Z; rx1_id : Z; lx2_id : Z; rx2_id : Z; lx3_id : Z; rx3_id : Z;
  dens : fld; Phi : fld; Phi_old : fld }.

Section Selfg.
Variable nghost : Z.
Variable four_pi_G : R.

(** The cells of a loop from [lo] to [hi]. *)
Definition cells (lo hi : Z) : list Z := map (fun n => lo + Z.of_nat n)%Z (seq 0 (Z.to_nat (hi - lo + 1))).

(** selfg_multigrid.c:136-143: the mass of the Grid. *)
Definition mass (G : pgrid) : R :=
  fold_left (fun a k => fold_left (fun a j => fold_left (fun a i =>
     a + dens G k j i * (gdx1 G * gdx2 G * gdx3 G)) (cells (is G) (ie G)) a) (cells (js G) (je G)) a) (cells (ks G) (ke G)) 0.

(** src/cc_pos.c:29-38 (Cartesian), and lines 160-161: the potential of a point
    mass at the origin. *)
Definition monopole (G : pgrid) (M : R) (k j i : Z) : R :=
  let x1 := MinX1 G + (IZR (i - is G) + 1 / 2) * gdx1 G in
  let x2 := MinX2 G + (IZR (j - js G) + 1 / 2) * gdx2 G in
  let x3 := MinX3 G + (IZR (k - ks G) + 1 / 2) * gdx3 G in
  let rad := sqrt (x1 * x1 + x2 * x2 + x3 * x3) in
  let Grav_const := four_pi_G / (4 * PI) in
  - Grav_const * M / rad.

Definition put (b : bool) (kl ku jl ju il iu : Z) (f p : fld) : fld := fun k j i =>
  if b && inside kl ku k && inside jl ju j && inside il iu i then f k j i else p k j i.

(** selfg_multigrid.c:155-229: the six sides, one after the other. *)
Definition edges (G : pgrid) : fld :=
  let f := monopole G (mass G) in
  let p := put (lx1_id G <? 0)%Z (ks G) (ke G) (js G) (je G) (is G - nghost)%Z (is G - 1)%Z f (Phi G) in
  let p := put (rx1_id G <? 0)%Z (ks G) (ke G) (js G) (je G) (ie G + 1)%Z (ie G + nghost)%Z f p in
  let p := put (lx2_id G <? 0)%Z (ks G) (ke G) (js G - nghost)%Z (js G - 1)%Z (is G - nghost)%Z (ie G + nghost)%Z f p in
  let p := put (rx2_id G <? 0)%Z (ks G) (ke G) (je G + 1)%Z (je G + nghost)%Z (is G - nghost)%Z (ie G + nghost)%Z f p in
  let p := put (lx3_id G <? 0)%Z (ks G - nghost)%Z (ks G - 1)%Z (js G - nghost)%Z (je G + nghost)%Z (is G - nghost)%Z (ie G + nghost)%Z f p in
  put (rx3_id G <? 0)%Z (ke G + 1)%Z (ke G + nghost)%Z (js G - nghost)%Z (je G + nghost)%Z (is G - nghost)%Z (ie G + nghost)%Z f p.

(** selfg_multigrid.c:232-270: the root of the hierarchy. *)
Definition root (G : pgrid) : mgrid :=
  MGrid (ie G - is G + 1)%Z (je G - js G + 1)%Z (ke G - ks G + 1)%Z (gdx1 G) (gdx2 G) (gdx3 G)
    (fun k j i => four_pi_G * dens G (k + ks G - 1)%Z (j + js G - 1)%Z (i + is G - 1)%Z)
    (fun k j i => edges G (k + ks G - 1)%Z (j + js G - 1)%Z (i + is G - 1)%Z).

(** selfg_multigrid.c:110-291 selfg_multig_3d. *)
Definition selfg_multig_3d (fuel : nat) (G : pgrid) : option pgrid :=
  match multig_3d fuel (root G) with
  | None => None
  | Some q =>
      Some (PGrid (is G) (ie G) (js G) (je G) (ks G) (ke G) (gdx1 G) (gdx2 G) (gdx3 G)
        (MinX1 G) (MinX2 G) (MinX3 G) (lx1_id G) (rx1_id G) (lx2_id G) (rx2_id G) (lx3_id G) (rx3_id G) (dens G)
        (put true (ks G) (ke G) (js G) (je G) (is G) (ie G) (fun k j i => q (k - ks G + 1)%Z (j - js G + 1)%Z (i - is G + 1)%Z) (edges G))
        (put true (ks G - nghost)%Z (ke G + nghost)%Z (js G - nghost)%Z (je G + nghost)%Z (is G - nghost)%Z (ie G + nghost)%Z (Phi G) (Phi_old G)))
  end.
End Selfg.
