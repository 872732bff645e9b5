(** * src/microphysics/viscosity.c

    Modelled: Cartesian Grids in one, two or three dimensions, with or without MHD, no FARGO.
    With super timestepping the caller passes STS_dt in place of the Grid's dt.  Divisions are
    those of real numbers; ONE_3RD is one third.  The anisotropic part (lines 350-630) names
    the components of the velocity .x, .y, .z, which are not members of Real3Vect (athena.h
    has x1, x2, x3), so with MHD the file does not compile as it is; they are read as x1, x2,
    x3 here. *)
From Coq Require Import Reals ZArith List Bool.
From Verif Require Import GasModel IntegModel.
Import ListNotations.
From Verif Require Import Ctu3Model CondModel.
Open Scope R_scope.

(** athena.h Real3Vect; viscosity.c:23-28 ViscFluxS *)
Record vec := Vec { vx : R; vy : R; vz : R }.
Record vflux := VFlux { fx : R; fy : R; fz : R; fe : R }.
Definition no_flux : vflux := VFlux 0 0 0 0.
Definition third : R := / 3.

(** lines 121-128 *)
Definition velof (u : cons) : vec := Vec (cM1 u / cd u) (cM2 u / cd u) (cM3 u / cd u).
(** One face: what ViscStress_iso adds, e.g. lines 240-251 (a behind the face, b in front) *)
Definition iso_flux (nu : R) (u u1 : cons) (a b : vec) (mx my mz : R) : vflux :=
  let nud := nu * half * (cd u + cd u1) in
  VFlux (nud * mx) (nud * my) (nud * mz) (half * nud * ((vx b + vx a) * mx + (vy b + vy a) * my + (vz b + vz a) * mz)).
(** lines 224-238 *)
Definition iso1 (c : dcfg) (g : grid3) (V : Z -> Z -> Z -> vec) (D : Z -> Z -> Z -> R) (k j i : Z) : vflux :=
  let i1 := (i - 1)%Z in let a := V k j i in let b := V k j i1 in
  let mx := 2 * (vx a - vx b) / dx1 g - third * (D k j i + D k j i1) in
  let my := (vy a - vy b) / dx1 g in
  let my := if two c then my + / 4 / dx2 g * ((vx (V k (j + 1)%Z i) + vx (V k (j + 1)%Z i1)) - (vx (V k (j - 1)%Z i) + vx (V k (j - 1)%Z i1))) else my in
  let mz := (vz a - vz b) / dx1 g in
  let mz := if three c then mz + / 4 / dx3 g * ((vx (V (k + 1)%Z j i) + vx (V (k + 1)%Z j i1)) - (vx (V (k - 1)%Z j i) + vx (V (k - 1)%Z j i1))) else mz in
  iso_flux (nu_iso c) (U g k j i) (U g k j i1) a b mx my mz.
(** lines 262-278 *)
Definition iso2 (c : dcfg) (g : grid3) (V : Z -> Z -> Z -> vec) (D : Z -> Z -> Z -> R) (k j i : Z) : vflux :=
  let j1 := (j - 1)%Z in let a := V k j i in let b := V k j1 i in
  let mx := (vx a - vx b) / dx2 g + ((vy (V k j (i + 1)%Z) + vy (V k j1 (i + 1)%Z)) - (vy (V k j (i - 1)%Z) + vy (V k j1 (i - 1)%Z))) / (4 * dx1 g) in
  let my := 2 * (vy a - vy b) / dx2 g - third * (D k j i + D k j1 i) in
  let mz := (vz a - vz b) / dx2 g in
  let mz := if three c then mz + ((vy (V (k + 1)%Z j i) + vy (V (k + 1)%Z j1 i)) - (vy (V (k - 1)%Z j i) + vy (V (k - 1)%Z j1 i))) / (4 * dx3 g) else mz in
  iso_flux (nu_iso c) (U g k j i) (U g k j1 i) a b mx my mz.
(** lines 303-313 *)
Definition iso3 (c : dcfg) (g : grid3) (V : Z -> Z -> Z -> vec) (D : Z -> Z -> Z -> R) (k j i : Z) : vflux :=
  let k1 := (k - 1)%Z in let a := V k j i in let b := V k1 j i in
  let mx := (vx a - vx b) / dx3 g + ((vz (V k j (i + 1)%Z) + vz (V k1 j (i + 1)%Z)) - (vz (V k j (i - 1)%Z) + vz (V k1 j (i - 1)%Z))) / (4 * dx1 g) in
  let my := (vy a - vy b) / dx3 g + ((vz (V k (j + 1)%Z i) + vz (V k1 (j + 1)%Z i)) - (vz (V k (j - 1)%Z i) + vz (V k1 (j - 1)%Z i))) / (4 * dx2 g) in
  let mz := 2 * (vz a - vz b) / dx3 g - third * (D k j i + D k1 j i) in
  iso_flux (nu_iso c) (U g k j i) (U g k1 j i) a b mx my mz.

(** One face of ViscStress_aniso: lines 408-454, 516-562, 604-629.  bx, by, bz: the field
    there; gxx ... gzz: the velocity gradients (gxy is dVx/dy); sx, sy, sz: 1 for the
    direction of the face, 0 for the others; bn: the field's component along it. *)
Definition aniso_flux (nu : R) (u u1 : cons) (a b : vec) (bx by_ bz bn sx sy sz gxx gxy gxz gyx gyy gyz gzx gzy gzz : R) : vflux :=
  let B02 := MAX (bx * bx + by_ * by_ + bz * bz) TINY_NUMBER in
  let BBdV := (bx * (bx * gxx + by_ * gxy + bz * gxz) + by_ * (bx * gyx + by_ * gyy + bz * gyz) + bz * (bx * gzx + by_ * gzy + bz * gzz)) / B02 in
  let divV := gxx + gyy + gzz in
  let nud := nu * half * (cd u + cd u1) in
  let qa := nud * (BBdV - third * divV) in
  let mx := qa * (3 * bx * bn / B02 - sx) in
  let my := qa * (3 * by_ * bn / B02 - sy) in
  let mz := qa * (3 * bz * bn / B02 - sz) in
  VFlux mx my mz (half * (vx b + vx a) * mx + half * (vy b + vy a) * my + half * (vz b + vz a) * mz).
(** The limited differences of one component, from CondModel. *)
Definition com (p : vec -> R) (V : Z -> Z -> Z -> vec) : Z -> Z -> Z -> R := fun k j i => p (V k j i).
(** lines 348-454; without x3 the x3-derivatives play no part *)
Definition aniso_x1 (c : dcfg) (g : grid3) (V : Z -> Z -> Z -> vec) (k j i : Z) : vflux :=
  let i1 := (i - 1)%Z in let a := V k j i in let b := V k j i1 in
  let d2 p := dT2 (com p V) k j i k j i1 / dx2 g in
  let d3 p := if three c then dT3 (com p V) k j i k j i1 / dx3 g else 0 in
  aniso_flux (nu_aniso c) (U g k j i) (U g k j i1) a b
    (B1i g k j i) (half * (cB2 (U g k j i) + cB2 (U g k j i1))) (half * (cB3 (U g k j i) + cB3 (U g k j i1))) (B1i g k j i) 1 0 0
    ((vx a - vx b) / dx1 g) (d2 vx) (d3 vx) ((vy a - vy b) / dx1 g) (d2 vy) (d3 vy) ((vz a - vz b) / dx1 g) (d2 vz) (d3 vz).
(** lines 456-562 *)
Definition aniso_x2 (c : dcfg) (g : grid3) (V : Z -> Z -> Z -> vec) (k j i : Z) : vflux :=
  let j1 := (j - 1)%Z in let a := V k j i in let b := V k j1 i in
  let d1 p := dT1 (com p V) k j i k j1 i / dx1 g in
  let d3 p := if three c then dT3 (com p V) k j i k j1 i / dx3 g else 0 in
  aniso_flux (nu_aniso c) (U g k j i) (U g k j1 i) a b
    (half * (cB1 (U g k j i) + cB1 (U g k j1 i))) (B2i g k j i) (half * (cB3 (U g k j i) + cB3 (U g k j1 i))) (B2i g k j i) 0 1 0
    (d1 vx) ((vx a - vx b) / dx2 g) (d3 vx) (d1 vy) ((vy a - vy b) / dx2 g) (d3 vy) (d1 vz) ((vz a - vz b) / dx2 g) (d3 vz).
(** lines 564-629 *)
Definition aniso_x3 (c : dcfg) (g : grid3) (V : Z -> Z -> Z -> vec) (k j i : Z) : vflux :=
  let k1 := (k - 1)%Z in let a := V k j i in let b := V k1 j i in
  let d1 p := dT1 (com p V) k j i k1 j i / dx1 g in
  let d2 p := dT2 (com p V) k j i k1 j i / dx2 g in
  aniso_flux (nu_aniso c) (U g k j i) (U g k1 j i) a b
    (half * (cB1 (U g k j i) + cB1 (U g k1 j i))) (half * (cB2 (U g k j i) + cB2 (U g k1 j i))) (B3i g k j i) (B3i g k j i) 0 0 1
    (d1 vx) (d2 vx) ((vx a - vx b) / dx3 g) (d1 vy) (d2 vy) ((vy a - vy b) / dx3 g) (d1 vz) (d2 vz) ((vz a - vz b) / dx3 g).
(** += of a flux; and lines 442-450, where the energy flux through x1-faces is assigned, not
    added *)
Definition fadd (f h : vflux) : vflux := VFlux (fx f + fx h) (fy f + fy h) (fz f + fz h) (fe f + fe h).
Definition fadd_x1 (f h : vflux) : vflux := VFlux (fx f + fx h) (fy f + fy h) (fz f + fz h) (fe h).

(** The static arrays as left by earlier calls. *)
Record vscratch := VScratch { z_V : Z -> Z -> Z -> vec; z_divv : Z -> Z -> Z -> R;
  z_F1 : Z -> Z -> Z -> vflux; z_F2 : Z -> Z -> Z -> vflux; z_F3 : Z -> Z -> Z -> vflux }.

Section Viscosity.
Variables (c : dcfg) (my_dt : R) (z : vscratch) (g : grid3).
Definition wjl := if two c then (js g - 2)%Z else js g.                 (* lines 81-96 *)
Definition wju := if two c then (je g + 2)%Z else je g.
Definition wkl := if three c then (ks g - 2)%Z else ks g.
Definition wku := if three c then (ke g + 2)%Z else ke g.
(** lines 100-130 *)
Definition Vel : Z -> Z -> Z -> vec := loop3 wkl wku wjl wju (is g - 2) (ie g + 2) (fun k j i => velof (U g k j i)) (z_V z).
Definition Fz (old : Z -> Z -> Z -> vflux) : Z -> Z -> Z -> vflux := loop3 wkl wku wjl wju (is g - 2) (ie g + 2) (fun _ _ _ => no_flux) old.
(** lines 132-158 *)
Definition divv1 : Z -> Z -> Z -> R :=
  loop3 wkl wku wjl wju (is g - 1) (ie g + 1) (fun k j i => (vx (Vel k j (i + 1)%Z) - vx (Vel k j (i - 1)%Z)) / (2 * dx1 g)) (z_divv z).
Definition divv2 : Z -> Z -> Z -> R :=
  if two c then loop3 wkl wku (js g - 1) (je g + 1) (is g - 1) (ie g + 1) (fun k j i =>
    divv1 k j i + (vy (Vel k (j + 1)%Z i) - vy (Vel k (j - 1)%Z i)) / (2 * dx2 g)) divv1 else divv1.
Definition divv : Z -> Z -> Z -> R :=
  if three c then loop3 (ks g - 1) (ke g + 1) (js g - 1) (je g + 1) (is g - 1) (ie g + 1) (fun k j i =>
    divv2 k j i + (vz (Vel (k + 1)%Z j i) - vz (Vel (k - 1)%Z j i)) / (2 * dx3 g)) divv2 else divv2.
(** ViscStress_iso, lines 208-331 *)
Definition Fi1 : Z -> Z -> Z -> vflux :=
  if Rlt_dec 0 (nu_iso c) then loop3 (ks g) (ke g) (js g) (je g) (is g) (ie g + 1) (fun k j i => fadd (Fz (z_F1 z) k j i) (iso1 c g Vel divv k j i)) (Fz (z_F1 z))
  else Fz (z_F1 z).
Definition Fi2 : Z -> Z -> Z -> vflux :=
  if Rlt_dec 0 (nu_iso c) then
    if two c then loop3 (ks g) (ke g) (js g) (je g + 1) (is g) (ie g) (fun k j i => fadd (Fz (z_F2 z) k j i) (iso2 c g Vel divv k j i)) (Fz (z_F2 z))
    else Fz (z_F2 z)
  else Fz (z_F2 z).
Definition Fi3 : Z -> Z -> Z -> vflux :=
  if Rlt_dec 0 (nu_iso c) then
    if three c then loop3 (ks g) (ke g + 1) (js g) (je g) (is g) (ie g) (fun k j i => fadd (Fz (z_F3 z) k j i) (iso3 c g Vel divv k j i)) (Fz (z_F3 z))
    else Fz (z_F3 z)
  else Fz (z_F3 z).
(** ViscStress_aniso, lines 338-637 *)
Definition visc_aniso : bool := (if Rlt_dec 0 (nu_aniso c) then true else false) && mhd c && two c.
Definition F1 : Z -> Z -> Z -> vflux :=
  if visc_aniso then loop3 (ks g) (ke g) (js g) (je g) (is g) (ie g + 1) (fun k j i => fadd_x1 (Fi1 k j i) (aniso_x1 c g Vel k j i)) Fi1 else Fi1.
Definition F2 : Z -> Z -> Z -> vflux :=
  if visc_aniso then loop3 (ks g) (ke g) (js g) (je g + 1) (is g) (ie g) (fun k j i => fadd (Fi2 k j i) (aniso_x2 c g Vel k j i)) Fi2 else Fi2.
Definition F3 : Z -> Z -> Z -> vflux :=
  if visc_aniso && three c then loop3 (ks g) (ke g + 1) (js g) (je g) (is g) (ie g) (fun k j i => fadd (Fi3 k j i) (aniso_x3 c g Vel k j i)) Fi3 else Fi3.
(** lines 170-179 etc.: M and, unless BAROTROPIC, E *)
Definition add_flux (q : R) (u : cons) (f1 f0 : vflux) : cons :=
  let u := set_M1 u (cM1 u + q * (fx f1 - fx f0)) in
  let u := set_M2 u (cM2 u + q * (fy f1 - fy f0)) in
  let u := set_M3 u (cM3 u + q * (fz f1 - fz f0)) in
  if barotropic c then u else set_E u (cE u + q * (fe f1 - fe f0)).
(** lines 166-204 *)
Definition Uv1 : Z -> Z -> Z -> cons :=
  loop3 (ks g) (ke g) (js g) (je g) (is g) (ie g) (fun k j i => add_flux (my_dt / dx1 g) (U g k j i) (F1 k j (i + 1)%Z) (F1 k j i)) (U g).
Definition Uv2 : Z -> Z -> Z -> cons :=
  if two c then loop3 (ks g) (ke g) (js g) (je g) (is g) (ie g) (fun k j i => add_flux (my_dt / dx2 g) (Uv1 k j i) (F2 k (j + 1)%Z i) (F2 k j i)) Uv1 else Uv1.
Definition Uv3 : Z -> Z -> Z -> cons :=
  if three c then loop3 (ks g) (ke g) (js g) (je g) (is g) (ie g) (fun k j i => add_flux (my_dt / dx3 g) (Uv2 k j i) (F3 (k + 1)%Z j i) (F3 k j i)) Uv2 else Uv2.
Definition viscosity : grid3 := set_U g Uv3.
End Viscosity.
