(** * src/microphysics/conduction.c, new_dt_diff.c, get_eta.c, integrate_diffusion.c

    Modelled: Cartesian Grids in one, two or three dimensions, with or without MHD; with
    super timestepping the caller passes STS_dt in place of the Grid's dt.  Divisions are
    those of real numbers; the theorems are about runs in which no divisor is zero. *)
From Coq Require Import Reals ZArith List Bool.
From Verif Require Import GasModel IntegModel.
Import ListNotations.
From Verif Require Import Ctu3Model.
Open Scope R_scope.

(** What integrate_diffusion.c:121-176 and the Mesh fix before the run: whether the Domain
    (and each of its Grids) has more than one cell in x2 and x3 (init_mesh.c:194-196 refuses
    Nx[2] > 1 with Nx[1] = 1), the configuration options, Gamma - 1 and the coefficients. *)
Record dcfg := DCfg {
  two : bool; three : bool; mhd : bool; barotropic : bool; Gamma_1 : R;
  kappa_iso : R; kappa_aniso : R; nu_iso : R; nu_aniso : R; eta_Ohm : R; Q_Hall : R; Q_AD : R; d_ind : R }.

(** The same Grid with other conserved variables. *)
Definition set_U (g : grid3) (V : Z -> Z -> Z -> cons) : grid3 :=
  Grid3 (is g) (ie g) (js g) (je g) (ks g) (ke g) (dt g) (dx1 g) (dx2 g) (dx3 g) (MinX1 g) (MinX2 g) (MinX3 g)
        V (B1i g) (B2i g) (B3i g) (Phi g) (x1Mass g) (x2Mass g) (x3Mass g).

(** conduction.c:385-392 vanleer(), 367-370 limiter2(); also viscosity.c:676-683, 658-661 *)
Definition vanleer (A B : R) : R := if Rlt_dec 0 (A * B) then 2 * A * B / (A + B) else 0.
(** conduction.c:376-379 limiter4(); viscosity.c:667-670 *)
Definition limiter4 (A B C D : R) : R := vanleer (vanleer A B) (vanleer C D).

(** conduction.c:110-116 *)
Definition temp (mhd : bool) (gm1 : R) (u : cons) : R :=
  let t := cE u - (half / cd u) * (cM1 u * cM1 u + cM2 u * cM2 u + cM3 u * cM3 u) in
  let t := if mhd then t - half * (cB1 u * cB1 u + cB2 u * cB2 u + cB3 u * cB3 u) else t in
  t * (gm1 / cd u).

(** lines 178, 256 etc. *)
Definition kd (kappa : R) (u v : cons) : R := kappa * half * (cd u + cd v).
(** The limited differences, e.g. lines 233-236: between the rows at (k,j,i) and (k',j',i'),
    in x1, x2 and x3. *)
Definition dT1 (T : Z -> Z -> Z -> R) (k j i k' j' i' : Z) : R :=
  limiter4 (T k j (i + 1)%Z - T k j i) (T k j i - T k j (i - 1)%Z)
           (T k' j' (i' + 1)%Z - T k' j' i') (T k' j' i' - T k' j' (i' - 1)%Z).
Definition dT2 (T : Z -> Z -> Z -> R) (k j i k' j' i' : Z) : R :=
  limiter4 (T k (j + 1)%Z i - T k j i) (T k j i - T k (j - 1)%Z i)
           (T k' (j' + 1)%Z i' - T k' j' i') (T k' j' i' - T k' (j' - 1)%Z i').
Definition dT3 (T : Z -> Z -> Z -> R) (k j i k' j' i' : Z) : R :=
  limiter4 (T (k + 1)%Z j i - T k j i) (T k j i - T (k - 1)%Z j i)
           (T (k' + 1)%Z j' i' - T k' j' i') (T k' j' i' - T (k' - 1)%Z j' i').
(** HeatFlux_aniso at an x1-face, lines 232-270 (without x3, Bz plays no part) *)
Definition aniso1 (c : dcfg) (g : grid3) (T : Z -> Z -> Z -> R) (k j i : Z) : R :=
  let i1 := (i - 1)%Z in
  let B := B1i g k j i in
  let dTdy := dT2 T k j i k j i1 / dx2 g in
  let By := half * (cB2 (U g k j i1) + cB2 (U g k j i)) in
  let Bz := half * (cB3 (U g k j i1) + cB3 (U g k j i)) in
  let B02 := MAX (if three c then B * B + By * By + Bz * Bz else B * B + By * By) TINY_NUMBER in
  let bDotGradT := B * (T k j i - T k j i1) / dx1 g + By * dTdy in
  let bDotGradT := if three c then bDotGradT + Bz * (dT3 T k j i k j i1 / dx3 g) else bDotGradT in
  kd (kappa_aniso c) (U g k j i) (U g k j i1) * (B * bDotGradT) / B02.
(** ... at an x2-face, lines 280-319 *)
Definition aniso2 (c : dcfg) (g : grid3) (T : Z -> Z -> Z -> R) (k j i : Z) : R :=
  let j1 := (j - 1)%Z in
  let B := B2i g k j i in
  let dTdx := dT1 T k j i k j1 i / dx1 g in
  let Bx := half * (cB1 (U g k j1 i) + cB1 (U g k j i)) in
  let Bz := half * (cB3 (U g k j1 i) + cB3 (U g k j i)) in
  let B02 := MAX (if three c then Bx * Bx + B * B + Bz * Bz else Bx * Bx + B * B) TINY_NUMBER in
  let bDotGradT := B * (T k j i - T k j1 i) / dx2 g + Bx * dTdx in
  let bDotGradT := if three c then bDotGradT + Bz * (dT3 T k j i k j1 i / dx3 g) else bDotGradT in
  kd (kappa_aniso c) (U g k j i) (U g k j1 i) * (B * bDotGradT) / B02.
(** ... at an x3-face, lines 330-353 *)
Definition aniso3 (c : dcfg) (g : grid3) (T : Z -> Z -> Z -> R) (k j i : Z) : R :=
  let k1 := (k - 1)%Z in
  let B := B3i g k j i in
  let dTdx := dT1 T k j i k1 j i / dx1 g in
  let dTdy := dT2 T k j i k1 j i / dx2 g in
  let Bx := half * (cB1 (U g k1 j i) + cB1 (U g k j i)) in
  let By := half * (cB2 (U g k1 j i) + cB2 (U g k j i)) in
  let B02 := MAX (Bx * Bx + By * By + B * B) TINY_NUMBER in
  let bDotGradT := B * (T k j i - T k1 j i) / dx3 g + Bx * dTdx + By * dTdy in
  kd (kappa_aniso c) (U g k j i) (U g k1 j i) * (B * bDotGradT) / B02.

(** The static arrays Temp and Q as left by earlier calls. *)
Record cscratch := CScratch { z_T : Z -> Z -> Z -> R; z_Q1 : Z -> Z -> Z -> R; z_Q2 : Z -> Z -> Z -> R; z_Q3 : Z -> Z -> Z -> R }.

Section Conduction.
Variables (c : dcfg) (my_dt : R) (z : cscratch) (g : grid3).
Definition cjl := if two c then (js g - 1)%Z else js g.                 (* lines 80-95 *)
Definition cju := if two c then (je g + 1)%Z else je g.
Definition ckl := if three c then (ks g - 1)%Z else ks g.
Definition cku := if three c then (ke g + 1)%Z else ke g.
(** lines 102-118 *)
Definition Temp : Z -> Z -> Z -> R :=
  loop3 ckl cku cjl cju (is g - 1) (ie g + 1) (fun k j i => temp (mhd c) (Gamma_1 c) (U g k j i)) (z_T z).
Definition Qz (old : Z -> Z -> Z -> R) : Z -> Z -> Z -> R :=
  loop3 ckl cku cjl cju (is g - 1) (ie g + 1) (fun _ _ _ => 0) old.
(** HeatFlux_iso, lines 165-208 *)
Definition Qi1 : Z -> Z -> Z -> R :=
  if Rlt_dec 0 (kappa_iso c) then
    loop3 (ks g) (ke g) (js g) (je g) (is g) (ie g + 1) (fun k j i =>
      Qz (z_Q1 z) k j i + kd (kappa_iso c) (U g k j i) (U g k j (i - 1)%Z) * (Temp k j i - Temp k j (i - 1)%Z) / dx1 g) (Qz (z_Q1 z))
  else Qz (z_Q1 z).
Definition Qi2 : Z -> Z -> Z -> R :=
  if Rlt_dec 0 (kappa_iso c) then
    if two c then
      loop3 (ks g) (ke g) (js g) (je g + 1) (is g) (ie g) (fun k j i =>
        Qz (z_Q2 z) k j i + kd (kappa_iso c) (U g k j i) (U g k (j - 1)%Z i) * (Temp k j i - Temp k (j - 1)%Z i) / dx2 g) (Qz (z_Q2 z))
    else Qz (z_Q2 z)
  else Qz (z_Q2 z).
Definition Qi3 : Z -> Z -> Z -> R :=
  if Rlt_dec 0 (kappa_iso c) then
    if three c then
      loop3 (ks g) (ke g + 1) (js g) (je g) (is g) (ie g) (fun k j i =>
        Qz (z_Q3 z) k j i + kd (kappa_iso c) (U g k j i) (U g (k - 1)%Z j i) * (Temp k j i - Temp (k - 1)%Z j i) / dx3 g) (Qz (z_Q3 z))
    else Qz (z_Q3 z)
  else Qz (z_Q3 z).
(** lines 123-124, 223-224, 325 *)
Definition aniso_on : bool := (if Rlt_dec 0 (kappa_aniso c) then true else false) && mhd c && two c.
Definition Q1 : Z -> Z -> Z -> R :=
  if aniso_on then loop3 (ks g) (ke g) (js g) (je g) (is g) (ie g + 1) (fun k j i => Qi1 k j i + aniso1 c g Temp k j i) Qi1 else Qi1.
Definition Q2 : Z -> Z -> Z -> R :=
  if aniso_on then loop3 (ks g) (ke g) (js g) (je g + 1) (is g) (ie g) (fun k j i => Qi2 k j i + aniso2 c g Temp k j i) Qi2 else Qi2.
Definition Q3 : Z -> Z -> Z -> R :=
  if aniso_on && three c then loop3 (ks g) (ke g + 1) (js g) (je g) (is g) (ie g) (fun k j i => Qi3 k j i + aniso3 c g Temp k j i) Qi3 else Qi3.
Definition addE (u : cons) (x : R) : cons := set_E u (cE u + x).
(** lines 126-155 *)
Definition Uc1 : Z -> Z -> Z -> cons :=
  loop3 (ks g) (ke g) (js g) (je g) (is g) (ie g) (fun k j i =>
    addE (U g k j i) (my_dt / dx1 g * (Q1 k j (i + 1)%Z - Q1 k j i))) (U g).
Definition Uc2 : Z -> Z -> Z -> cons :=
  if two c then loop3 (ks g) (ke g) (js g) (je g) (is g) (ie g) (fun k j i =>
    addE (Uc1 k j i) (my_dt / dx2 g * (Q2 k (j + 1)%Z i - Q2 k j i))) Uc1 else Uc1.
Definition Uc3 : Z -> Z -> Z -> cons :=
  if three c then loop3 (ks g) (ke g) (js g) (je g) (is g) (ie g) (fun k j i =>
    addE (Uc2 k j i) (my_dt / dx3 g * (Q3 (k + 1)%Z j i - Q3 k j i))) Uc2 else Uc2.
Definition conduction : grid3 := set_U g Uc3.
End Conduction.

(** get_eta.c:96-113 eta_standard(): the values it gives (eta_Hall and eta_AD are set only if
    one of the coefficients is positive; h and a are what the arrays held).  pow(x,y) for x > 0. *)
Definition eta_standard (c : dcfg) (u : cons) (h a : R) : R * R * R :=
  if Rlt_dec 0 (Q_Hall c) then
    let Bsq := cB1 u * cB1 u + cB2 u * cB2 u + cB3 u * cB3 u in
    (eta_Ohm c, Q_Hall c * sqrt Bsq / Rpower (cd u) (d_ind c), Q_AD c * Bsq / Rpower (cd u) (1 + d_ind c))
  else if Rlt_dec 0 (Q_AD c) then
    let Bsq := cB1 u * cB1 u + cB2 u * cB2 u + cB3 u * cB3 u in
    (eta_Ohm c, Q_Hall c * sqrt Bsq / Rpower (cd u) (d_ind c), Q_AD c * Bsq / Rpower (cd u) (1 + d_ind c))
  else (eta_Ohm c, h, a).

(** new_dt_diff.c:54-56, 76-78: the smallest side of a cell; of the finest Grids, which are
    levels = NLevels - 1 below the root Domain with cells d1, d2, d3. *)
Definition dxmin (c : dcfg) (d1 d2 d3 : R) : R :=
  let m := d1 in
  let m := if two c then MIN m d2 else m in
  if three c then MIN m d3 else m.
(** new_dt_diff.c:58-60, 80-82 *)
Definition dt_qa (c : dcfg) (dx : R) : R :=
  let qa := dx * dx / 4 in
  let qa := if two c then dx * dx / 8 else qa in
  if three c then dx * dx / 6 else qa.
(** new_dt_diff.c:31-107.  The flags say which of THERMAL_CONDUCTION, VISCOSITY and
    RESISTIVITY are configured; grids lists, for each Grid with its own dx1, dx2, dx3, the
    (eta_Ohm, eta_Hall, eta_AD) of its active cells.  (The two loops of the code over the cells
    of a Grid are one here: the order of MAX does not matter.) *)
Definition new_dt_diff (c : dcfg) (conduct visc resist : bool) (levels : nat) (d1 d2 d3 : R)
    (grids : list ((R * R * R) * list (R * R * R))) : R :=
  let p := 2 ^ levels in
  let qa := dt_qa c (dxmin c (d1 / p) (d2 / p) (d3 / p)) in
  let m := TINY_NUMBER in
  let m := if conduct then MAX m ((kappa_iso c + kappa_aniso c) / qa) else m in
  let m := if visc then MAX m ((nu_iso c + nu_aniso c) / qa) else m in
  if resist then
    fold_left (fun m gr => let '((e1, e2, e3), etas) := gr in
      let qa := dt_qa c (dxmin c e1 e2 e3) in
      fold_left (fun m e => let '(o, h, a) := e in
        let m := MAX m ((o + a) / qa) in
        if Rlt_dec 0 (Q_Hall c) then MAX m (Rabs h / qa) else m) etas m) grids m
  else m.
(** new_dt.c:203, 232: without super timestepping, dt is at most CourNo/max_dti_diff. *)
Definition diff_dt (CourNo dti : R) : R := CourNo / dti.
