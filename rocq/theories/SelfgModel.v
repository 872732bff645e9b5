(** * src/gravity/selfg.c: selfg_fc()

    The correction after the new potential is known.  Modelled: one, two and three dimensions, no star particles.
    The energy is updated whatever the equation of state; with ISOTHERMAL the code does not have it and nothing reads it here.
    [P] is the new potential pG->Phi, [Q] the old one pG->Phi_old. *)
From Coq Require Import Reals ZArith List.
From Verif Require Import GasModel IntegModel.
Open Scope R_scope.

(** The update of a cell by the d/dxn terms; [q] = dtodxn.  [m1 P] ... are (flx_ml, flx_mr) of the potential P. *)
Definition kick (q : R) (l r : R) : R := half * q * (r - l).
Definition quarter : R := / 4.

Section One.
(** case 1, lines 65-102 *)
Variables (G4 mean dt dx1 : R) (is ie : Z) (P Q x1MassFlux : Z -> R) (U : Z -> cons).
Definition phil1 (P : Z -> R) (i : Z) := half * (P (i - 1)%Z + P i).
Definition phir1 (P : Z -> R) (i : Z) := half * (P i + P (i + 1)%Z).
Definition flx_m1l1 (P : Z -> R) (i : Z) : R :=
  let gxl := (P (i - 1)%Z - P i) / dx1 in half * (gxl * gxl) / G4 + mean * phil1 P i.
Definition flx_m1r1 (P : Z -> R) (i : Z) : R :=
  let gxr := (P i - P (i + 1)%Z) / dx1 in half * (gxr * gxr) / G4 + mean * phir1 P i.
Definition selfg_fc_1d : Z -> cons :=
  let dtodx1 := dt / dx1 in
  loop1 is ie (fun i =>
    let u := U i in
    let dphic := P i - Q i in
    let dphil := phil1 P i - phil1 Q i in
    let dphir := phir1 P i - phir1 Q i in
    let u := set_M1 u (cM1 u - kick dtodx1 (flx_m1l1 P i - flx_m1l1 Q i) (flx_m1r1 P i - flx_m1r1 Q i)) in
    set_E u (cE u - half * dtodx1 * (x1MassFlux i * (dphic - dphil) + x1MassFlux (i + 1)%Z * (dphir - dphic)))) U.
End One.

Section Two.
(** case 2 *)
Variables (G4 mean dt dx1 dx2 : R) (is ie js je : Z) (P Q x1MassFlux x2MassFlux : Z -> Z -> R) (U : Z -> Z -> cons).
(** lines 121-132: gx and gy at the left and right x1-face *)
Definition gx1l2 (P : Z -> Z -> R) (j i : Z) := (P j (i - 1)%Z - P j i) / dx1.
Definition gx1r2 (P : Z -> Z -> R) (j i : Z) := (P j i - P j (i + 1)%Z) / dx1.
Definition gy1l2 (P : Z -> Z -> R) (j i : Z) :=
  ((P (j - 1)%Z (i - 1)%Z - P (j + 1)%Z (i - 1)%Z) + (P (j - 1)%Z i - P (j + 1)%Z i)) * (quarter / dx2).
Definition gy1r2 (P : Z -> Z -> R) (j i : Z) :=
  ((P (j - 1)%Z i - P (j + 1)%Z i) + (P (j - 1)%Z (i + 1)%Z - P (j + 1)%Z (i + 1)%Z)) * (quarter / dx2).
(** lines 183-192: at the left and right x2-face *)
Definition gx2l2 (P : Z -> Z -> R) (j i : Z) :=
  ((P (j - 1)%Z (i - 1)%Z - P (j - 1)%Z (i + 1)%Z) + (P j (i - 1)%Z - P j (i + 1)%Z)) * (quarter / dx1).
Definition gx2r2 (P : Z -> Z -> R) (j i : Z) :=
  ((P j (i - 1)%Z - P j (i + 1)%Z) + (P (j + 1)%Z (i - 1)%Z - P (j + 1)%Z (i + 1)%Z)) * (quarter / dx1).
Definition gy2l2 (P : Z -> Z -> R) (j i : Z) := (P (j - 1)%Z i - P j i) / dx2.
Definition gy2r2 (P : Z -> Z -> R) (j i : Z) := (P j i - P (j + 1)%Z i) / dx2.
(** [diag2 n t phi]: lines 134-135, 198-199 *)
Definition diag2 (n t phi : R) : R := half * (n * n - t * t) / G4 + mean * phi.
Definition phi1l2 (P : Z -> Z -> R) (j i : Z) := half * (P j (i - 1)%Z + P j i).
Definition phi1r2 (P : Z -> Z -> R) (j i : Z) := half * (P j i + P j (i + 1)%Z).
Definition phi2l2 (P : Z -> Z -> R) (j i : Z) := half * (P (j - 1)%Z i + P j i).
Definition phi2r2 (P : Z -> Z -> R) (j i : Z) := half * (P j i + P (j + 1)%Z i).
(** Step 1, lines 107-166 *)
Definition selfg_fc_2d_1 : Z -> Z -> cons :=
  let dtodx1 := dt / dx1 in
  let m1l P j i := diag2 (gx1l2 P j i) (gy1l2 P j i) (phi1l2 P j i) in
  let m1r P j i := diag2 (gx1r2 P j i) (gy1r2 P j i) (phi1r2 P j i) in
  let m2l P j i := gx1l2 P j i * gy1l2 P j i / G4 in
  let m2r P j i := gx1r2 P j i * gy1r2 P j i / G4 in
  loop2 js je is ie (fun j i =>
    let u := U j i in
    let dphic := P j i - Q j i in
    let dphil := phi1l2 P j i - phi1l2 Q j i in
    let dphir := phi1r2 P j i - phi1r2 Q j i in
    let u := set_M1 u (cM1 u - kick dtodx1 (m1l P j i - m1l Q j i) (m1r P j i - m1r Q j i)) in
    let u := set_M2 u (cM2 u - kick dtodx1 (m2l P j i - m2l Q j i) (m2r P j i - m2r Q j i)) in
    set_E u (cE u - half * dtodx1 * (x1MassFlux j i * (dphic - dphil) + x1MassFlux j (i + 1)%Z * (dphir - dphic)))) U.
(** Step 2, lines 168-227.  Line 178 reads  dphic = phic - pG->Phi[ks][j][i];  where step 1 and 3D have Phi_old. *)
Definition selfg_fc_2d : Z -> Z -> cons :=
  let dtodx2 := dt / dx2 in
  let m1l P j i := gy2l2 P j i * gx2l2 P j i / G4 in
  let m1r P j i := gy2r2 P j i * gx2r2 P j i / G4 in
  let m2l P j i := diag2 (gy2l2 P j i) (gx2l2 P j i) (phi2l2 P j i) in
  let m2r P j i := diag2 (gy2r2 P j i) (gx2r2 P j i) (phi2r2 P j i) in
  loop2 js je is ie (fun j i =>
    let u := selfg_fc_2d_1 j i in
    let dphic := P j i - P j i in
    let dphil := phi2l2 P j i - phi2l2 Q j i in
    let dphir := phi2r2 P j i - phi2r2 Q j i in
    let u := set_M1 u (cM1 u - kick dtodx2 (m1l P j i - m1l Q j i) (m1r P j i - m1r Q j i)) in
    let u := set_M2 u (cM2 u - kick dtodx2 (m2l P j i - m2l Q j i) (m2r P j i - m2r Q j i)) in
    set_E u (cE u - half * dtodx2 * (x2MassFlux j i * (dphic - dphil) + x2MassFlux (j + 1)%Z i * (dphir - dphic)))) selfg_fc_2d_1.
End Two.

Section Three.
(** case 3 *)
Variables (G4 mean dt dx1 dx2 dx3 : R) (is ie js je ks ke : Z) (P Q x1MassFlux x2MassFlux x3MassFlux : Z -> Z -> Z -> R) (U : Z -> Z -> Z -> cons).
(** gx, gy and gz at the left and right x1-face, lines 254-272, 288-304 *)
Definition gx1l (P : Z -> Z -> Z -> R) (k j i : Z) := (P k j (i - 1)%Z - P k j i) / dx1.
Definition gx1r (P : Z -> Z -> Z -> R) (k j i : Z) := (P k j i - P k j (i + 1)%Z) / dx1.
Definition gy1l (P : Z -> Z -> Z -> R) (k j i : Z) :=
  ((P k (j - 1)%Z (i - 1)%Z - P k (j + 1)%Z (i - 1)%Z) + (P k (j - 1)%Z i - P k (j + 1)%Z i)) * (quarter / dx2).
Definition gy1r (P : Z -> Z -> Z -> R) (k j i : Z) :=
  ((P k (j - 1)%Z i - P k (j + 1)%Z i) + (P k (j - 1)%Z (i + 1)%Z - P k (j + 1)%Z (i + 1)%Z)) * (quarter / dx2).
Definition gz1l (P : Z -> Z -> Z -> R) (k j i : Z) :=
  ((P (k - 1)%Z j (i - 1)%Z - P (k + 1)%Z j (i - 1)%Z) + (P (k - 1)%Z j i - P (k + 1)%Z j i)) * (quarter / dx3).
Definition gz1r (P : Z -> Z -> Z -> R) (k j i : Z) :=
  ((P (k - 1)%Z j i - P (k + 1)%Z j i) + (P (k - 1)%Z j (i + 1)%Z - P (k + 1)%Z j (i + 1)%Z)) * (quarter / dx3).
Definition phi1l (P : Z -> Z -> Z -> R) (k j i : Z) := half * (P k j (i - 1)%Z + P k j i).
Definition phi1r (P : Z -> Z -> Z -> R) (k j i : Z) := half * (P k j i + P k j (i + 1)%Z).
(** gx, gy and gz at the left and right x2-face, lines 349-366, 383-400 *)
Definition gx2l (P : Z -> Z -> Z -> R) (k j i : Z) :=
  ((P k (j - 1)%Z (i - 1)%Z - P k (j - 1)%Z (i + 1)%Z) + (P k j (i - 1)%Z - P k j (i + 1)%Z)) * (quarter / dx1).
Definition gx2r (P : Z -> Z -> Z -> R) (k j i : Z) :=
  ((P k j (i - 1)%Z - P k j (i + 1)%Z) + (P k (j + 1)%Z (i - 1)%Z - P k (j + 1)%Z (i + 1)%Z)) * (quarter / dx1).
Definition gy2l (P : Z -> Z -> Z -> R) (k j i : Z) := (P k (j - 1)%Z i - P k j i) / dx2.
Definition gy2r (P : Z -> Z -> Z -> R) (k j i : Z) := (P k j i - P k (j + 1)%Z i) / dx2.
Definition gz2l (P : Z -> Z -> Z -> R) (k j i : Z) :=
  ((P (k - 1)%Z (j - 1)%Z i - P (k + 1)%Z (j - 1)%Z i) + (P (k - 1)%Z j i - P (k + 1)%Z j i)) * (quarter / dx3).
Definition gz2r (P : Z -> Z -> Z -> R) (k j i : Z) :=
  ((P (k - 1)%Z j i - P (k + 1)%Z j i) + (P (k - 1)%Z (j + 1)%Z i - P (k + 1)%Z (j + 1)%Z i)) * (quarter / dx3).
Definition phi2l (P : Z -> Z -> Z -> R) (k j i : Z) := half * (P k (j - 1)%Z i + P k j i).
Definition phi2r (P : Z -> Z -> Z -> R) (k j i : Z) := half * (P k j i + P k (j + 1)%Z i).
(** gx, gy and gz at the left and right x3-face, lines 443-460, 477-494 *)
Definition gx3l (P : Z -> Z -> Z -> R) (k j i : Z) :=
  ((P (k - 1)%Z j (i - 1)%Z - P (k - 1)%Z j (i + 1)%Z) + (P k j (i - 1)%Z - P k j (i + 1)%Z)) * (quarter / dx1).
Definition gx3r (P : Z -> Z -> Z -> R) (k j i : Z) :=
  ((P k j (i - 1)%Z - P k j (i + 1)%Z) + (P (k + 1)%Z j (i - 1)%Z - P (k + 1)%Z j (i + 1)%Z)) * (quarter / dx1).
Definition gy3l (P : Z -> Z -> Z -> R) (k j i : Z) :=
  ((P (k - 1)%Z (j - 1)%Z i - P (k - 1)%Z (j + 1)%Z i) + (P k (j - 1)%Z i - P k (j + 1)%Z i)) * (quarter / dx2).
Definition gy3r (P : Z -> Z -> Z -> R) (k j i : Z) :=
  ((P k (j - 1)%Z i - P k (j + 1)%Z i) + (P (k + 1)%Z (j - 1)%Z i - P (k + 1)%Z (j + 1)%Z i)) * (quarter / dx2).
Definition gz3l (P : Z -> Z -> Z -> R) (k j i : Z) := (P (k - 1)%Z j i - P k j i) / dx3.
Definition gz3r (P : Z -> Z -> Z -> R) (k j i : Z) := (P k j i - P (k + 1)%Z j i) / dx3.
Definition phi3l (P : Z -> Z -> Z -> R) (k j i : Z) := half * (P (k - 1)%Z j i + P k j i).
Definition phi3r (P : Z -> Z -> Z -> R) (k j i : Z) := half * (P k j i + P (k + 1)%Z j i).
(** [diag3 n t s phi]: lines 274-275, 371-372, 468-469 *)
Definition diag3 (n t s phi : R) : R := half * (n * n - t * t - s * s) / G4 + mean * phi.
(** Step 1, lines 234-326 *)
Definition selfg_fc_3d_1 : Z -> Z -> Z -> cons :=
  let dtodx1 := dt / dx1 in
  let m1l P k j i := diag3 (gx1l P k j i) (gy1l P k j i) (gz1l P k j i) (phi1l P k j i) in
  let m1r P k j i := diag3 (gx1r P k j i) (gy1r P k j i) (gz1r P k j i) (phi1r P k j i) in
  let m2l P k j i := gx1l P k j i * gy1l P k j i / G4 in
  let m2r P k j i := gx1r P k j i * gy1r P k j i / G4 in
  let m3l P k j i := gx1l P k j i * gz1l P k j i / G4 in
  let m3r P k j i := gx1r P k j i * gz1r P k j i / G4 in
  loop3 ks ke js je is ie (fun k j i =>
    let u := U k j i in
    let dphic := P k j i - Q k j i in
    let dphil := phi1l P k j i - phi1l Q k j i in
    let dphir := phi1r P k j i - phi1r Q k j i in
    let u := set_M1 u (cM1 u - kick dtodx1 (m1l P k j i - m1l Q k j i) (m1r P k j i - m1r Q k j i)) in
    let u := set_M2 u (cM2 u - kick dtodx1 (m2l P k j i - m2l Q k j i) (m2r P k j i - m2r Q k j i)) in
    let u := set_M3 u (cM3 u - kick dtodx1 (m3l P k j i - m3l Q k j i) (m3r P k j i - m3r Q k j i)) in
    set_E u (cE u - half * dtodx1 * (x1MassFlux k j i * (dphic - dphil) + x1MassFlux k j (i + 1)%Z * (dphir - dphic)))) U.
(** Step 2, lines 328-420 *)
Definition selfg_fc_3d_2 : Z -> Z -> Z -> cons :=
  let dtodx2 := dt / dx2 in
  let m1l P k j i := gy2l P k j i * gx2l P k j i / G4 in
  let m1r P k j i := gy2r P k j i * gx2r P k j i / G4 in
  let m2l P k j i := diag3 (gy2l P k j i) (gx2l P k j i) (gz2l P k j i) (phi2l P k j i) in
  let m2r P k j i := diag3 (gy2r P k j i) (gx2r P k j i) (gz2r P k j i) (phi2r P k j i) in
  let m3l P k j i := gy2l P k j i * gz2l P k j i / G4 in
  let m3r P k j i := gy2r P k j i * gz2r P k j i / G4 in
  loop3 ks ke js je is ie (fun k j i =>
    let u := selfg_fc_3d_1 k j i in
    let dphic := P k j i - Q k j i in
    let dphil := phi2l P k j i - phi2l Q k j i in
    let dphir := phi2r P k j i - phi2r Q k j i in
    let u := set_M1 u (cM1 u - kick dtodx2 (m1l P k j i - m1l Q k j i) (m1r P k j i - m1r Q k j i)) in
    let u := set_M2 u (cM2 u - kick dtodx2 (m2l P k j i - m2l Q k j i) (m2r P k j i - m2r Q k j i)) in
    let u := set_M3 u (cM3 u - kick dtodx2 (m3l P k j i - m3l Q k j i) (m3r P k j i - m3r Q k j i)) in
    set_E u (cE u - half * dtodx2 * (x2MassFlux k j i * (dphic - dphil) + x2MassFlux k (j + 1)%Z i * (dphir - dphic)))) selfg_fc_3d_1.
(** Step 3, lines 422-515 *)
Definition selfg_fc_3d : Z -> Z -> Z -> cons :=
  let dtodx3 := dt / dx3 in
  let m1l P k j i := gz3l P k j i * gx3l P k j i / G4 in
  let m1r P k j i := gz3r P k j i * gx3r P k j i / G4 in
  let m2l P k j i := gz3l P k j i * gy3l P k j i / G4 in
  let m2r P k j i := gz3r P k j i * gy3r P k j i / G4 in
  let m3l P k j i := diag3 (gz3l P k j i) (gx3l P k j i) (gy3l P k j i) (phi3l P k j i) in
  let m3r P k j i := diag3 (gz3r P k j i) (gx3r P k j i) (gy3r P k j i) (phi3r P k j i) in
  loop3 ks ke js je is ie (fun k j i =>
    let u := selfg_fc_3d_2 k j i in
    let dphic := P k j i - Q k j i in
    let dphil := phi3l P k j i - phi3l Q k j i in
    let dphir := phi3r P k j i - phi3r Q k j i in
    let u := set_M1 u (cM1 u - kick dtodx3 (m1l P k j i - m1l Q k j i) (m1r P k j i - m1r Q k j i)) in
    let u := set_M2 u (cM2 u - kick dtodx3 (m2l P k j i - m2l Q k j i) (m2r P k j i - m2r Q k j i)) in
    let u := set_M3 u (cM3 u - kick dtodx3 (m3l P k j i - m3l Q k j i) (m3r P k j i - m3r Q k j i)) in
    set_E u (cE u - half * dtodx3 * (x3MassFlux k j i * (dphic - dphil) + x3MassFlux (k + 1)%Z j i * (dphir - dphic)))) selfg_fc_3d_2.
End Three.
