(** * Orbital advection: Fargo() of src/bvals_shear.c

    Shearing box, 3D and 2D (x-y), adiabatic MHD with passive scalars.  As in
    ShearModel.v a line of NG Grids of n cells along x2 is a function of the
    position in the line.  Entries of FargoVars are indexed like the C array:
    row jfs + (j - js) holds row j of the Grid. *)
From Coq Require Import Reals ZArith Bool List.
From Verif Require Import CStr PosModel GasModel ReconModel ShearModel.
Import ListNotations.
Open Scope R_scope.

(** bvals_shear.c:5002-5040 (step 1): the variables of FargoVars, with the energy source terms.  [qom_dt]: qshear*Omega_0*dt. *)
Definition fargo_E (qom_dt : R) (u : cons) : R :=
  let E := cE u - qom_dt * cB1 u * (cB2 u - qom_dt / 2 * cB1 u) in
  E + qom_dt * cM1 u * cM2 u / cd u.
Definition fargo_var (qom_dt : R) (z : zone) (v : rvar) : R :=
  let u := zU z in
  match v with
  | Vd => cd u | VM1 => cM1 u | VM2 => cM2 u | VM3 => cM3 u | VE => fargo_E qom_dt u
  | VB3i => zB3i z | VB1i => zB1i z | Vs m => nth m (cs u) 0
  | VB1c | VB2i => 0 (* not in FargoVars *)
  end.
(** bvals_shear.c:5156-5164, 5224-5231: the displacement of one column in cells and a fraction.  [lim]: jfs - js. *)
Definition fargo_shift (yshear dx2 : R) (lim : Z) : res (Z * R) :=
  joffset <- c_int (yshear / dx2);;
  if (lim <? Z.abs joffset)%Z then Fatal else Ok (joffset, fmod yshear dx2 / dx2).
(** bvals_shear.c:5172-5184, 5192-5202, 5211-5219, 5236-5244: flux through the face j, for a fraction of a cell and whole
    cells.  (For emfx, lines 5211-5219, all signs are reversed.) *)
Definition fargo_flux (third : bool) (U : Z -> R) (joffset : Z) (eps : R) (j : Z) : R :=
  let f := RemapFlux third U eps (j - joffset)%Z in
  let f := fold_left (fun a jj => a + U (j - jj)%Z) (from_to 1 joffset) f in
  fold_left (fun a jj => a - U (j - jj)%Z) (from_to (joffset + 1) 0) f.

Section Fargo.
(** [xc i]: cc_pos of column i; [jfs]: nfghost; js: nghost. *)
Variables (third three : bool) (ns : nat) (qshear Omega_0 dt dx1 dx2 dx3 : R) (xc : Z -> R).
Variables (jfs : Z) (NG js n : Z) (G : Z -> Z -> Z -> Z -> zone).
Let jfe := (n + jfs - 1)%Z.
Let qom_dt := qshear * Omega_0 * dt.

(** bvals_shear.c:4992-5144 (steps 1-3): FargoVars, the nfghost rows on either side from the neighbours
    along x2.  For nfghost <= n; then the copies do not overlap. *)
Definition fargo_vars (p k i : Z) (v : rvar) (j : Z) : R :=
  let own q j := fargo_var qom_dt (G q k (j - (jfs - js))%Z i) v in
  if (j <? jfs)%Z then own (if (NG =? 1)%Z then p else down NG p 1) (j + n)%Z
  else if (jfe <? j)%Z then own (if (NG =? 1)%Z then p else up NG p 1) (j - n)%Z
  else own p j.
Definition shift_c (i : Z) : res (Z * R) := fargo_shift (- qshear * Omega_0 * xc i * dt) dx2 (jfs - js).
Definition shift_f (i : Z) : res (Z * R) := fargo_shift (- qshear * Omega_0 * (xc i - half * dx1) * dt) dx2 (jfs - js).
(** bvals_shear.c:5146-5253 (step 4).  [emfx] is -Vy*Bz, [emfz] is Vy*Bx. *)
Definition flx (p k i : Z) (v : rvar) (j : Z) : res R :=
  s <- shift_c i;; Ok (fargo_flux third (fargo_vars p k i v) (fst s) (snd s) j).
Definition emfx (p k i j : Z) : res R := f <- flx p k i VB3i j;; Ok (- f).
Definition emfz (p k i j : Z) : res R :=
  s <- shift_f i;; Ok (fargo_flux third (fargo_vars p k i VB1i) (fst s) (snd s) j).

(** bvals_shear.c:5255-5283 (step 5): cell centred variables.  The energy is the one changed in step 1. *)
Definition fargo_cell (p k j i : Z) (v : rvar) : res R :=
  let jj := (j - js + jfs)%Z in
  f1 <- flx p k i v (jj + 1);; f0 <- flx p k i v jj;;
  Ok (fargo_var qom_dt (G p k j i) v - (f1 - f0)).
(** bvals_shear.c:5285-5373 (step 6): constrained transport; js <= j <= je, B2i also for j = je+1, B3i also for k = ke+1. *)
Definition fargo_B1 (p k j i : Z) : res R :=
  let jj := (j - js + jfs)%Z in
  z1 <- emfz p k i (jj + 1);; z0 <- emfz p k i jj;; Ok (zB1i (G p k j i) - (z1 - z0)).
Definition fargo_B2 (p k j i : Z) : res R :=
  let jj := (j - js + jfs)%Z in
  z1 <- emfz p k (i + 1) jj;; z0 <- emfz p k i jj;;
  let b := zB2i (G p k j i) + dx2 / dx1 * (z1 - z0) in
  if three then x1 <- emfx p (k + 1) i jj;; x0 <- emfx p k i jj;; Ok (b - dx2 / dx3 * (x1 - x0)) else Ok b.
Definition fargo_B3 (p k j i : Z) : res R :=
  let jj := (j - js + jfs)%Z in
  x1 <- emfx p k i (jj + 1);; x0 <- emfx p k i jj;; Ok (zB3i (G p k j i) + (x1 - x0)).
(** bvals_shear.c:5375-5396 (step 7): cell centred fields; B3c in 3D only. *)
Definition fargo_Bc (p k j i : Z) : res (R * R * R) :=
  a <- fargo_B1 p k j i;; a' <- fargo_B1 p k j (i + 1);;
  b <- fargo_B2 p k j i;; b' <- fargo_B2 p k (j + 1) i;;
  let B1c := half * (a + a') in let B2c := half * (b + b') in
  if three then c <- fargo_B3 p k j i;; c' <- fargo_B3 p (k + 1) j i;; Ok (B1c, B2c, half * (c + c'))
  else Ok (B1c, B2c, cB3 (zU (G p k j i))).
(** All of Fargo() for one zone. *)
Definition fargo (p k j i : Z) : res zone :=
  d <- fargo_cell p k j i Vd;; m1 <- fargo_cell p k j i VM1;; m2 <- fargo_cell p k j i VM2;; m3 <- fargo_cell p k j i VM3;;
  e <- fargo_cell p k j i VE;;
  s <- (fix go l := match l with [] => Ok [] | m :: l' => a <- fargo_cell p k j i (Vs m);; r <- go l';; Ok (a :: r) end) (seq 0 ns);;
  b <- fargo_Bc p k j i;;
  b1 <- fargo_B1 p k j i;; b2 <- fargo_B2 p k j i;; b3 <- fargo_B3 p k j i;;
  Ok (Zone (Cons d m1 m2 m3 e (fst (fst b)) (snd (fst b)) (snd b) s) b1 b2 b3).
End Fargo.
