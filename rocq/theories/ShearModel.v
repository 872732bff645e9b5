(** * The shearing sheet boundary in x1: src/bvals_shear.c

    3D and 2D (x-y) runs, adiabatic MHD with any number of passive scalars; in a
    hydrodynamic or barotropic build the fields or the energy are simply absent
    and the other statements are the same.  A line of Grids along x2 is modelled
    as a function of the Grid's position 0 .. NG-1 in that line; every Grid has
    [n] cells in x2, as the code assumes (bvals_shear.c:288-289).  Arrays are
    functions of the global indices of the C arrays, reals are [R]. *)
From Coq Require Import Reals ZArith Bool List.
From Verif Require Import CStr PosModel GasModel ReconModel.
Import ListNotations.
Open Scope R_scope.

(** ** Step 1: how far the boundary has moved *)
(** fmod of C: x - n*y, n the quotient rounded towards zero. *)
Definition fmod (x y : R) : R :=
  x - IZR (if Rle_dec 0 (x / y) then Int_part (x / y) else (- Int_part (- (x / y)))%Z) * y.
(** bvals_shear.c:162-186, 756-780, 2042-2057, 2560-2575: qomL, and the shift of the
    boundary modulo the size of the Domain, in whole cells and a fraction of a cell.
    The outer boundary uses the fraction with a minus sign. *)
Definition qom_L (qshear Omega_0 Lx : R) : R := qshear * Omega_0 * Lx.
Definition sheared (qomL time Ly dx2 : R) : res (Z * R) :=
  let yshear := qomL * time in
  let deltay := fmod yshear Ly in
  joffset <- c_int (deltay / dx2);;
  Ok (joffset, fmod deltay dx2 / dx2).

(** ** RemapFlux *)
(** bvals_shear.c:5592-5601: the limited slope of the second order version. *)
Definition rf_slope (U : Z -> R) (j : Z) : R :=
  let dUc := U (j + 1)%Z - U (j - 1)%Z in
  let dUl := U j - U (j - 1)%Z in
  let dUr := U (j + 1)%Z - U j in
  if Rlt_dec 0 (dUl * dUr)
  then SIGN dUc * MIN (half * Rabs dUc) (2 * MIN (Rabs dUl) (Rabs dUr))
  else 0.
(** bvals_shear.c:5574-5610, second order.  With eps > 0 the loop over j = jinner-1 ..
    jouter-1 sets Flux[j+1], otherwise the loop over j = jinner .. jouter sets Flux[j]:
    either way Flux[f] is set for jinner <= f <= jouter, as written here. *)
Definition RemapFlux2 (U : Z -> R) (eps : R) (f : Z) : R :=
  if Rlt_dec 0 eps then let j := (f - 1)%Z in eps * (U j + half * (1 - eps) * rf_slope U j)
  else let j := f in eps * (U j - half * (1 + eps) * rf_slope U j).
(** bvals_shear.c:5640-5692, third order: the values at the two ends of cell j.  The
    statements are those of lr_states_prim3.c (ReconModel.v), without its last clamp;
    3*U - 2*Urv of line 5687 is (6*U - 4*Urv)/2. *)
Definition rf_ends (U : Z -> R) (j : Z) : R * R :=
  let W : slice := fun i _ => U i in
  let e := prim3_extremum W j 0 (prim3_half W j 0) (prim3_half W (j + 1)%Z 0) in
  monotonize (U j) (fst e) (snd e).
(** bvals_shear.c:5622-5710 *)
Definition RemapFlux3 (U : Z -> R) (eps : R) (f : Z) : R :=
  if Rlt_dec 0 eps then
    let j := (f - 1)%Z in
    let '(Ulv, Urv) := rf_ends U j in
    let dU := Urv - Ulv in let U6 := 6 * (U j - half * (Ulv + Urv)) in
    let qx := 2 / 3 * eps in eps * (Urv - 3 / 4 * qx * (dU - (1 - qx) * U6))
  else
    let j := f in
    let '(Ulv, Urv) := rf_ends U j in
    let dU := Urv - Ulv in let U6 := 6 * (U j - half * (Ulv + Urv)) in
    let qx := - (2 / 3) * eps in eps * (Ulv + 3 / 4 * qx * (dU + (1 - qx) * U6)).
(** [third]: THIRD_ORDER_*, else SECOND_ORDER_*. *)
Definition RemapFlux (third : bool) (U : Z -> R) (eps : R) (f : Z) : R :=
  if third then RemapFlux3 U eps f else RemapFlux2 U eps f.
(** bvals_shear.c:229-250 (step 3), 823-844, 2288-2330, 3219-3225: the remap over a fraction of a cell. *)
Definition remap (third : bool) (eps : R) (U : Z -> R) (j : Z) : R :=
  U j - (RemapFlux third U eps (j + 1)%Z - RemapFlux third U eps j).

(** ** Steps 4 and 5: the shift over whole cells
    A row is everything with the same x2 index: all k, all i, all variables, which
    every loop and message of these steps treats alike.  [buf p j] is the row j of the
    buffer of the Grid p; the buffer is set for js <= j <= je only. *)
Section Shift.
Variable A : Type.
Variables (NG js n : Z) (buf : Z -> Z -> A).
Let je := (js + n - 1)%Z.

Definition row (p j : Z) : res A := if ((js <=? j) && (j <=? je))%Z then Ok (buf p j) else UB.
Definition from_to (l u : Z) : list Z := map (fun m => (l + Z.of_nat m)%Z) (seq 0 (Z.to_nat (u - l + 1))).
Fixpoint rows (p : Z) (js' : list Z) : res (list A) :=
  match js' with
  | [] => Ok []
  | j :: l => a <- row p j;; r <- rows p l;; Ok (a :: r)
  end.
(** bvals_shear.c:297-304, 385-392: the neighbour m Grids up or down the ring. *)
Definition up (p m : Z) : Z := let q := (p + m)%Z in if (NG - 1 <? q)%Z then (q - NG)%Z else q.
Definition down (p m : Z) : Z := let q := (p - m)%Z in if (q <? 0)%Z then (q + NG)%Z else q.
(** pD->GData[][jproc][]: outside the array, undefined. *)
Definition in_ring (q : Z) : res Z := if ((0 <=? q) && (q <? NG))%Z then Ok q else UB.
(** One MPI_Irecv/MPI_Send/MPI_Wait of every Grid: [sendto q] is where Grid q sends, [data q]
    what it sends, [getfrom] where this Grid listens, for [cnt] rows.  If the Grid
    listened to sends elsewhere, or another number of rows, the run hangs or aborts. *)
Definition exchange (sendto : Z -> Z) (data : Z -> res (list A)) (getfrom cnt me : Z) : res (list A) :=
  src <- in_ring getfrom;;
  dst <- in_ring (sendto src);;
  l <- data src;;
  if ((dst =? me) && (Z.of_nat (length l) =? cnt))%Z then Ok l else Fatal.
Definition nth_row (l : list A) (m : Z) : res A :=
  match nth_error l (Z.to_nat m) with Some a => if (m <? 0)%Z then UB else Ok a | None => UB end.

(** bvals_shear.c:252-437 (and 1408-1560, 2332-2524, 3227-3368): row j of Grid p, ix1. *)
Definition shift_ix1 (joffset p j : Z) : res A :=
  if (NG =? 1)%Z then
    let jremap := (j - joffset)%Z in
    row p (if (jremap <? js)%Z then jremap + n else jremap)%Z
  else
    let Ngrids := Z.quot joffset n in
    let joverlap := (joffset - Ngrids * n)%Z in
    if (negb (joverlap =? 0) && (j <=? js + (joverlap - 1)))%Z then
      l <- exchange (fun q => up q (Ngrids + 1)) (fun q => rows q (from_to (je - (joverlap - 1)) je))
             (down p (Ngrids + 1)) joverlap p;;
      nth_row l (j - js)
    else if (Ngrids =? 0)%Z then row p (j - joverlap)
    else
      l <- exchange (fun q => up q Ngrids) (fun q => rows q (from_to js (je - joverlap)))
             (down p Ngrids) (n - joverlap) p;;
      nth_row l (j - (js + joverlap)).
(** bvals_shear.c:846-1033 (and 1751-1908, 2849-3040, 3558-3698): row j of Grid p, ox1. *)
Definition shift_ox1 (joffset p j : Z) : res A :=
  if (NG =? 1)%Z then
    let jremap := (j + joffset)%Z in
    row p (if (je <? jremap)%Z then jremap - n else jremap)%Z
  else
    let Ngrids := Z.quot joffset n in
    let joverlap := (joffset - Ngrids * n)%Z in
    if (negb (joverlap =? 0) && (je - (joverlap - 1) <=? j))%Z then
      l <- exchange (fun q => down q (Ngrids + 1)) (fun q => rows q (from_to js (js + (joverlap - 1))))
             (up p (Ngrids + 1)) joverlap p;;
      nth_row l (j - (je - (joverlap - 1)))
    else if (Ngrids =? 0)%Z then row p (j + joverlap)
    else
      l <- exchange (fun q => down q Ngrids) (fun q => rows q (from_to (js + joverlap) je))
             (up p Ngrids) (n - joverlap) p;;
      nth_row l (j - js).
End Shift.

(** ** ShearingSheet_ix1, ShearingSheet_ox1 *)
(** One zone of a Grid: U[k][j][i], B1i[k][j][i], B2i[k][j][i], B3i[k][j][i]. *)
Record zone := Zone { zU : cons; zB1i : R; zB2i : R; zB3i : R }.
(** bvals_shear.c:76-84: the variables of a Remap structure. *)
Inductive rvar := Vd | VM1 | VM2 | VM3 | VE | VB1c | VB1i | VB2i | VB3i | Vs (m : nat).
(** bvals_shear.c:192-222, 786-816 (step 2).  The velocity of the boundary is added for
    ix1, subtracted for ox1, unless FARGO subtracts the background flow. *)
Definition ghost_var (inner fargo : bool) (qomL : R) (z : zone) (v : rvar) : R :=
  let u := zU z in
  let M2 := if fargo then cM2 u else if inner then cM2 u + qomL * cd u else cM2 u - qomL * cd u in
  match v with
  | Vd => cd u | VM1 => cM1 u | VM2 => M2 | VM3 => cM3 u
  | VE => cE u + half / cd u * (SQR M2 - SQR (cM2 u))
  | VB1c => cB1 u | VB1i => zB1i z | VB2i => zB2i z | VB3i => zB3i z
  | Vs m => nth m (cs u) 0
  end.

Section Sheet.
(** [inner]: ix1 or ox1; [three]: Nx[2] > 1; [ns]: NSCALARS; [G p k j i]: the zones of
    the Grid p of the line after the periodic boundaries of bvals_mhd.c. *)
Variables (inner fargo third three : bool) (ns : nat) (nghost : Z) (qomL eps : R) (joffset : Z).
Variables (ie ke : Z) (NG js n : Z) (G : Z -> Z -> Z -> Z -> zone).
Let je := (js + n - 1)%Z.

(** Steps 2 and 3: the buffer.  The outer boundary remaps by -eps. *)
Definition zns_buf (p j : Z) : Z -> Z -> rvar -> R :=
  fun k i v => remap third (if inner then eps else - eps) (fun j' => ghost_var inner fargo qomL (G p k j' i) v) j.
Definition shifted (p j : Z) : res (Z -> Z -> rvar -> R) :=
  if inner then shift_ix1 _ NG js n zns_buf joffset p j else shift_ox1 _ NG js n zns_buf joffset p j.

(** bvals_shear.c:439-476, 1035-1072 (step 6), row js <= j <= je; only B3i is stored for k = ke+1. *)
Definition stored (old : zone) (k i : Z) (r : Z -> Z -> rvar -> R) : zone :=
  let v := r k i in
  if (k <=? ke)%Z then
    Zone (Cons (v Vd) (v VM1) (v VM2) (v VM3) (v VE) (v VB1c) (cB2 (zU old)) (cB3 (zU old))
               (map (fun m => v (Vs m)) (seq 0 ns)))
         (if (negb inner && (i =? ie + 1))%Z then zB1i old else v VB1i) (v VB2i) (v VB3i)
  else Zone (zU old) (zB1i old) (zB2i old) (if three then v VB3i else zB3i old).
Definition step6 (p k j i : Z) : res zone :=
  if ((js <=? j) && (j <=? je))%Z then r <- shifted p j;; Ok (stored (G p k j i) k i r)
  else Ok (G p k j i).
(** bvals_shear.c:478-500, 1074-1096 (step 7): the cell centred fields, from the faces.  B2c at je is
    computed from the face je+1, which step 6 has not set. *)
Definition setB2c (z : zone) (b : R) : zone :=
  let u := zU z in Zone (Cons (cd u) (cM1 u) (cM2 u) (cM3 u) (cE u) (cB1 u) b (cB3 u) (cs u)) (zB1i z) (zB2i z) (zB3i z).
Definition setB3c (z : zone) (b : R) : zone :=
  let u := zU z in Zone (Cons (cd u) (cM1 u) (cM2 u) (cM3 u) (cE u) (cB1 u) (cB2 u) b (cs u)) (zB1i z) (zB2i z) (zB3i z).
Definition step7 (p k j i : Z) : res zone :=
  if ((js <=? j) && (j <=? je) && (k <=? ke))%Z then
    z <- step6 p k j i;;
    zr <- step6 p k (j + 1) i;;
    let z := setB2c z (half * (zB2i z + zB2i zr)) in
    if three then zu <- step6 p (k + 1) j i;; Ok (setB3c z (half * (zB3i z + zB3i zu))) else Ok z
  else step6 p k j i.
(** bvals_shear.c:502-684, 1098-1280 (steps 8, 9): the rows beyond js and je are those of the
    neighbours along x2, a ring of NG Grids (the Grid itself if NG = 1); for nghost <= n the
    copies do not overlap. *)
Definition step9 (p k j i : Z) : res zone :=
  if (j <? js)%Z then step7 (if (NG =? 1)%Z then p else down NG p 1) k (j + n) i
  else if (je <? j)%Z then step7 (if (NG =? 1)%Z then p else up NG p 1) k (j - n) i
  else step7 p k j i.
(** bvals_shear.c:686-696, 1282-1292 (step 10): B2c at je and js-1. *)
Definition sheet (p k j i : Z) : res zone :=
  if (((j =? je) || (j =? js - 1)) && (k <=? ke))%Z then
    z <- step9 p k j i;;
    zr <- step9 p k (j + 1) i;;
    Ok (setB2c z (half * (zB2i z + zB2i zr)))
  else step9 p k j i.
End Sheet.

(** bvals_shear.c:700-725, 1296-1321 (step 11): 2D x-z runs without FARGO. *)
Definition sheet_xz (inner : bool) (qomL : R) (u : cons) : cons :=
  let M3 := if inner then cM3 u + qomL * cd u else cM3 u - qomL * cd u in
  Cons (cd u) (cM1 u) (cM2 u) M3 (cE u + half / cd u * (SQR M3 - SQR (cM3 u))) (cB1 u) (cB2 u) (cB3 u) (cs u).

(** bvals_shear.c:5497-5502: the size of the message buffers without FARGO, in reals; lines 545, 1141:
    the largest message of step 9.  [nremap], [nvar_share] (lines 47-71): 9 and 11 for adiabatic MHD. *)
Definition buf_size (nghost nx2 nx3 nremap ns : Z) : Z := (nghost * nx2 * (nx3 + 1) * (nremap + ns))%Z.
Definition step9_cnt (nghost nx3 nvar_share ns : Z) : Z := (nghost * nghost * (nx3 + 1) * (nvar_share + ns))%Z.

(** ** RemapFlx_ix1/ox1, RemapEy_ix1/ox1 and the average in the integrators *)
(** bvals_shear.c:2067-2281 etc. (steps 1 and 2): the flux from the other side, M2 corrected for the moving frame,
    with its x2 ghost zones.  [F p j]: flux at the opposite edge, Grid p of the line, js <= j <= je. *)
Inductive fvar := Fd | FM1 | FM2 | FM3 | FE2 (* emf2, kept in B2c *).
Definition opposite (inner fargo : bool) (qomL : R) (F : fvar -> Z -> Z -> R) (v : fvar) (p j : Z) : R :=
  match v with
  | FM2 => if fargo then F FM2 p j else if inner then F FM2 p j + qomL * F Fd p j else F FM2 p j - qomL * F Fd p j
  | _ => F v p j
  end.
Section Flx.
Variables (inner fargo third : bool) (qomL eps : R) (joffset : Z) (NG js n : Z).
Let je := (js + n - 1)%Z.
Definition with_ghosts (f : Z -> Z -> R) (p j : Z) : R :=
  if (j <? js)%Z then f (if (NG =? 1)%Z then p else down NG p 1) (j + n)%Z
  else if (je <? j)%Z then f (if (NG =? 1)%Z then p else up NG p 1) (j - n)%Z
  else f p j.
(** Steps 3-5. *)
Definition rFlx (F : fvar -> Z -> Z -> R) (p j : Z) : res (fvar -> R) :=
  let buf p j := fun v => remap third (if inner then eps else - eps) (with_ghosts (opposite inner fargo qomL F v) p) j in
  if inner then shift_ix1 _ NG js n buf joffset p j else shift_ox1 _ NG js n buf joffset p j.
End Flx.
(** integrators/integrate_3d_ctu.c:2656-2684, integrate_3d_vl.c:583-606, 1233-1260: the mean of the flux at the edge
    and the remapped flux of the opposite edge.  Fluxes of energy and of the scalars are left alone. *)
Definition mean_flux (own : fvar -> R) (r : fvar -> R) (v : fvar) : R := half * (own v + r v).
Definition edge_flux (inner fargo third : bool) (qomL eps : R) (joffset NG js n : Z)
                     (own opp : fvar -> Z -> Z -> R) (p j : Z) : res (fvar -> R) :=
  r <- rFlx inner fargo third qomL eps joffset NG js n opp p j;;
  Ok (mean_flux (fun v => own v p j) r).
