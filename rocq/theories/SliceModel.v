(** * Model of the slicing and averaging of output data: src/output.c, OutData1, OutData2,
    OutData3, and the part of init_output that fixes the dimension of an output

    Over the reals.  Simplifications: an allocated array is a function together with its
    dimensions; allocation never fails; the text of a range has been parsed (parse_slice
    refuses ranges with lower limit > upper limit). *)
From Coq Require Import ZArith List Bool Arith Reals.
From Verif Require Import CStr MeshModel PosModel.
Import ListNotations.
Open Scope R_scope.

(** The fields of GridS used here: is, MinX, dx (pgrid), ie, Nx and MaxX. *)
Record ogrid := OG { og_p : pgrid; og_e : axis -> Z; og_Nx : axis -> Z; og_MaxX : axis -> R }.
(** The fields of OutputS used here: ndim, x1l/x2l/x3l, x1u/x2u/x3u, reduce_x1/2/3. *)
Record slice := SL { sl_ndim : Z; sl_l : axis -> R; sl_u : axis -> R; sl_red : axis -> bool }.

(** src/output.c:372-393 (init_output): number of dimensions left; [Nx] is pM->Nx. *)
Definition slice_ndim (Nx : axis -> Z) (red : axis -> bool) : res Z :=
  let ndim := (1 + (if (1 <? Nx X2)%Z then 1 else 0) + (if (1 <? Nx X3)%Z then 1 else 0))%Z in
  let ndim := if red X1 then (ndim - 1)%Z else ndim in
  let ndim := if (1 <? Nx X2)%Z && red X2 then (ndim - 1)%Z else ndim in
  let ndim := if (1 <? Nx X3)%Z && red X3 then (ndim - 1)%Z else ndim in
  if (ndim <=? 0)%Z then Fatal else Ok ndim.

(** il, jl, kl and iu, ju, ku: src/output.c:634-663 and twins; [wg] is WRITE_GHOST_CELLS. *)
Definition lo (wg : bool) (nghost : Z) (G : ogrid) (a : axis) : Z :=
  if wg && (1 <? og_Nx G a)%Z then (p_s (og_p G) a - nghost)%Z else p_s (og_p G) a.
Definition hi (wg : bool) (nghost : Z) (G : ogrid) (a : axis) : Z :=
  if wg && (1 <? og_Nx G a)%Z then (og_e G a + nghost)%Z else og_e G a.

(** fc_pos with the other two indices at their lower bounds; component [a]. *)
Definition fc_axis (G : ogrid) (l : axis -> Z) (a : axis) (n : Z) : R :=
  match a with
  | X1 => fst (fst (fc_pos (og_p G) n (l X2) (l X3)))
  | X2 => snd (fst (fc_pos (og_p G) (l X1) n (l X3)))
  | X3 => snd (fc_pos (og_p G) (l X1) (l X2) n)
  end.
(** while (x >= fc) k++;  The fuel is enough for every cell; running out of it is an error
    that the theorems exclude. *)
Fixpoint search_up (fuel : nat) (fc : Z -> R) (x : R) (k : Z) : res Z :=
  if Rge_dec x (fc k) then match fuel with O => UB | S f => search_up f fc x (k + 1)%Z end else Ok k.
(** while (x < fc) k--; *)
Fixpoint search_down (fuel : nat) (fc : Z -> R) (x : R) (k : Z) : res Z :=
  if Rlt_dec x (fc k) then match fuel with O => UB | S f => search_down f fc x (k - 1)%Z end else Ok k.
(** src/output.c:743-759 and twins: first and last index of the range along axis [a]. *)
Definition range_of (G : ogrid) (l h : axis -> Z) (o : slice) (a : axis) : res (Z * Z) :=
  let fuel := Z.to_nat (h a - l a + 1) in
  k <- search_up fuel (fc_axis G l a) (sl_l o a) (l a + 1)%Z;;
  let kstart := (k - 1)%Z in
  k <- search_down fuel (fc_axis G l a) (sl_u o a) (h a);;
  Ok (kstart, k).
(** pout->x3u < pgrid->MinX[2] || pout->x3l >= pgrid->MaxX[2] *)
Definition out_of_range (G : ogrid) (o : slice) (a : axis) : bool :=
  (if Rlt_dec (sl_u o a) (p_MinX (og_p G) a) then true else false) || (if Rge_dec (sl_l o a) (og_MaxX G a) then true else false).
(** data = 0.0; for (k=kstart; k<=kend; k++) data += f(k) *)
Definition accum (ks ke : Z) (f : Z -> R) (start : R) : R :=
  fold_left (fun s n => s + f (ks + Z.of_nat n)%Z) (seq 0 (Z.to_nat (ke - ks + 1))) start.

Section OutData.
Variables (wg : bool) (nghost : Z) (G : ogrid) (o : slice) (expr : Z -> Z -> Z -> R).
Let l := lo wg nghost G.
Let h := hi wg nghost G.
Let n_ (a : axis) : Z := (h a - l a + 1)%Z.

(** src/output.c:626-676 *)
Definition OutData3 : res (Z * Z * Z * (Z -> Z -> Z -> R)) :=
  if negb (sl_ndim o =? 3)%Z then Fatal else
  Ok (n_ X1, n_ X2, n_ X3, fun k j i => expr (i + l X1) (j + l X2) (k + l X3))%Z.

(** src/output.c:689-860; None is the NULL pointer; the dimensions are *Nx1, *Nx2. *)
Definition OutData2 : res (option (Z * Z * (Z -> Z -> R))) :=
  if negb (sl_ndim o =? 2)%Z then Fatal else
  if (og_Nx G X3 =? 1)%Z then Ok (Some (n_ X1, n_ X2, fun j i => expr (i + l X1) (j + l X2) (l X3)))%Z else
  if sl_red o X3 then
    if out_of_range G o X3 then Ok None else
    '(kstart, kend) <- range_of G l h o X3;;
    let factor := 1 / IZR (kend - kstart + 1) in
    Ok (Some (n_ X1, n_ X2, fun j i => accum kstart kend (fun k => expr (i + l X1)%Z (j + l X2)%Z k) 0 * factor))
  else if sl_red o X2 then
    if out_of_range G o X2 then Ok None else
    '(jstart, jend) <- range_of G l h o X2;;
    let factor := 1 / IZR (jend - jstart + 1) in
    Ok (Some (n_ X1, n_ X3, fun k i => accum jstart jend (fun j => expr (i + l X1)%Z j (k + l X3)%Z) 0 * factor))
  else if sl_red o X1 then
    if out_of_range G o X1 then Ok None else
    '(istart, iend) <- range_of G l h o X1;;
    let factor := 1 / IZR (iend - istart + 1) in
    Ok (Some (n_ X2, n_ X3, fun k j => accum istart iend (fun i => expr i (j + l X2)%Z (k + l X3)%Z) 0 * factor))
  else UB (* the uninitialised pointer is returned *).

(** src/output.c:926-929: in two dimensions kstart = kl, kend = ku. *)
Definition range_x3 : res (Z * Z) := if (og_Nx G X3 =? 1)%Z then Ok (l X3, h X3) else range_of G l h o X3.
(** src/output.c:871-1095 *)
Definition OutData1 : res (option (Z * (Z -> R))) :=
  if negb (sl_ndim o =? 1)%Z then Fatal else
  if (og_Nx G X2 =? 1)%Z then Ok (Some (n_ X1, fun i => expr (i + l X1)%Z (l X2) (l X3))) else
  if negb (sl_red o X1) then
    if out_of_range G o X3 || out_of_range G o X2 then Ok None else
    '(kstart, kend) <- range_x3;;
    '(jstart, jend) <- range_of G l h o X2;;
    let factor := 1 / IZR (kend - kstart + 1) / IZR (jend - jstart + 1) in
    Ok (Some (n_ X1, fun i => fold_left (fun s n => accum jstart jend (fun j => expr (i + l X1) j (kstart + Z.of_nat n))%Z s) (seq 0 (Z.to_nat (kend - kstart + 1))) 0 * factor))
  else if negb (sl_red o X2) then
    if out_of_range G o X3 || out_of_range G o X1 then Ok None else
    '(kstart, kend) <- range_x3;;
    '(istart, iend) <- range_of G l h o X1;;
    let factor := 1 / IZR (kend - kstart + 1) / IZR (iend - istart + 1) in
    Ok (Some (n_ X2, fun j => fold_left (fun s n => accum istart iend (fun i => expr i (j + l X2) (kstart + Z.of_nat n))%Z s) (seq 0 (Z.to_nat (kend - kstart + 1))) 0 * factor))
  else if negb (sl_red o X3) then
    if out_of_range G o X2 || out_of_range G o X1 then Ok None else
    '(jstart, jend) <- range_of G l h o X2;;
    '(istart, iend) <- range_of G l h o X1;;
    let factor := 1 / IZR (jend - jstart + 1) / IZR (iend - istart + 1) in
    Ok (Some (n_ X3, fun k => fold_left (fun s n => accum istart iend (fun i => expr i (jstart + Z.of_nat n) (k + l X3))%Z s) (seq 0 (Z.to_nat (jend - jstart + 1))) 0 * factor))
  else UB (* the uninitialised pointer is returned *).
End OutData.
