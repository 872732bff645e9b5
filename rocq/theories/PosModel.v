(** Positions of cells and faces: src/cc_pos.c, and the coordinates set up by
    src/init_mesh.c:199-365 and src/init_grid.c:80-149.  Over the reals. *)
From Coq Require Import ZArith List Bool Reals R_Ifp.
From Verif Require Import CStr MeshModel.
Import ListNotations.
Open Scope R_scope.

(** The fields of GridS used here, per axis: first active index (is, js, ks), lower edge
    MinX and cell size (dx1, dx2, dx3). *)
Record pgrid := PG { p_s : axis -> Z; p_MinX : axis -> R; p_dx : axis -> R }.

(** src/cc_pos.c:35-43 *)
Definition cc_pos (pG : pgrid) (i j k : Z) : R * R * R :=
  (p_MinX pG X1 + (IZR (i - p_s pG X1) + 1/2) * p_dx pG X1,
   p_MinX pG X2 + (IZR (j - p_s pG X2) + 1/2) * p_dx pG X2,
   p_MinX pG X3 + (IZR (k - p_s pG X3) + 1/2) * p_dx pG X3).
(** src/cc_pos.c:51-58 *)
Definition fc_pos (pG : pgrid) (i j k : Z) : R * R * R :=
  (p_MinX pG X1 + IZR (i - p_s pG X1) * p_dx pG X1,
   p_MinX pG X2 + IZR (j - p_s pG X2) * p_dx pG X2,
   p_MinX pG X3 + IZR (k - p_s pG X3) * p_dx pG X3).
(** The conversion (int) of C: towards zero; undefined outside the range of int. *)
Definition c_int (a : R) : res Z :=
  let z := if Rle_dec 0 a then Int_part a else (- Int_part (- a))%Z in
  if ((INT_MIN <=? z) && (z <=? INT_MAX))%Z then Ok z else UB.
(** src/cc_pos.c:84-91, 105-111, 125-131: index, grid coordinate, 1 for the right half. *)
Definition celli (pG : pgrid) (x dx1_1 : R) : res (Z * R * Z) :=
  let a := (x - p_MinX pG X1) * dx1_1 + IZR (p_s pG X1) in
  i <- c_int a;;
  Ok (i, a, if Rlt_dec (a - IZR i) (1/2) then 0%Z else 1%Z).
Definition cellj (pG : pgrid) (y dx2_1 : R) : res (Z * R * Z) :=
  let b := (y - p_MinX pG X2) * dx2_1 + IZR (p_s pG X2) in
  j <- c_int b;;
  Ok (j, b, if Rlt_dec (b - IZR j) (1/2) then 0%Z else 1%Z).
Definition cellk (pG : pgrid) (z dx3_1 : R) : res (Z * R * Z) :=
  let c := (z - p_MinX pG X3) * dx3_1 + IZR (p_s pG X3) in
  k <- c_int c;;
  Ok (k, c, if Rlt_dec (c - IZR k) (1/2) then 0%Z else 1%Z).

(** src/init_mesh.c:205: cell size on the root level. *)
Definition root_dx (xmin xmax : axis -> R) (M : mesh) (a : axis) : R := (xmax a - xmin a) / IZR (ms_Nx M a).
(** src/init_mesh.c:301-309 *)
Definition dom_dx (xmin xmax : axis -> R) (M : mesh) (d : domain) (a : axis) : R :=
  if (1 <? dm_Nx d a)%Z then root_dx xmin xmax M a / IZR (irefine (dm_level d)) else root_dx xmin xmax M a.
(** src/init_mesh.c:347-362 *)
Definition dom_MinX (xmin xmax : axis -> R) (M : mesh) (d : domain) (a : axis) : R :=
  if (dm_Disp d a =? 0)%Z then xmin a else xmin a + IZR (dm_Disp d a) * dom_dx xmin xmax M d a.
Definition dom_MaxX (xmin xmax : axis -> R) (M : mesh) (d : domain) (a : axis) : R :=
  if (Z.quot (dm_Disp d a + dm_Nx d a) (irefine (dm_level d)) =? ms_Nx M a)%Z then xmax a
  else dom_MinX xmin xmax M d a + IZR (dm_Nx d a) * dom_dx xmin xmax M d a.
(** src/init_grid.c:80-149: lower edge of Grid number [l] of the axis. *)
Fixpoint grid_MinX (xmin xmax : axis -> R) (M : mesh) (d : domain) (a : axis) (l : nat) : R :=
  match l with
  | O => dom_MinX xmin xmax M d a
  | S l' => grid_MinX xmin xmax M d a l' + IZR (gNx d a l') * dom_dx xmin xmax M d a
  end.
Definition grid_MaxX (xmin xmax : axis -> R) (M : mesh) (d : domain) (a : axis) (l : nat) : R :=
  grid_MinX xmin xmax M d a l + IZR (gNx d a l) * dom_dx xmin xmax M d a.
(** is, js, ks: src/init_grid.c:84-89 *)
Definition grid_s (nghost : Z) (d : domain) (a : axis) (l : nat) : Z :=
  if (1 <? gNx d a l)%Z then nghost else 0%Z.
Definition grid_e (nghost : Z) (d : domain) (a : axis) (l : nat) : Z :=
  if (1 <? gNx d a l)%Z then (gNx d a l + nghost - 1)%Z else 0%Z.
(** The Grid with indices [g] of Domain [d]. *)
Definition mk_pgrid (nghost : Z) (xmin xmax : axis -> R) (M : mesh) (d : domain) (g : gidx) : pgrid :=
  PG (fun a => grid_s nghost d a (gi_ax g a)) (fun a => grid_MinX xmin xmax M d a (gi_ax g a)) (dom_dx xmin xmax M d).
