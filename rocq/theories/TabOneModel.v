(** * Tables of one variable: src/output_tab.c

    A file is its rows: the indices, as numbers, and the value.  Values are reals; how numbers are printed, the name and the
    opening of the file are left out.  The loop over levels and Domains is in TabMeshModel. *)
From Coq Require Import ZArith List Bool Reals.
From Verif Require Import CStr MeshModel PosModel UtilModel VtkModel ImageModel SliceModel.
Import ListNotations.
Open Scope R_scope.

(** output_tab.c:121, 189-190, 261-263: the conversion (float)(i) of an index that is not negative: 24 binary digits, to the nearest, ties to even (IEEE 754). *)
Definition to_float (n : Z) : Z :=
  (let e := Z.log2 n - 23 in
   if e <=? 0 then n else
   let q := n / 2 ^ e in let r := n mod 2 ^ e in let h := 2 ^ (e - 1) in
   (if r <? h then q else if h <? r then q + 1 else if Z.even q then q else q + 1) * 2 ^ e)%Z.

Section Tab.
Variables (wg : bool) (nghost : Z) (num : nat) (G : ogrid) (o : slice) (expr : Z -> Z -> Z -> R).
(** output_tab_1d, output_tab.c:75-133; [g] is (pOut->gmin, pOut->gmax); None: no file. *)
Definition output_tab_1d (g : R * R) : res (option (list (list Z * R)) * (R * R)) :=
  r <- OutData1 wg nghost G o expr;;
  match r with
  | None => Ok (None, g)
  | Some (nx1, data) => Ok (Some (map (fun i => ([to_float i], data i)) (zr 0 (nx1 - 1))), track g (minmax1 data nx1))
  end.
(** output_tab_2d, output_tab.c:139-211; [num] is pOut->num. *)
Definition output_tab_2d (g : R * R) : res (option (list (list Z * R)) * (R * R)) :=
  r <- OutData2 wg nghost G o expr;;
  match r with
  | None => Ok (None, g)
  | Some (nx1, nx2, data) =>
      Ok (Some (flat_map (fun j => map (fun i => ([to_float i; to_float j], data j i)) (zr 0 (nx1 - 1))) (zr 0 (nx2 - 1))),
          track_num num g (minmax2 data nx2 nx1))
  end.
(** output_tab_3d, output_tab.c:217-287 *)
Definition output_tab_3d (g : R * R) : res (option (list (list Z * R)) * (R * R)) :=
  '(nx1, nx2, nx3, data) <- OutData3 wg nghost G o expr;;
  Ok (Some (flat_map (fun k => flat_map (fun j => map (fun i => ([to_float i; to_float j; to_float k], data k j i)) (zr 0 (nx1 - 1))) (zr 0 (nx2 - 1))) (zr 0 (nx3 - 1))),
      track_num num g (minmax3 data nx3 nx2 nx1)).
(** output_tab.c:57-63 *)
Definition output_tab_grid (g : R * R) : res (option (list (list Z * R)) * (R * R)) :=
  if (sl_ndim o =? 3)%Z then output_tab_3d g else if (sl_ndim o =? 2)%Z then output_tab_2d g else if (sl_ndim o =? 1)%Z then output_tab_1d g else Ok (None, g).
End Tab.
