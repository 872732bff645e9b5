(** * VTK files of one variable: src/output_vtk.c

    A file is the numbers it holds.  Over the reals: the conversion to float, the six digits of
    %e and the order of bytes (C48) are left out, as are the name and opening of the file and the lines of
    the header that hold no geometry.  Allocation does not fail. *)
From Coq Require Import ZArith List Bool Reals.
From Verif Require Import CStr MeshModel PosModel UtilModel VtkModel ImageModel SliceModel.
Import ListNotations.
Open Scope R_scope.

(** The lines DIMENSIONS, ORIGIN, SPACING, CELL_DATA and the data that follow them. *)
Record vtkone := VO { vo_dims : axis -> Z; vo_origin : axis -> R; vo_spacing : axis -> R; vo_cells : Z; vo_data : list R }.
Definition three {A} (a b c : A) : axis -> A := fun x => match x with X1 => a | X2 => b | X3 => c end.

Section One.
Variables (wg : bool) (nghost : Z) (G : ogrid) (o : slice) (expr : Z -> Z -> Z -> R).

(** output_vtk.c:138-140 and twins: dx times the number of cells along a reduced axis. *)
Definition spacing2 (a : axis) : R := if sl_red o a then p_dx (og_p G) a * IZR (og_Nx G a) else p_dx (og_p G) a.
(** output_vtk_2d, output_vtk.c:70-171; [g] is (pOut->gmin, pOut->gmax); None: no file is written. *)
Definition output_vtk_2d (g : R * R) : res (option vtkone * (R * R)) :=
  r <- OutData2 wg nghost G o expr;;
  match r with
  | None => Ok (None, g)
  | Some (nx1, nx2, data2d) =>
      Ok (Some (VO (three (nx1 + 1) (nx2 + 1) 1)%Z (p_MinX (og_p G)) (three (spacing2 X1) (spacing2 X2) (spacing2 X3)) (nx1 * nx2)%Z
                  (flat_map (fun j => map (fun i => data2d j i) (zr 0 (nx1 - 1))) (zr 0 (nx2 - 1)))),
          track g (minmax2 data2d nx2 nx1))
  end.
(** output_vtk_3d, output_vtk.c:177-273 *)
Definition output_vtk_3d (g : R * R) : res (option vtkone * (R * R)) :=
  '(nx1, nx2, nx3, data3d) <- OutData3 wg nghost G o expr;;
  Ok (Some (VO (three (nx1 + 1) (nx2 + 1) (nx3 + 1))%Z (p_MinX (og_p G)) (p_dx (og_p G)) (nx1 * nx2 * nx3)%Z
              (flat_map (fun k => flat_map (fun j => map (fun i => data3d k j i) (zr 0 (nx1 - 1))) (zr 0 (nx2 - 1))) (zr 0 (nx3 - 1)))),
      track g (minmax3 data3d nx3 nx2 nx1)).
(** output_vtk.c:50-56 *)
Definition output_vtk_grid (g : R * R) : res (option vtkone * (R * R)) :=
  if (sl_ndim o =? 3)%Z then output_vtk_3d g else if (sl_ndim o =? 2)%Z then output_vtk_2d g else Fatal.
End One.

(** output_vtk.c:37-64.  [mesh]: Domains of each level, [None] where this process has no Grid; [nlevel], [ndomain]
    are those of the output block; [expr nl nd] is the variable on the Grid of that Domain. *)
Section Mesh.
Variables (wg : bool) (nghost : Z) (o : slice) (nlevel ndomain : Z) (expr : Z -> Z -> Z -> Z -> Z -> R).
Definition wanted (nl nd : Z) : bool := ((nlevel =? -1) || (nlevel =? nl))%Z && ((ndomain =? -1) || (ndomain =? nd))%Z.
Definition one_domain (nl nd : Z) (d : option ogrid) (g : R * R) : res (list (Z * Z * vtkone) * (R * R)) :=
  match d with
  | None => Ok ([], g)
  | Some G => if wanted nl nd then
      '(f, g) <- output_vtk_grid wg nghost G o (expr nl nd) g;;
      Ok (match f with Some V => [(nl, nd, V)] | None => [] end, g)
    else Ok ([], g)
  end.
Fixpoint domain_loop (nl nd : Z) (ds : list (option ogrid)) (g : R * R) : res (list (Z * Z * vtkone) * (R * R)) :=
  match ds with
  | [] => Ok ([], g)
  | d :: ds => '(f, g) <- one_domain nl nd d g;; '(fs, g) <- domain_loop nl (nd + 1)%Z ds g;; Ok (f ++ fs, g)
  end.
Fixpoint level_loop (nl : Z) (mesh : list (list (option ogrid))) (g : R * R) : res (list (Z * Z * vtkone) * (R * R)) :=
  match mesh with
  | [] => Ok ([], g)
  | ds :: mesh => '(f, g) <- domain_loop nl 0 ds g;; '(fs, g) <- level_loop (nl + 1)%Z mesh g;; Ok (f ++ fs, g)
  end.
Definition output_vtk (mesh : list (list (option ogrid))) (g : R * R) := level_loop 0 mesh g.
End Mesh.
