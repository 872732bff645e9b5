(** * Vocabulary for VTK files: the file of a whole Domain, and what is asked of the C library *)
From Coq Require Import String Ascii ZArith Reals Bool Arith Lia Permutation Sorted List.
From Verif Require Import CStr MeshModel PosModel GasModel HistSpec VtkModel.
Import ListNotations.
Open Scope Z_scope.

(** What C promises about [qsort]: the same elements, in ascending order of the keys; nothing is said about elements with equal keys. *)
Definition sorts (qs : axis -> list vdom -> list vdom) : Prop :=
  forall a l, Permutation (qs a l) l /\ StronglySorted (fun x y => (v_origin (vd_file x) a <= v_origin (vd_file y) a)%R) (qs a l).
(** Printing with "%e" and reading again: doing it twice changes nothing more, and positive numbers stay positive. *)
Definition printing (e6 : R -> R) : Prop := (forall x, e6 (e6 x) = e6 x) /\ (forall x, (0 < x)%R -> (0 < e6 x)%R).
(** The seven digits printed are enough to tell the lower edges of neighbouring Grids apart. *)
Definition edges_apart (e6 : R -> R) (xmin xmax : axis -> R) (M : mesh) (d : domain) : Prop :=
  forall a k, Z.of_nat (S k) < dm_NG d a -> (e6 (grid_MinX xmin xmax M d a k) < e6 (grid_MinX xmin xmax M d a (S k)))%R.
(** The Grids of a Domain, and the file each of them writes. *)
Definition all_grids (d : domain) : list gidx :=
  flat_map (fun n => flat_map (fun m => map (fun l => Gi l m n) (seq 0 (Z.to_nat (dm_NG d X1)))) (seq 0 (Z.to_nat (dm_NG d X2)))) (seq 0 (Z.to_nat (dm_NG d X3))).
Definition grid_file (e6 : R -> R) (enc : R -> str) (comment : str) (c : vcfg) (ng : Z) (xmin xmax : axis -> R) (M : mesh) (d : domain) (grids : gidx -> vgrid) (g : gidx) : vfile :=
  dump_vtk e6 enc comment c (mk_pgrid ng xmin xmax M d g) (fun a => gNx d a (gi_ax g a)) (fun a => grid_s ng d a (gi_ax g a)) (fun a => grid_e ng d a (gi_ax g a)) (grids g).
(** The Grids hold the state [S] of the Domain, whose cells are numbered as on its level. *)
Definition hold (ng : Z) (d : domain) (grids : gidx -> vgrid) (S : vgrid) : Prop :=
  forall g k j i, (forall a, Z.of_nat (gi_ax g a) < dm_NG d a) -> gactive ng d g X1 i -> gactive ng d g X2 j -> gactive ng d g X3 k ->
    let K := gcell ng d g X3 k in let J := gcell ng d g X2 j in let I := gcell ng d g X1 i in
    vg_U (grids g) k j i = vg_U S K J I /\ vg_W (grids g) k j i = vg_W S K J I /\
    vg_Phi (grids g) k j i = vg_Phi S K J I /\ vg_par (grids g) k j i = vg_par S K J I.
(** The joined file: one data set after the other, each with the values of all cells of the
    Domain, the x1 index running fastest; as many corners along each axis as cells and one more. *)
Definition last_cell (d : domain) (a : axis) : Z := dm_Disp d a + dm_Nx d a - 1.
Definition domain_body (enc : R -> str) (c : vcfg) (d : domain) (S : vgrid) : str :=
  flat_map (fun f => fld_text f ++
    flat_map (fun K => flat_map (fun J => flat_map (fun I => flat_map enc (f_val f K J I))
      (zr (dm_Disp d X1) (last_cell d X1))) (zr (dm_Disp d X2) (last_cell d X2))) (zr (dm_Disp d X3) (last_cell d X3))) (vtk_fields c S).
Definition is_domain_file (e6 : R -> R) (enc : R -> str) (comment : str) (c : vcfg) (xmin xmax : axis -> R) (M : mesh) (d : domain) (S : vgrid) (f : vfile) : Prop :=
  v_comment f = comment /\
  (forall a, v_dims f a = dm_Nx d a + 1) /\
  (forall a, v_origin f a = e6 (dom_MinX xmin xmax M d a)) /\
  (forall a, v_spacing f a = e6 (dom_dx xmin xmax M d a)) /\
  v_cells f = dm_Nx d X1 * dm_Nx d X2 * dm_Nx d X3 /\
  v_body f = domain_body enc c d S.
(** Where the data set number [q] of the joined file begins: after the [q] data sets before it and its own text. *)
Definition cells (d : domain) : nat := (Z.to_nat (dm_Nx d X3) * Z.to_nat (dm_Nx d X2) * Z.to_nat (dm_Nx d X1))%nat.
Definition width (f : fld) : nat := if f_vec f then 3 else 1.
Definition set_start (c : vcfg) (d : domain) (S : vgrid) (q : nat) : nat :=
  (fold_right (fun f n => length (fld_text f) + 4 * width f * cells d + n)%nat 0%nat (firstn q (vtk_fields c S)) + match nth_error (vtk_fields c S) q with Some f => length (fld_text f) | None => 0%nat end)%nat.
