(** * Vocabulary for the history file: what a column means, and volume averages *)
From Coq Require Import ZArith List Reals.
From Verif Require Import MeshModel PosModel GasModel HistModel IntegSpec.
Open Scope R_scope.

(** The state of a whole Domain: its cells are numbered (K, J, I) as on its level. *)
Record dstate := DS { ds_U : Z -> Z -> Z -> cons; ds_Phi : Z -> Z -> Z -> R; ds_usr : nat -> Z -> Z -> Z -> R }.
(** Sum over all cells of a Domain. *)
Definition dom_sum (d : domain) (f : Z -> Z -> Z -> R) : R :=
  sumZ (dm_Disp d X3) (dm_Disp d X3 + dm_Nx d X3 - 1) (fun K =>
  sumZ (dm_Disp d X2) (dm_Disp d X2 + dm_Nx d X2 - 1) (fun J =>
  sumZ (dm_Disp d X1) (dm_Disp d X1 + dm_Nx d X1 - 1) (fun I => f K J I))).
(** The x1 coordinate (the radius, in cylindrical coordinates) of the middle of a cell. *)
Definition x1_mid (xmin xmax : axis -> R) (M : mesh) (d : domain) (I : Z) : R :=
  xmin X1 + (IZR I + 1/2) * dom_dx xmin xmax M d X1.
(** The volume of a cell. *)
Definition cell_vol (c : hcfg) (xmin xmax : axis -> R) (M : mesh) (d : domain) (K J I : Z) : R :=
  dom_dx xmin xmax M d X1 * dom_dx xmin xmax M d X2 * dom_dx xmin xmax M d X3 *
  (if h_cyl c then x1_mid xmin xmax M d I else 1).
Definition momentum (a : axis) (u : cons) : R := match a with X1 => cM1 u | X2 => cM2 u | X3 => cM3 u end.
Definition bfield (a : axis) (u : cons) : R := match a with X1 => cB1 u | X2 => cB2 u | X3 => cB3 u end.
(** What a column is the average of. *)
Definition column (S : dstate) (x1 : R) (lab : hlabel) (K J I : Z) : R :=
  let u := ds_U S K J I in
  match lab with
  | Ltime | Ldt => 0
  | Lmass => cd u
  | LtotalE => cE u
  | Lmom a => momentum a u
  | LKE a => momentum a u * momentum a u / (2 * cd u)
  | LME a => bfield a u * bfield a u / 2
  | LgravPE => cd u * ds_Phi S K J I
  | Lscalar n => nth n (cs u) 0
  | LAngMom => x1 * momentum X2 u
  | Lusr n => ds_usr S n K J I
  end.
Definition vol_average (c : hcfg) (xmin xmax : axis -> R) (M : mesh) (d : domain) (f : Z -> Z -> Z -> R) : R :=
  dom_sum d (fun K J I => cell_vol c xmin xmax M d K J I * f K J I) / dom_sum d (cell_vol c xmin xmax M d).
(** What the file should say under a label. *)
Definition entry (c : hcfg) (xmin xmax : axis -> R) (M : mesh) (d : domain) (time dt : R) (S : dstate) (lab : hlabel) : R :=
  match lab with
  | Ltime => time
  | Ldt => dt
  | _ => vol_average c xmin xmax M d (fun K J I => column S (x1_mid xmin xmax M d I) lab K J I)
  end.
(** The Grids hold the state of the Domain: cell (k, j, i) of a Grid is the cell of the
    Domain at the Grid's displacement plus the offset from its first active cell. *)
Definition gcell (nghost : Z) (d : domain) (g : gidx) (a : axis) (i : Z) : Z :=
  (gDisp d a (gi_ax g a) + (i - grid_s nghost d a (gi_ax g a)))%Z.
Definition gactive (nghost : Z) (d : domain) (g : gidx) (a : axis) (i : Z) : Prop :=
  (grid_s nghost d a (gi_ax g a) <= i <= grid_e nghost d a (gi_ax g a))%Z.
Definition grids_hold (nghost : Z) (d : domain) (grids : gidx -> hgrid) (u : nat) (S : dstate) : Prop :=
  forall g k j i, (forall a, (Z.of_nat (gi_ax g a) < dm_NG d a)%Z) ->
    gactive nghost d g X1 i -> gactive nghost d g X2 j -> gactive nghost d g X3 k ->
    let K := gcell nghost d g X3 k in let J := gcell nghost d g X2 j in let I := gcell nghost d g X1 i in
    hg_U (grids g) k j i = ds_U S K J I /\ hg_Phi (grids g) k j i = ds_Phi S K J I /\
    forall n, (n < u)%nat -> hg_usr (grids g) n k j i = ds_usr S n K J I.
(** The extent of the box along the axes that have a single cell. *)
Definition thickness (xmin xmax : axis -> R) (d : domain) : R :=
  (if (dm_Nx d X2 =? 1)%Z then xmax X2 - xmin X2 else 1) * (if (dm_Nx d X3 =? 1)%Z then xmax X3 - xmin X3 else 1).
