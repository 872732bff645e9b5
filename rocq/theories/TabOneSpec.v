(** * Tables *)
From Coq Require Import ZArith List Bool Reals.
From Verif Require Import MeshModel PosModel SliceModel.
Import ListNotations.
Open Scope R_scope.

(** The rows list every index from 0 to n - 1, once and in order, with its value; for two and three indices the first runs fastest. *)
Definition lists1 (rows : list (list Z * R)) (n : Z) (val : Z -> R) : Prop :=
  length rows = Z.to_nat n /\ forall i, (0 <= i < n)%Z -> nth_error rows (Z.to_nat i) = Some ([i], val i).
Definition lists2 (rows : list (list Z * R)) (n m : Z) (val : Z -> Z -> R) : Prop :=
  length rows = Z.to_nat (n * m) /\ forall i j, (0 <= i < n)%Z -> (0 <= j < m)%Z -> nth_error rows (Z.to_nat (j * n + i)) = Some ([i; j], val i j).
Definition lists3 (rows : list (list Z * R)) (n m l : Z) (val : Z -> Z -> Z -> R) : Prop :=
  length rows = Z.to_nat (n * m * l) /\ forall i j k, (0 <= i < n)%Z -> (0 <= j < m)%Z -> (0 <= k < l)%Z ->
    nth_error rows (Z.to_nat ((k * m + j) * n + i)) = Some ([i; j; k], val i j k).
(** Cells written beyond the Grid on each side, along axes with more than one cell, and with them the first cell and the number of cells. *)
Definition extra (ghost : bool) (ng : Z) (G : ogrid) (a : axis) : Z := if (ghost && (1 <? og_Nx G a)%Z)%bool then ng else 0%Z.
Definition first_cell (ghost : bool) (ng : Z) (G : ogrid) (a : axis) : Z := (p_s (og_p G) a - extra ghost ng G a)%Z.
Definition number (ghost : bool) (ng : Z) (G : ogrid) (a : axis) : Z := (og_Nx G a + 2 * extra ghost ng G a)%Z.
(** Last cell written. *)
Definition last_cell (ghost : bool) (ng : Z) (G : ogrid) (a : axis) : Z := (first_cell ghost ng G a + number ghost ng G a - 1)%Z.
