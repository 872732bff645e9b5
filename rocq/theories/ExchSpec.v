(** * Where a deposit belongs

    Particles of a Grid deposit in the cells of the Grid and in its ghost zones.  A ghost zone is a place of the Domain
    (perhaps seen across an edge), so the Domain's cell at that place must receive the deposit.  Nothing here refers to
    the loops or messages of ExchModel.v. *)
From Coq Require Import ZArith Reals List Bool.
From Verif Require Import Loop BvalsModel BvalsSpec BvalsParModel SumFacts.
Import ListNotations.
Open Scope Z_scope.

(** The place that coordinate [x] of a row with cells s..e is: None if it is nowhere (beyond an open edge), otherwise the
    coordinate of the cell, and whether it is seen in a mirror. *)
Definition image (bl br : bc) (s e x : Z) : option (bool * Z) :=
  if x <? s then match bl with Refl | Cond => Some (true, 2 * s - 1 - x) | Peri => Some (false, x + (e - s + 1)) | Outf => None end
  else if x >? e then match br with Refl | Cond => Some (true, 2 * e + 1 - x) | Peri => Some (false, x - (e - s + 1)) | Outf => None end
  else Some (false, x).
(** Component of the vector that changes its sign in a mirror normal to the axis. *)
Definition comp (a : axis) : nat := match a with A1 => 0 | A2 => 1 | A3 => 2 end%nat.
Definition sgn (a : axis) (n : nat) (mirrored : bool) : R := if mirrored && (n =? comp a)%nat then (-1)%R else 1%R.

Section Dep.
Variables (bl br : axis -> bc) (D : decomp) (ne : Z).
Definition place (a : axis) (x : Z) : option (bool * Z) := image (bl a) (br a) (fst_ (dgeo D) a) (lst_ (dgeo D) a) x.
(** Coordinates along axis [a] at which particles of the l-th Grid can deposit: the cells and [ne] ghost zones on either side. *)
Definition gfst (a : axis) (l : nat) : Z := if d_size D a l >? 1 then d_ng D else 0.
Definition glst (a : axis) (l : nat) : Z := if d_size D a l >? 1 then d_size D a l + d_ng D - 1 else 0.
Definition cells (a : axis) (l : nat) : list Z := zrange (gfst a l) (glst a l).
Definition reach (a : axis) (l : nat) : list Z :=
  if d_size D a l >? 1 then zrange (gfst a l - ne) (glst a l + ne) else [0].
(** Share of component [n] deposited at coordinate [x] of the Domain that belongs to coordinate [y]. *)
Definition share (a : axis) (n : nat) (x y : Z) : R :=
  match place a x with Some (m, z) => if z =? y then sgn a n m else 0%R | None => 0%R end.
(** All that the Grids along axis [a] deposit at coordinate [y]: [f l x] is the deposit of the l-th Grid at its own coordinate [x]. *)
Definition gathered (a : axis) (n : nat) (f : nat -> Z -> R) (y : Z) : R :=
  lsum (seq 0 (d_NG D a)) (fun l => lsum (reach a l) (fun x => (share a n (x + disp D a l)%Z y * f l x)%R)).
(** All that is deposited in cell [c] of the Domain by any Grid: the sum over all Grids (n, m, l) and all their cells and ghost
    zones [k][j][i] of the share that belongs to [c]. *)
Definition deposited (Q : gpos -> idx -> nat -> R) (v : nat) (c : idx) : R :=
  gathered A1 v (fun l i => gathered A2 v (fun m j => gathered A3 v (fun n k => Q (n, m, l) (k, j, i) v) (co A3 c)) (co A2 c)) (co A1 c).
(** Sum over all Grids, and over the coordinates [r a l] of each. *)
Definition all_grids (r : axis -> nat -> list Z) (F : gpos -> idx -> R) : R :=
  lsum (seq 0 (d_NG D A1)) (fun l => lsum (r A1 l) (fun i =>
  lsum (seq 0 (d_NG D A2)) (fun m => lsum (r A2 m) (fun j =>
  lsum (seq 0 (d_NG D A3)) (fun n => lsum (r A3 n) (fun k => F (n, m, l) (k, j, i))))))).
(** The sign with which a deposit at [c] counts: -1 for each edge it is mirrored in and normal to the component, 0 if it is lost. *)
Definition sign_of (a : axis) (n : nat) (x : Z) : R := match place a x with Some (m, _) => sgn a n m | None => 0%R end.
End Dep.
