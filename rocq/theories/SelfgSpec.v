(** * The potential of the gas on a periodic Grid with ghost zones, and its gravitational energy *)
From Coq Require Import Reals ZArith.
From Verif Require Import IntegSpec.
Open Scope R_scope.

(** Cells l..u of a line with one ghost cell at each end hold a periodic function. *)
Definition wraps (l u : Z) (f : Z -> R) : Prop := f (l - 1)%Z = f u /\ f (u + 1)%Z = f l.
Definition diff2 (dx : R) (f : Z -> R) (i : Z) : R := (f (i + 1)%Z - 2 * f i + f (i - 1)%Z) / (dx * dx).

(** [P] is the potential of the density [d]: its Laplacian is four_pi_G times the excess of [d] over its mean, and its own mean is zero. *)
Definition solves1 (G4 dx : R) (l u : Z) (d P : Z -> R) : Prop :=
  wraps l u P /\ sumZ l u P = 0 /\
  forall i, (l <= i <= u)%Z -> diff2 dx P i = G4 * (d i - sumZ l u d / IZR (u - l + 1)).

Definition sum2 (lj uj li ui : Z) (f : Z -> Z -> R) : R := sumZ lj uj (fun j => sumZ li ui (fun i => f j i)).
(** One layer of ghost cells, with its corners. *)
Definition wraps2 (lj uj li ui : Z) (f : Z -> Z -> R) : Prop :=
  (forall j, (lj - 1 <= j <= uj + 1)%Z -> wraps li ui (fun i => f j i)) /\
  (forall i, (li - 1 <= i <= ui + 1)%Z -> wraps lj uj (fun j => f j i)).
Definition solves2 (G4 dx1 dx2 : R) (lj uj li ui : Z) (d P : Z -> Z -> R) : Prop :=
  wraps2 lj uj li ui P /\ sum2 lj uj li ui P = 0 /\
  forall j i, (lj <= j <= uj)%Z -> (li <= i <= ui)%Z ->
    diff2 dx1 (fun i => P j i) i + diff2 dx2 (fun j => P j i) j =
    G4 * (d j i - sum2 lj uj li ui d / (IZR (uj - lj + 1) * IZR (ui - li + 1))).

Definition sum3 (lk uk lj uj li ui : Z) (f : Z -> Z -> Z -> R) : R := sumZ lk uk (fun k => sum2 lj uj li ui (fun j i => f k j i)).
Definition wraps3 (lk uk lj uj li ui : Z) (f : Z -> Z -> Z -> R) : Prop :=
  (forall k, (lk - 1 <= k <= uk + 1)%Z -> wraps2 lj uj li ui (fun j i => f k j i)) /\
  (forall j i, (lj - 1 <= j <= uj + 1)%Z -> (li - 1 <= i <= ui + 1)%Z -> wraps lk uk (fun k => f k j i)).
Definition solves3 (G4 dx1 dx2 dx3 : R) (lk uk lj uj li ui : Z) (d P : Z -> Z -> Z -> R) : Prop :=
  wraps3 lk uk lj uj li ui P /\ sum3 lk uk lj uj li ui P = 0 /\
  forall k j i, (lk <= k <= uk)%Z -> (lj <= j <= uj)%Z -> (li <= i <= ui)%Z ->
    diff2 dx1 (fun i => P k j i) i + diff2 dx2 (fun j => P k j i) j + diff2 dx3 (fun k => P k j i) k =
    G4 * (d k j i - sum3 lk uk lj uj li ui d / (IZR (uk - lk + 1) * IZR (uj - lj + 1) * IZR (ui - li + 1))).

(** The gravitational stress tensor.  Arrays are indexed (k,j,i); [sh a n f] is [f] moved by n cells along axis [a]. *)
Inductive dir := D1 | D2 | D3.
Definition sh (a : dir) (n : Z) (f : Z -> Z -> Z -> R) (k j i : Z) : R :=
  match a with D1 => f k j (i + n)%Z | D2 => f k (j + n)%Z i | D3 => f (k + n)%Z j i end.
Definition along (a : dir) (dx1 dx2 dx3 : R) : R := match a with D1 => dx1 | D2 => dx2 | D3 => dx3 end.
Definition same (a b : dir) : bool := match a, b with D1, D1 | D2, D2 | D3, D3 => true | _, _ => false end.
Section Stress.
Variables (G4 mean dx1 dx2 dx3 : R).
(** Component b of g = - grad P at the lower face along a: the difference across the face, or the mean over the two cells that
    share it of the centred difference. *)
Definition field (a b : dir) (P : Z -> Z -> Z -> R) (k j i : Z) : R :=
  let dx := along b dx1 dx2 dx3 in
  let slope (f : Z -> Z -> Z -> R) := (sh b 1 f k j i - sh b (-1) f k j i) / (2 * dx) in
  if same a b then - ((P k j i - sh a (-1) P k j i) / dx) else - ((slope (sh a (-1) P) + slope P) / 2).
(** T_ab = (g_a g_b - delta_ab |g|^2 / 2) / four_pi_G + delta_ab mean_rho P at the lower face along a. *)
Definition stress3 (a b : dir) (P : Z -> Z -> Z -> R) (k j i : Z) : R :=
  field a a P k j i * field a b P k j i / G4 +
  (if same a b then
     - ((field a D1 P k j i ^ 2 + field a D2 P k j i ^ 2 + field a D3 P k j i ^ 2) / 2) / G4 + mean * ((sh a (-1) P k j i + P k j i) / 2)
   else 0).
(** Its divergence in a cell. *)
Definition div_stress (b : dir) (P : Z -> Z -> Z -> R) (k j i : Z) : R :=
  (sh D1 1 (stress3 D1 b P) k j i - stress3 D1 b P k j i) / dx1 + (sh D2 1 (stress3 D2 b P) k j i - stress3 D2 b P k j i) / dx2
  + (sh D3 1 (stress3 D3 b P) k j i - stress3 D3 b P k j i) / dx3.
End Stress.
