(** * Specification vocabulary for the shearing sheet *)
From Coq Require Import Reals ZArith List.
From Verif Require Import GasModel ShearModel.
Open Scope R_scope.

(** The value of a variable in a zone. *)
Definition value (z : zone) (v : rvar) : R :=
  let u := zU z in
  match v with
  | Vd => cd u | VM1 => cM1 u | VM2 => cM2 u | VM3 => cM3 u | VE => cE u
  | VB1c => cB1 u | VB1i => zB1i z | VB2i => zB2i z | VB3i => zB3i z | Vs m => nth m (cs u) 0
  end.
(** The same matter seen from a frame in which it moves faster by [w] along x2: the momentum grows by
    d*w, the energy by d*((v+w)^2 - v^2)/2 = w*M2 + d*w^2/2, everything else is unchanged. *)
Definition boosted (w : R) (z : zone) (v : rvar) : R :=
  match v with
  | VM2 => value z VM2 + w * value z Vd
  | VE => value z VE + w * value z VM2 + value z Vd * (w * w) / 2
  | _ => value z v
  end.
(** Velocity of the image box next to the inner (outer) boundary relative to the box; with FARGO the
    variables are already relative to the background flow. *)
Definition image_speed (inner fargo : bool) (qomL : R) : R :=
  if fargo then 0 else if inner then qomL else - qomL.
(** The profile [U] carried [m + eps] cells up (inner) or down (outer). *)
Definition carried (inner third : bool) (m : Z) (eps : R) (U : Z -> R) (J : Z) : R :=
  if inner then remap third eps U (J - m)%Z else remap third (- eps) U (J + m)%Z.

(** A line of NG Grids of n cells holds the rows [D] of a periodic Domain: Grid p holds, with [nghost]
    ghost rows on either side, the rows p*n .. p*n + n - 1. *)
Definition periodic {B} (N : Z) (D : Z -> B) : Prop := forall J, D (J + N)%Z = D J.
Definition row_of (js n p j : Z) : Z := (p * n + (j - js))%Z.
Definition holds (nghost NG js n : Z) (D : Z -> Z -> Z -> zone) (G : Z -> Z -> Z -> Z -> zone) : Prop :=
  forall p k j i, (0 <= p < NG)%Z -> (js - nghost <= j <= js + n - 1 + nghost)%Z -> G p k j i = D k (row_of js n p j) i.
Definition between (a b x : R) : Prop := Rmin a b <= x <= Rmax a b.
