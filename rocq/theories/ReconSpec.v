(** Vocabulary for the reconstruction properties. *)
From Coq Require Import Reals ZArith.
From Verif Require Import GasModel ReconModel.
Open Scope R_scope.

(** [x] lies between [a] and [b], in either order. *)
Definition between (a b x : R) : Prop := Rmin a b <= x <= Rmax a b.

(** The spatial orders that can be configured, except LimO3. *)
Inductive scheme :=
| FirstOrder | Prim2 | Plm (nw : nat) (es : Z -> esystem)
| Prim3 | Ppm (nw : nat) (es : Z -> esystem) | Koren.
(** The edge values each of them computes in every cell. *)
Definition ends (s : scheme) (W : slice) : edges :=
  match s with
  | FirstOrder => fun i n => (dc_r W i n, dc_l W (i + 1) n)
  | Prim2 => prim2_ends W
  | Plm nw es => plm_ends nw W es
  | Prim3 => prim3_ends W
  | Ppm nw es => ppm_ends nw W es
  | Koren => koren_ends W
  end.
(** Left and right state at the interface between cells i-1 and i. *)
Definition left_state (s : scheme) (W : slice) (i : Z) (n : nat) : R := vl_l (ends s W) i n.
Definition right_state (s : scheme) (W : slice) (i : Z) (n : nat) : R := vl_r (ends s W) i n.

(** [rem] and [lem] are inverse matrices of size nw: the left eigenvectors are
    normalised against the right ones and both sets are complete. *)
Definition complete (nw : nat) (e : esystem) : Prop :=
  forall m k, (m < nw)%nat -> (k < nw)%nat ->
    sum nw (fun n => rem e m n * lem e n k) = if Nat.eqb m k then 1 else 0.
