(** * Specification vocabulary for the integrators *)
From Coq Require Import Reals ZArith List Lia Lra.
From Verif Require Import GasModel IntegModel.
Open Scope R_scope.

(** f l + f (l+1) + ... + f u (0 if u < l) *)
Definition sumZ (l u : Z) (f : Z -> R) : R :=
  fold_right Rplus 0 (map (fun n => f (l + Z.of_nat n)%Z) (seq 0 (Z.to_nat (u - l + 1)))).

(** The densities of the quantities that have a conservation law. *)
Inductive quantity := Mass | Mom1 | Mom2 | Mom3 | Energy | Fld1 | Fld2 | Fld3 | Scal (n : nat).
Definition density (q : quantity) (u : cons) : R :=
  match q with
  | Mass => cd u | Mom1 => cM1 u | Mom2 => cM2 u | Mom3 => cM3 u | Energy => cE u
  | Fld1 => cB1 u | Fld2 => cB2 u | Fld3 => cB3 u | Scal n => nth n (cs u) 0
  end.

(** What is assumed of the reconstruction: the states at an interface depend on
    the three cells on either side of it, in the same way at every interface.
    ReconLocal.v proves this of every scheme in src/reconstruction. *)
Definition nearby (lr : R -> R -> (Z -> prim1 * R) -> Z -> prim1 * prim1) : Prop :=
  forall dt dx A A' i i',
    (forall d, (-3 <= d <= 2)%Z -> A' (i' + d)%Z = A (i + d)%Z) -> lr dt dx A' i' = lr dt dx A i.
