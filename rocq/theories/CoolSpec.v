(** * What cooling does to the gas of a cell *)
From Coq Require Import Reals.
From Verif Require Import GasModel CoolModel.
Open Scope R_scope.

Section Spec.
Variables Gamma_1 unitT unitC : R.
Variable mhd : bool.
Variable heat : R.

Definition kinetic (U : cons) : R := (cM1 U ^ 2 + cM2 U ^ 2 + cM3 U ^ 2) / (2 * cd U).
Definition magnetic (U : cons) : R := if mhd then (cB1 U ^ 2 + cB2 U ^ 2 + cB3 U ^ 2) / 2 else 0.
Definition temperature (U : cons) : R := unitT * (Gamma_1 * (cE U - kinetic U - magnetic U) / cd U).
(** Nothing is colder than 10 K. *)
Definition floored (U : cons) : R := Rmax (temperature U) 10.

(** The time in which the gas would radiate its heat. *)
Definition cooling_time (U : cons) (t : R) : Prop := exists L, Lam (floored U) = Some L /\ t * (cd U * L * unitC) = floored U.

(** [T] is the implicit (backward Euler) solution of dT/dt = - unitC (n Lam(T) - heat)
    after the time [dt], up to the last step of Newton's method, which is below 1 per cent. *)
Definition implicit (dt n T0 T : R) : Prop :=
  exists T1 L D, Lam T1 = Some L /\ dLam T1 = Some D /\
    (T - T1) * (1 + dt * unitC * n * D) = - (T1 - T0 + dt * unitC * (n * L - heat)) /\
    Rabs (T - T1) < Rabs T / 100.

Definition cooled (dt : R) (U U' : cons) : Prop :=
  cd U' = cd U /\ cM1 U' = cM1 U /\ cM2 U' = cM2 U /\ cM3 U' = cM3 U /\
  cB1 U' = cB1 U /\ cB2 U' = cB2 U /\ cB3 U' = cB3 U /\ cs U' = cs U /\
  exists T, implicit dt (cd U) (floored U) T /\ Rabs (T - floored U) <= floored U / 10 /\ temperature U' = Rmax T 10.
End Spec.
