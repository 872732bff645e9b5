(** * What the random number generator is made of *)
From Coq Require Import Reals ZArith List.
Open Scope Z_scope.

(** The two multiplicative congruential generators, started with [s]. *)
Definition first_gen (s : Z) (n : nat) : Z := (s * 40014 ^ Z.of_nat n) mod 2147483563.
Definition second_gen (s : Z) (n : nat) : Z := (s * 40692 ^ Z.of_nat n) mod 2147483399.

(** Their difference modulo 2147483562, as a fraction strictly between 0 and 1. *)
Definition deviate (a b : Z) : R := (IZR (1 + (a - b - 1) mod 2147483562) / 2147483563)%R.

(** The numbers [l] are made from the first generator in some order, no element of it
    used twice and none before it was generated, and the second generator in order. *)
Definition shuffled (s : Z) (l : list R) : Prop :=
  exists ms : list nat, length ms = length l /\ NoDup ms /\
    forall t, (t < length l)%nat -> (9 <= nth t ms 0 <= 40 + t)%nat /\
      nth t l 0%R = deviate (first_gen s (nth t ms 0%nat)) (second_gen s (S t)).
