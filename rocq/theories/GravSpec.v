(** * What a Poisson solver with periodic boundaries must deliver *)
From Coq Require Import Reals ZArith.
From Verif Require Import IntegSpec.
Open Scope R_scope.

(** Total over the N1 x N2 x N3 cells of the Domain. *)
Definition total3 (N1 N2 N3 : Z) (f : Z -> Z -> Z -> R) : R :=
  sumZ 0 (N1 - 1) (fun a => sumZ 0 (N2 - 1) (fun b => sumZ 0 (N3 - 1) (fun c => f a b c))).
Definition total2 (N1 N2 : Z) (f : Z -> Z -> R) : R := sumZ 0 (N1 - 1) (fun a => sumZ 0 (N2 - 1) (fun b => f a b)).
Definition in_domain (N1 N2 N3 a b c : Z) : Prop := (0 <= a < N1 /\ 0 <= b < N2 /\ 0 <= c < N3)%Z.

Definition periodic3 (N1 N2 N3 : Z) (P : Z -> Z -> Z -> R) : Prop :=
  forall a b c, P (a + N1)%Z b c = P a b c /\ P a (b + N2)%Z c = P a b c /\ P a b (c + N3)%Z = P a b c.
Definition periodic2 (N1 N2 : Z) (P : Z -> Z -> R) : Prop :=
  forall a b, P (a + N1)%Z b = P a b /\ P a (b + N2)%Z = P a b.
(** The seven-point and the five-point Laplacian. *)
Definition lap3 (dx1 dx2 dx3 : R) (P : Z -> Z -> Z -> R) (a b c : Z) : R :=
  (P (a + 1)%Z b c - 2 * P a b c + P (a - 1)%Z b c) / (dx1 * dx1) +
  (P a (b + 1)%Z c - 2 * P a b c + P a (b - 1)%Z c) / (dx2 * dx2) +
  (P a b (c + 1)%Z - 2 * P a b c + P a b (c - 1)%Z) / (dx3 * dx3).
Definition lap2 (dx1 dx2 : R) (P : Z -> Z -> R) (a b : Z) : R :=
  (P (a + 1)%Z b - 2 * P a b + P (a - 1)%Z b) / (dx1 * dx1) +
  (P a (b + 1)%Z - 2 * P a b + P a (b - 1)%Z) / (dx2 * dx2).

(** [P] is the potential of the density [rho]: periodic, mean zero, and its Laplacian is 4 PI G times the excess over the mean density. *)
Definition potential3 (G4 dx1 dx2 dx3 : R) (N1 N2 N3 : Z) (rho P : Z -> Z -> Z -> R) : Prop :=
  periodic3 N1 N2 N3 P /\ total3 N1 N2 N3 P = 0 /\
  forall a b c, in_domain N1 N2 N3 a b c ->
    lap3 dx1 dx2 dx3 P a b c = G4 * (rho a b c - total3 N1 N2 N3 rho / IZR (N1 * N2 * N3)).
Definition potential2 (G4 dx1 dx2 : R) (N1 N2 : Z) (rho P : Z -> Z -> R) : Prop :=
  periodic2 N1 N2 P /\ total2 N1 N2 P = 0 /\
  forall a b, (0 <= a < N1)%Z -> (0 <= b < N2)%Z ->
    lap2 dx1 dx2 P a b = G4 * (rho a b - total2 N1 N2 rho / IZR (N1 * N2)).
(** One dimension: cell i of 0 .. n-1, its neighbours modulo n. *)
Definition potential1 (G4 dx : R) (n : nat) (rho P : nat -> R) : Prop :=
  sum_f_R0 P (n - 1) = 0 /\
  forall i, (i < n)%nat ->
    (P ((i + 1) mod n)%nat - 2 * P i + P ((i + n - 1) mod n)%nat) / (dx * dx) = G4 * (rho i - sum_f_R0 rho (n - 1) / INR n).
