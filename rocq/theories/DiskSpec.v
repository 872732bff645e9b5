(** * What a Poisson solver for a disk must deliver: periodic in the plane, open perpendicular to it *)
From Coq Require Import Reals ZArith.
From Verif Require Import IntegSpec GravSpec.
Open Scope R_scope.

(** The potential of parallel sheets in vacuum: sheet j attracts with a force that does not depend on the distance. *)
Definition sheets (G4 dx : R) (n : Z) (d : Z -> R) (i : Z) : R :=
  G4 / 2 * (dx * dx) * sumZ 0 (n - 1) (fun j => d j * Rabs (IZR (i - j))).

(** Horizontal wavenumber of mode (a,b), each component taken with the smallest absolute value. *)
Definition least (N a : Z) : Z := if (2 * a <? N)%Z then a else (a - N)%Z.
Definition wavenumber (dx1 dx2 : R) (N1 N2 a b : Z) : R :=
  sqrt ((2 * PI * IZR (least N1 a) / (IZR N1 * dx1)) * (2 * PI * IZR (least N1 a) / (IZR N1 * dx1)) +
        (2 * PI * IZR (least N2 b) / (IZR N2 * dx2)) * (2 * PI * IZR (least N2 b) / (IZR N2 * dx2))).
(** Amplitudes of mode (a,b) in a plane. *)
Definition mode_cos (N1 N2 : Z) (f : Z -> Z -> R) (a b : Z) : R :=
  total2 N1 N2 (fun i j => f i j * cos (2 * PI * (IZR (a * i) / IZR N1 + IZR (b * j) / IZR N2))).
Definition mode_sin (N1 N2 : Z) (f : Z -> Z -> R) (a b : Z) : R :=
  total2 N1 N2 (fun i j => f i j * sin (2 * PI * (IZR (a * i) / IZR N1 + IZR (b * j) / IZR N2))).
(** [g] is [rho] with every horizontal mode weakened by exp(-k L). *)
Definition damped (dx1 dx2 L : R) (N1 N2 N3 : Z) (rho g : Z -> Z -> Z -> R) : Prop :=
  forall a b c, in_domain N1 N2 N3 a b c ->
    let w := exp (- (wavenumber dx1 dx2 N1 N2 a b * L)) in
    mode_cos N1 N2 (fun i j => g i j c) a b = w * mode_cos N1 N2 (fun i j => rho i j c) a b /\
    mode_sin N1 N2 (fun i j => g i j c) a b = w * mode_sin N1 N2 (fun i j => rho i j c) a b.
(** The gas, and above it a negative image of the same thickness. *)
Definition imaged (N3 : Z) (rho g : Z -> Z -> Z -> R) (a b c : Z) : R :=
  if (c <? N3)%Z then rho a b c else - g a b (c - N3)%Z.
