(** * Vocabulary for images and the extremes reported *)
From Coq Require Import ZArith Reals List.
Import ListNotations.
Open Scope R_scope.

(** The gray value of a number [x] on the scale from [lo] to [hi]: 0 and 255 at and beyond the ends, and
    the number of whole 256ths of the scale (made longer by one part in 2^23) in between. *)
Definition shade (lo hi x : R) (g : Z) : Prop :=
  (0 <= g <= 255)%Z /\ (x <= lo -> g = 0%Z) /\ (hi <= x -> g = 255%Z) /\
  (lo <= x <= hi -> IZR g <= 256 * ((x - lo) / ((hi - lo) * (1 + / 2 ^ 23))) < IZR g + 1).
(** The byte of a colour component p of the palette (0: dark, 1: full). *)
Definition byte_of (p : R) (v : Z) : Prop := (0 <= v <= 255)%Z /\ IZR v <= 255 * p < IZR v + 1.
(** A palette: components between 0 and 1. *)
Definition palette (rgb : Z -> R) : Prop := forall n, (0 <= n < 768)%Z -> 0 <= rgb n <= 1.
(** Component c of the colour at position 0 <= x <= 255 of the palette, linearly between the entries. *)
Definition between_entries (rgb : Z -> R) (x : R) (c : Z) (p : R) : Prop :=
  exists i, (0 <= i <= 255)%Z /\ IZR i <= x < IZR i + 1 /\ p = rgb (3 * i + c)%Z + (x - IZR i) * (rgb (3 * (i + 1) + c)%Z - rgb (3 * i + c)%Z).
Definition colour (rgb : Z -> R) (lo hi x : R) (v : Z) (c : Z) : Prop :=
  let t := 255 * ((x - lo) / (hi - lo)) in
  (t <= 0 -> byte_of (rgb c) v) /\ (255 <= t -> byte_of (rgb (765 + c)%Z) v) /\
  (0 < t < 255 -> exists p, between_entries rgb t c p /\ byte_of p v).
(** The place of cell (j,i) in an image of nx1 columns whose first row is the uppermost. *)
Definition place (nx1 nx2 j i : Z) : nat := Z.to_nat ((nx2 - 1 - j) * nx1 + i).
(** The smallest of the minima and the largest of the maxima of all data put out. *)
Definition are_extremes (l : list (R * R)) (g : R * R) : Prop :=
  (exists d, In d l /\ fst g = fst d) /\ (forall d, In d l -> fst g <= fst d) /\
  (exists d, In d l /\ snd g = snd d) /\ (forall d, In d l -> snd d <= snd g).
