(** * Vocabulary for distributions and statistics *)
From Coq Require Import ZArith List Bool Arith Reals.
From Verif Require Import PdfModel SumFacts.
Import ListNotations.
Open Scope R_scope.

Definition is_min (X : list R) (m : R) : Prop := In m X /\ forall x, In x X -> m <= x.
Definition is_max (X : list R) (m : R) : Prop := In m X /\ forall x, In x X -> x <= m.
Definition average (X : list R) : R := lsum X (fun x => x) / INR (length X).
(** Central moments: sum of (x - mean)^p *)
Definition central (X : list R) (p : nat) : R := lsum X (fun x => (x - average X) ^ p).
(** Unbiased variance. *)
Definition variance (X : list R) : R := central X 2 / (INR (length X) - 1).
(** Number of values in bin [n] of [nb] bins of width [w] from [a]; the last bin is closed. *)
Definition in_bin (a w : R) (nb n : nat) (x : R) : bool :=
  (if Rle_dec (a + INR n * w) x then true else false) &&
  ((if Rlt_dec x (a + (INR n + 1) * w) then true else false) || (S n =? nb)%nat).
Definition count (a w : R) (nb n : nat) (X : list R) : R := INR (length (filter (in_bin a w nb n) X)).
(** The values of a Domain, Grid after Grid. *)
Definition values (members : list (nat * list R)) : list R := flat_map snd members.
(** What the processes keep between calls fits this Domain: nothing yet, or arrays of its sizes. *)
Definition ready (members : list (nat * list R)) (stats : nat -> pstat) : Prop :=
  forall p v, In (p, v) members -> stats p = stat0 \/
    p_dat (stats p) = Some (length v) /\ p_size (stats p) = Z.sqrt (Z.of_nat (length (values members))).
