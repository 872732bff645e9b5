(** * Statistics of all particles of a run *)
From Coq Require Import ZArith Bool Reals List.
From Verif Require Import MeshModel GasModel PartModel PBinSpec PHistModel.
Import ListNotations.
Open Scope R_scope.

(** All particles and cells of the run, on whatever process. *)
Definition all_parts (P : list proc) : list grain := flat_map pr_parts P.
Definition all_cells (P : list proc) : list pcell := flat_map pr_cells P.
(** Particles that are not copies in ghost zones; those of one kind. *)
Definition real_parts (P : list proc) : list grain := filter (fun g => (g_pos g =? 1)%Z) (all_parts P).
Definition of_kind (t : Z) (P : list proc) : list grain := filter (fun g => (g_type g =? t)%Z) (real_parts P).
Definition amount (l : list grain) : R := INR (length l).
Definition mean_of (l : list grain) (f : grain -> R) : R := psum l f / amount l.
(** Variance of a sample, with n - 1. *)
Definition variance (l : list grain) (f : grain -> R) : R := psum l (fun g => (f g - mean_of l f) ^ 2) / (amount l - 1).
(** Largest value, if positive. *)
Definition largest (l : list pcell) (f : pcell -> R) (m : R) : Prop := 0 <= m /\ (forall c, In c l -> f c <= m) /\ (m = 0 \/ exists c, In c l /\ f c = m).
Definition kinetic (v : R) (mass : R) : R := mass * v ^ 2 / 2.
(** What the row of a kind is about: three coordinates, then three velocities. *)
Definition place_and_velocity : list (grain -> R) :=
  [ (fun g => q1 (g_x g)); (fun g => q2 (g_x g)); (fun g => q3 (g_x g)); (fun g => q1 (g_v g)); (fun g => q2 (g_v g)); (fun g => q3 (g_v g)) ].
