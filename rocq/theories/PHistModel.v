(** * The history of the particles: src/particles/dump_particle_history.c

    Over the reals.  The run is the list of its processes (one without MPI); the reductions of MPI are sums and maxima over that
    list.  Of a process: the particles of its Grid, and of each active cell the binned density (C108), the stiffness and the
    energy loss.  Left out: the text of the file, allocation, and kinds outside 0 .. npartypes-1. *)
From Coq Require Import ZArith Bool Reals List.
From Verif Require Import CStr MeshModel GasModel PartModel.
Import ListNotations.
Open Scope R_scope.

(** dump_particle_history.c:145-148 *)
Record pcell := PCell { pc_d : R; pc_stiff : R; pc_loss : R }.
(** dump_particle_history.c:132-133: the Grid of a process. *)
Record proc := Proc { pr_cells : list pcell; pr_parts : list grain }.

(** dump_particle_history.c:119-150: scal[1], scal[2], both 0 at first. *)
Definition local_max (f : pcell -> R) (p : proc) : R := fold_left (fun s c => MAX s (f c)) (pr_cells p) 0.
(** dump_particle_history.c:148 *)
Definition local_loss (p : proc) : R := fold_left (fun s c => s + pc_loss c) (pr_cells p) 0.
(** dump_particle_history.c:152-183, 218-233 and 264-283: sum over the grid particles. *)
Definition local_sum (ok : grain -> bool) (f : grain -> R) (p : proc) : R :=
  fold_left (fun s g => if (g_pos g =? 1)%Z && ok g then s + f g else s) (pr_parts p) 0.
(** dump_particle_history.c:219-233: npar[prp] += 1 *)
Definition local_count (ok : grain -> bool) (p : proc) : Z :=
  fold_left (fun n g => if (g_pos g =? 1)%Z && ok g then (n + 1)%Z else n) (pr_parts p) 0%Z.
(** dump_particle_history.c:189-192, 246-249, 293-294: MPI_Reduce and MPI_Allreduce with MPI_MAX, MPI_SUM. *)
Definition reduce_max (l : list R) : R := match l with [] => 0 | x :: l => fold_left MAX l x end.
Definition reduce_sum (l : list R) : R := fold_left Rplus l 0.
Definition reduce_count (l : list Z) : Z := fold_left Z.add l 0%Z.

(** dump_particle_history.c:157-181; [drho] is grproperty[].m with FEEDBACK and 1 without; [user] are the functions enrolled with set = 0. *)
Definition columns (drho : Z -> R) (user : list (grain -> R)) : list (grain -> R) :=
  [ (fun g => drho (g_type g)); (fun g => drho (g_type g) * q1 (g_v g)); (fun g => drho (g_type g) * q2 (g_v g)); (fun g => drho (g_type g) * q3 (g_v g));
    (fun g => 1/2 * drho (g_type g) * SQR (q1 (g_v g))); (fun g => 1/2 * drho (g_type g) * SQR (q2 (g_v g))); (fun g => 1/2 * drho (g_type g) * SQR (q3 (g_v g))) ] ++ user.
(** dump_particle_history.c:196: a product of ints. *)
Definition int_mul (a b : Z) : res Z := let z := (a * b)%Z in if ((- 2 ^ 31 <=? z) && (z <? 2 ^ 31))%Z then Ok z else UB.
(** dump_particle_history.c:196: vol_rat is long, but the product is computed in int. *)
Definition vol_rat (Nx : axis -> Z) : res Z := a <- int_mul (Nx X1) (Nx X2);; int_mul a (Nx X3).
(** dump_particle_history.c:116-204: the row of scalars; [fbk] is FEEDBACK. *)
Definition scalars (fbk : bool) (drho : Z -> R) (user : list (grain -> R)) (time : R) (Nx : axis -> Z) (P : list proc) : res (list R) :=
  let dmax := reduce_max (map (local_max pc_d) P) in
  let stiff := if fbk then reduce_max (map (local_max pc_stiff) P) else 0 in
  let edot := if fbk then reduce_sum (map local_loss P) else 0 in
  let sums := map (fun c => reduce_sum (map (local_sum (fun _ => true) c) P)) (columns drho user) in
  v <- vol_rat Nx;;
  let dvol := 1 / IZR v in
  Ok (time :: dmax :: stiff :: map (fun s => s * dvol) (edot :: sums)).

(** The six coordinates of dump_particle_history.c:226-231. *)
Definition coords : list (grain -> R) :=
  [ (fun g => q1 (g_x g)); (fun g => q2 (g_x g)); (fun g => q3 (g_x g)); (fun g => q1 (g_v g)); (fun g => q2 (g_v g)); (fun g => q3 (g_v g)) ].
Section Kind.
Variables (t : Z) (P : list proc).
(** dump_particle_history.c:225, 246 *)
Definition npar : Z := reduce_count (map (local_count (fun g => (g_type g =? t)%Z)) P).
(** dump_particle_history.c:259-262 *)
Definition average (f : grain -> R) : R := reduce_sum (map (local_sum (fun g => (g_type g =? t)%Z) f) P) / IZR (Z.max 1 npar).
(** dump_particle_history.c:271-276, 311-312 *)
Definition scatter (f : grain -> R) : R :=
  sqrt (reduce_sum (map (local_sum (fun g => (g_type g =? t)%Z) (fun g => SQR (f g - average f))) P) / IZR (Z.max 1 (npar - 1))).
(** The row of kind [t]; [user] are the functions enrolled with set = 1 (dump_particle_history.c:278-281, 314-315). *)
Definition kind_row (user : list (grain -> R)) : list R := map average coords ++ map scatter coords ++ map average user.
End Kind.

(** dump_particle_history.c:431-464: dump_parhistory_enroll; the tables of functions for the two kinds of row, MAX_USR_SCAL = MAX_USR_ARAY = 10.
    Labels, stored at the same places, are left out. *)
Definition enroll (tab : list (grain -> R) * list (grain -> R)) (f : grain -> R) (set : Z) : res (list (grain -> R) * list (grain -> R)) :=
  if (set =? 0)%Z then (if (10 <=? length (fst tab))%nat then Fatal else Ok (fst tab ++ [f], snd tab))
  else (if (10 <=? length (snd tab))%nat then Fatal else Ok (fst tab, snd tab ++ [f])).
(** The calls a problem file makes, in order, from empty tables (dump_particle_history.c:74-78). *)
Fixpoint enroll_all (tab : list (grain -> R) * list (grain -> R)) (calls : list ((grain -> R) * Z)) : res (list (grain -> R) * list (grain -> R)) :=
  match calls with [] => Ok tab | (f, set) :: calls => tab <- enroll tab f set;; enroll_all tab calls end.
