(** * Model of src/ath_signal.c and of its use by the main loop (src/main.c)

    [N] MPI processes run the main loop in parallel; each cycle calls ath_sig_act
    once.  The operating system may deliver SIGTERM to any process between any two
    of the steps below.  MPI_Allreduce returns on a process only when every process
    has contributed to the same (k-th) call.  The loop condition
    [Mesh.time < tlim && (nlim < 0 || Mesh.nstep < nlim)] depends only on data that
    is the same on all processes (the common time step, C21), and is represented by
    a common number [L] of cycles.  In the serial program N = 1 and the reduction
    is the identity. *)
From Coq Require Import Arith Bool List.
Import ListNotations.

Inductive spc :=
| Top                    (* in the loop body, before ath_sig_act *)
| Tested (b : bool)      (* "sig_caught > *piquit" has been evaluated *)
| Posted                 (* contribution handed to MPI_Allreduce *)
| Got                    (* reduction result stored in *piquit, sig_caught not yet reset *)
| Stopped.               (* left the loop: ath_sig_act returned non-zero *)

Record sst := SSt {
  spc_of : nat -> spc;
  calls : nat -> nat;              (* completed calls of ath_sig_act *)
  caught : nat -> nat;             (* sig_caught, src/ath_signal.c:26 *)
  iquit : nat -> nat;              (* main's iquit, src/main.c:104 *)
  posted : nat -> nat;             (* number of contributions made *)
  contrib : nat -> nat -> nat;     (* contribution of a process to its k-th call *)
  ret : nat -> nat -> nat }.       (* value returned by the k-th call *)
Definition s_init : sst :=
  SSt (fun _ => Top) (fun _ => 0) (fun _ => 0) (fun _ => 0) (fun _ => 0) (fun _ _ => 0) (fun _ _ => 0).

Definition supd {A} (f : nat -> A) (i : nat) (x : A) : nat -> A :=
  fun j => if j =? i then x else f j.
Definition supd2 {A} (f : nat -> nat -> A) (i k : nat) (x : A) : nat -> nat -> A :=
  fun j m => if (j =? i) && (m =? k) then x else f j m.

Definition SIGTERM : nat := 15.
Definition WALLQUIT : nat := 103.      (* src/main.c:631 *)

(** MPI_Allreduce(..., MPI_MAX, ...) over ranks 0..N-1. *)
Fixpoint maxf (N : nat) (f : nat -> nat) : nat :=
  match N with O => 0 | S n => Nat.max (f n) (maxf n f) end.

Inductive sstep (N L : nat) : sst -> sst -> Prop :=
(* handler(), src/ath_signal.c:76-80: at any moment *)
| st_signal : forall s r, r < N ->
    sstep N L s (SSt (spc_of s) (calls s) (supd (caught s) r SIGTERM) (iquit s) (posted s) (contrib s) (ret s))
(* src/main.c:629-632: wall-time limit reached on this process *)
| st_wall : forall s r, r < N -> spc_of s r = Top -> calls s r < L ->
    sstep N L s (SSt (spc_of s) (calls s) (caught s) (supd (iquit s) r WALLQUIT) (posted s) (contrib s) (ret s))
(* src/ath_signal.c:52: first read of the volatile sig_caught *)
| st_test : forall s r, r < N -> spc_of s r = Top -> calls s r < L ->
    sstep N L s (SSt (supd (spc_of s) r (Tested (iquit s r <? caught s r))) (calls s) (caught s) (iquit s)
                     (posted s) (contrib s) (ret s))
(* src/ath_signal.c:52-54: second read, contribution *)
| st_post : forall s r b, r < N -> spc_of s r = Tested b ->
    sstep N L s (SSt (supd (spc_of s) r Posted) (calls s) (caught s) (iquit s)
                     (supd (posted s) r (S (posted s r)))
                     (supd2 (contrib s) r (posted s r) (if b then caught s r else iquit s r)) (ret s))
(* src/ath_signal.c:54: the reduction is complete *)
| st_recv : forall s r, r < N -> spc_of s r = Posted -> (forall q, q < N -> calls s r < posted s q) ->
    sstep N L s (SSt (supd (spc_of s) r Got) (calls s) (caught s)
                     (supd (iquit s) r (maxf N (fun q => contrib s q (calls s r))))
                     (posted s) (contrib s) (ret s))
(* src/ath_signal.c:62-67 (message, reset, return) and src/main.c:634 *)
| st_return : forall s r, r < N -> spc_of s r = Got ->
    sstep N L s (SSt (supd (spc_of s) r (if iquit s r =? 0 then Top else Stopped))
                     (supd (calls s) r (S (calls s r))) (supd (caught s) r 0) (iquit s)
                     (posted s) (contrib s) (supd2 (ret s) r (calls s r) (iquit s r))).

Inductive sruns (N L : nat) : sst -> sst -> Prop :=
| sr0 : forall s, sruns N L s s
| srS : forall s s' s'', sruns N L s s' -> sstep N L s' s'' -> sruns N L s s''.
