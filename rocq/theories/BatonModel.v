(** * Model of src/baton.c: regulating the number of active processes

    [N] MPI ranks each execute [K] times
      baton_start(Nb,tag); ...regulated section...; baton_stop(Nb,tag);
    interleaved arbitrarily.  MPI_Send may return once the message is buffered or
    only when it has been received: both are steps of the model, and progress is
    proved without using the buffered one.  Messages between one pair of ranks
    with one tag do not overtake, and carry no data, so the channel r -> r+Nb is
    the pair of counters (sent by r, received by r+Nb).  [Nb] is a non-negative
    number here (Nb <= 0 disables the scheme: [Nb = 0]). *)
From Coq Require Import Arith Bool List.
Import ListNotations.

Inductive phase := Idle | Inside | Sending.
Record bst := BSt {
  ph : nat -> phase;       (* where the rank is *)
  rnd : nat -> nat;        (* how often it has completed baton_stop *)
  sent : nat -> nat;       (* messages sent by the rank to rank + Nb *)
  got : nat -> nat }.      (* messages received by the rank from rank - Nb *)
Definition b_init : bst := BSt (fun _ => Idle) (fun _ => 0) (fun _ => 0) (fun _ => 0).

Definition upd {A} (f : nat -> A) (i : nat) (x : A) : nat -> A :=
  fun j => if j =? i then x else f j.

(** Rank [r] waits in baton_start: src/baton.c:54-62 [Nb > 0 && fr_id >= 0]. *)
Definition waits (Nb r : nat) : bool := (0 <? Nb) && (Nb <=? r).
(** Rank [r] signals in baton_stop: src/baton.c:88-96 [Nb > 0 && to_id < nproc]. *)
Definition signals (N Nb r : nat) : bool := (0 <? Nb) && (r + Nb <? N).

Inductive bstep (N Nb K : nat) : bst -> bst -> Prop :=
| b_start : forall s r, r < N -> ph s r = Idle -> rnd s r < K -> waits Nb r = false ->
    bstep N Nb K s (BSt (upd (ph s) r Inside) (rnd s) (sent s) (got s))
| b_start_recv : forall s r, r < N -> ph s r = Idle -> rnd s r < K -> waits Nb r = true ->
    got s r < sent s (r - Nb) ->
    bstep N Nb K s (BSt (upd (ph s) r Inside) (rnd s) (sent s) (upd (got s) r (S (got s r))))
| b_stop : forall s r, r < N -> ph s r = Inside -> signals N Nb r = false ->
    bstep N Nb K s (BSt (upd (ph s) r Idle) (upd (rnd s) r (S (rnd s r))) (sent s) (got s))
| b_stop_send : forall s r, r < N -> ph s r = Inside -> signals N Nb r = true ->
    bstep N Nb K s (BSt (upd (ph s) r Sending) (rnd s) (upd (sent s) r (S (sent s r))) (got s))
| b_send_matched : forall s r, r < N -> ph s r = Sending -> got s (r + Nb) = sent s r ->
    bstep N Nb K s (BSt (upd (ph s) r Idle) (upd (rnd s) r (S (rnd s r))) (sent s) (got s))
| b_send_buffered : forall s r, r < N -> ph s r = Sending ->
    bstep N Nb K s (BSt (upd (ph s) r Idle) (upd (rnd s) r (S (rnd s r))) (sent s) (got s)).

(** The steps that need no buffering of messages. *)
Inductive bstep_sync (N Nb K : nat) : bst -> bst -> Prop :=
| s_start : forall s r, r < N -> ph s r = Idle -> rnd s r < K -> waits Nb r = false ->
    bstep_sync N Nb K s (BSt (upd (ph s) r Inside) (rnd s) (sent s) (got s))
| s_start_recv : forall s r, r < N -> ph s r = Idle -> rnd s r < K -> waits Nb r = true ->
    got s r < sent s (r - Nb) ->
    bstep_sync N Nb K s (BSt (upd (ph s) r Inside) (rnd s) (sent s) (upd (got s) r (S (got s r))))
| s_stop : forall s r, r < N -> ph s r = Inside -> signals N Nb r = false ->
    bstep_sync N Nb K s (BSt (upd (ph s) r Idle) (upd (rnd s) r (S (rnd s r))) (sent s) (got s))
| s_stop_send : forall s r, r < N -> ph s r = Inside -> signals N Nb r = true ->
    bstep_sync N Nb K s (BSt (upd (ph s) r Sending) (rnd s) (upd (sent s) r (S (sent s r))) (got s))
| s_send_matched : forall s r, r < N -> ph s r = Sending -> got s (r + Nb) = sent s r ->
    bstep_sync N Nb K s (BSt (upd (ph s) r Idle) (upd (rnd s) r (S (rnd s r))) (sent s) (got s)).

(** Executions of [n] steps from the initial state. *)
Inductive bexec (N Nb K : nat) : nat -> bst -> Prop :=
| bx0 : bexec N Nb K 0 b_init
| bxS : forall n s s', bexec N Nb K n s -> bstep N Nb K s s' -> bexec N Nb K (S n) s'.
