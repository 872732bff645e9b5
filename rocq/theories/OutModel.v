(** * Model of the output scheduler: src/output.c init_output (block selection) and data_output

    Times are real numbers.  What an output function writes is abstracted to an
    event carrying the block, the dump number and the time; a restart dump also
    carries what data_output has just stored in the parameter file. *)
From Coq Require Import Reals List Bool Arith.
From Verif Require Import CStr.
Import ListNotations.
Open Scope R_scope.

Definition MAXOUT_DEFAULT : nat := 10.         (* src/output.c:102 *)

(** The members of OutputS used by the scheduler (src/athena.h OutputS: n, t, dt, num). *)
Record outb := Ob { o_n : nat; o_t : R; o_dt : R; o_num : nat }.
(** OutArray[0..out_count-1]; rst_out when rst_flag. *)
Record outs := Outs { arr : list outb; rst : option outb }.

(** What the parameter file of a restart dump says about an output block. *)
Record saved := Sv { sv_n : nat; sv_num : nat; sv_t : R }.
Inductive oev :=
| Dump (n num : nat) (time : R)
| Restart (num : nat) (time : R) (blocks : list saved).

Definition due (time : R) (o : outb) : bool := if Rle_dec (o_t o) time then true else false.
Definition advance (o : outb) : outb := Ob (o_n o) (o_t o + o_dt o) (o_dt o) (o_num o).
Definition bump (o : outb) : outb := Ob (o_n o) (o_t o) (o_dt o) (S (o_num o)).

(** int dump_flag[MAXOUT_DEFAULT+1]: storing at index [i]. *)
Definition flag_ok (i : nat) : bool := (i <? MAXOUT_DEFAULT + 1)%nat.

(** src/output.c:494-500 first loop: returns the updated outputs and dump_flag[]. *)
Fixpoint mark (flag : bool) (time : R) (i : nat) (l : list outb) : res (list (outb * bool)) :=
  match l with
  | [] => Ok []
  | o :: l' =>
      if flag_ok i then
        r <- mark flag time (S i) l';;
        Ok ((if due time o then (advance o, true) else (o, flag)) :: r)
      else UB
  end.

(** src/output.c:513-527: the numbers and times put in the parameter file. *)
Definition save_one (x : outb * bool) : saved :=
  let '(o, f) := x in Sv (o_n o) (if f then S (o_num o) else o_num o) (o_t o).

(** src/output.c:504-537. *)
Definition restart_part (flag : bool) (time : R) (m : list (outb * bool)) (r : option outb)
  : res (option outb * list oev) :=
  match r with
  | None => Ok (None, [])
  | Some o =>
      if flag_ok (length m) then
        let '(o, f) := if due time o then (advance o, true) else (o, flag) in
        if f : bool then
          Ok (Some (bump o),
              [Restart (o_num o) time (map save_one m ++ [Sv (o_n o) (S (o_num o)) (o_t o)])])
        else Ok (Some o, [])
      else UB
  end.

(** src/output.c:541-557: third loop. *)
Fixpoint dumps (time : R) (m : list (outb * bool)) : list outb * list oev :=
  match m with
  | [] => ([], [])
  | (o, f) :: m' =>
      let '(l, e) := dumps time m' in
      if f : bool then (bump o :: l, Dump (o_n o) (o_num o) time :: e) else (o :: l, e)
  end.

(** src/output.c:481-560 data_output. *)
Definition data_output (flag : bool) (time : R) (s : outs) : res (outs * list oev) :=
  m <- mark flag time 0 (arr s);;
  '(r, e1) <- restart_part flag time m (rst s);;
  let '(l, e2) := dumps time m in
  Ok (Outs l r, e1 ++ e2).

(** A history of calls (time, flag), with the events of each call. *)
Fixpoint data_outputs (calls : list (R * bool)) (s : outs) : res (outs * list (list oev)) :=
  match calls with
  | [] => Ok (s, [])
  | (t, f) :: cs =>
      '(s1, e) <- data_output f t s;;
      '(s2, es) <- data_outputs cs s1;;
      Ok (s2, e :: es)
  end.

(** ** init_output (src/output.c:158-468), as far as the schedule is concerned.
    For each outn = 1..maxout the parameter file says what becomes of the block:
    ignored (continue), a restart output, or an entry of OutArray; [t], [dt] and
    [num] are those of the block, [t] defaulting to the current time and [num] to 0. *)
Inductive blockkind := Ignored | IsRst | IsOut.
Record blockpar := Bp { bp_kind : blockkind; bp_t : option R; bp_dt : R; bp_num : option nat }.
Definition mk_out (time : R) (outn : nat) (b : blockpar) : outb :=
  Ob outn (match bp_t b with Some t => t | None => time end) (bp_dt b)
     (match bp_num b with Some n => n | None => O end).
Fixpoint init_loop (time : R) (par : nat -> blockpar) (outn n : nat) (s : outs) : outs :=
  match n with
  | O => s
  | S n' =>
      let s' := match bp_kind (par outn) with
                | Ignored => s
                | IsRst => Outs (arr s) (Some (mk_out time outn (par outn)))
                | IsOut => Outs (arr s ++ [mk_out time outn (par outn)]) (rst s)
                end in
      init_loop time par (S outn) n' s'
  end.
Definition init_output (maxout : nat) (time : R) (par : nat -> blockpar) : outs :=
  init_loop time par 1 maxout (Outs [] None).

(** Resuming: the parameter file now holds what the restart dump stored, [rd] being
    what reading back the printed time gives; everything else is unchanged. *)
Definition find_saved (n : nat) (l : list saved) : option saved :=
  find (fun v => sv_n v =? n)%nat l.
Definition resumed_par (rd : R -> R) (par : nat -> blockpar) (l : list saved) : nat -> blockpar :=
  fun n => match find_saved n l with
           | Some v => Bp (bp_kind (par n)) (Some (rd (sv_t v))) (bp_dt (par n)) (Some (sv_num v))
           | None => par n
           end.
