(** * Model of src/ath_log.c: the output and error logs

    The file-scope variables are a record; the effects on files are a list of
    events.  What fopen and stat return is an input of each call ([avail]: the
    file can be opened; [exists_]: it is there already).  The text of a message is
    abstracted to a string that vfprintf writes completely. *)
From Coq Require Import String Ascii ZArith Bool List.
From Verif Require Import CStr.
Import ListNotations.
Set Implicit Arguments.

Inductive dest := Stdout | Stderr | File (name : str).
Inductive ev :=
| EvOpen (name : str) (append ok : bool)       (* fopen *)
| EvWrite (d : dest) (txt : str)               (* a message *)
| EvNote (d : dest)                            (* text written by ath_log.c itself *)
| EvClose (d : dest).

(** Answers of the file system for one call. *)
Record fs := Fs { av_out : bool; ex_out : bool; av_err : bool; ex_err : bool }.

(** src/ath_log.c:43-57: the static variables. *)
Record log := Log {
  out_level : Z; err_level : Z;
  fp_out : option str; fp_err : option str;         (* open file, by name *)
  out_fname : option str; err_fname : option str;
  open_out_flag : bool; open_err_flag : bool;
  mode_a : bool }.                                  (* log_mode[0] == 'a' *)
Definition init_log : log := Log 0 0 None None None None false false false.

(** src/ath_log.c:64-87 ath_log_out_open; the second result is the return value. *)
Definition ath_log_out_open (w : fs) (s : log) : res (log * bool * list ev) :=
  let s := Log (out_level s) (err_level s) (fp_out s) (fp_err s) (out_fname s) (err_fname s)
               false (open_err_flag s) (mode_a s) in
  match out_fname s with
  | None => UB
  | Some f =>
      if av_out w then
        Ok (Log (out_level s) (err_level s) (Some f) (fp_err s) (out_fname s) (err_fname s)
                (open_out_flag s) (open_err_flag s) (mode_a s), false,
            EvOpen f (mode_a s) true :: if mode_a s && ex_out w then [EvNote (File f)] else [])
      else
        Ok (Log (out_level s) (err_level s) None (fp_err s) (out_fname s) (err_fname s)
                (open_out_flag s) (open_err_flag s) (mode_a s), true,
            [EvOpen f (mode_a s) false; EvNote Stderr])
  end.
(** src/ath_log.c:93-116 ath_log_err_open. *)
Definition ath_log_err_open (w : fs) (s : log) : res (log * bool * list ev) :=
  let s := Log (out_level s) (err_level s) (fp_out s) (fp_err s) (out_fname s) (err_fname s)
               (open_out_flag s) false (mode_a s) in
  match err_fname s with
  | None => UB
  | Some f =>
      if av_err w then
        Ok (Log (out_level s) (err_level s) (fp_out s) (Some f) (out_fname s) (err_fname s)
                (open_out_flag s) (open_err_flag s) (mode_a s), false,
            EvOpen f (mode_a s) true :: if mode_a s && ex_err w then [EvNote (File f)] else [])
      else
        Ok (Log (out_level s) (err_level s) (fp_out s) None (out_fname s) (err_fname s)
                (open_out_flag s) (open_err_flag s) (mode_a s), true,
            [EvOpen f (mode_a s) false; EvNote Stderr])
  end.

(** src/ath_log.c:125-131 ath_log_set_level. *)
Definition ath_log_set_level (out err : Z) (s : log) : log :=
  Log out err (fp_out s) (fp_err s) (out_fname s) (err_fname s)
      (open_out_flag s) (open_err_flag s) (mode_a s).

(** src/ath_log.c:145-177 ath_log_open; exit(EXIT_FAILURE) is [Fatal]. *)
Definition ath_log_open (w : fs) (basename : str) (lazy : bool) (mode : ascii) (s : log)
  : res (log * list ev) :=
  let s := Log (out_level s) (err_level s) (fp_out s) (fp_err s)
               (Some (basename ++ S_ ".out")) (Some (basename ++ S_ ".err"))
               true true (Ascii.eqb mode "a"%char) in
  if lazy then Ok (s, [])
  else
    '(s, bad, e1) <- ath_log_out_open w s;;
    if bad : bool then Fatal else
    '(s, bad, e2) <- ath_log_err_open w s;;
    if bad : bool then Fatal else Ok (s, e1 ++ e2).

(** src/ath_log.c:183-197 ath_log_close. *)
Definition close_ev (o : option str) : list ev :=
  match o with Some f => [EvClose (File f)] | None => [] end.
Definition ath_log_close (s : log) : log * list ev :=
  (Log (out_level s) (err_level s) None None None None false false (mode_a s),
   close_ev (fp_out s) ++ close_ev (fp_err s)).

(** src/ath_log.c:265-286 ath_perr. *)
Definition ath_perr (w : fs) (level : Z) (msg : str) (s : log) : res (log * list ev) :=
  if (level <=? err_level s)%Z then
    '(s, e) <- (if open_err_flag s then '(s, _, e) <- ath_log_err_open w s;; Ok (s, e) else Ok (s, []));;
    let fp := match fp_err s with None => Stderr | Some f => File f end in
    Ok (s, e ++ [EvWrite fp msg])
  else Ok (s, []).
(** src/ath_log.c:297-318 ath_pout. *)
Definition ath_pout (w : fs) (level : Z) (msg : str) (s : log) : res (log * list ev) :=
  if (level <=? out_level s)%Z then
    '(s, e) <- (if open_out_flag s then '(s, _, e) <- ath_log_out_open w s;; Ok (s, e) else Ok (s, []));;
    let fp := match fp_out s with None => Stdout | Some f => File f end in
    Ok (s, e ++ [EvWrite fp msg])
  else Ok (s, []).

(** A history of calls.  (athout_fp/atherr_fp and the flush functions open or flush
    the same way and write nothing.) *)
Inductive call :=
| CSetLevel (out err : Z)
| COpen (w : fs) (basename : str) (lazy : bool) (mode : ascii)
| CClose
| CPerr (w : fs) (level : Z) (msg : str)
| CPout (w : fs) (level : Z) (msg : str).
Definition do_call (s : log) (c : call) : res (log * list ev) :=
  match c with
  | CSetLevel o e => Ok (ath_log_set_level o e s, [])
  | COpen w b l m => ath_log_open w b l m s
  | CClose => Ok (ath_log_close s)
  | CPerr w l m => ath_perr w l m s
  | CPout w l m => ath_pout w l m s
  end.
Fixpoint do_calls (s : log) (cs : list call) : res (log * list ev) :=
  match cs with
  | [] => Ok (s, [])
  | c :: r => '(s1, e1) <- do_call s c;; '(s2, e2) <- do_calls s1 r;; Ok (s2, e1 ++ e2)
  end.
