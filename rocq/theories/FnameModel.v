(** * Model of src/ath_files.c (ath_fname) and of the loops that use it

    ath_fname allocates [size] bytes and then only ever writes at its end pointer
    cp, moving it forward.  The buffer is therefore represented by the bytes
    before cp; every write checks that what it writes, including the NUL, ends
    inside the allocation, and is [UB] otherwise. *)
From Coq Require Import String Ascii NArith ZArith Bool Arith List.
From Verif Require Import CStr.
Import ListNotations.
Set Implicit Arguments.

Definition chDASH : ascii := "-"%char.
Definition chDOT : ascii := "."%char.

(** NULL is [None]; adds [k + strlen] when the pointer is not NULL. *)
Definition opt_len (k : nat) (o : option str) : nat :=
  match o with None => 0 | Some s => k + length s end.

(** src/ath_files.c:54-60: the number of bytes allocated. *)
Definition fname_size (path : option str) (basename : str) (levstr domstr : option str)
  (dlen : Z) (id : option str) (ext : str) : nat :=
  2 + length basename + length ext + opt_len 1 path + opt_len 1 levstr + opt_len 1 domstr +
  (if (0 <? dlen)%Z then Z.to_nat (if (10 <? dlen)%Z then dlen else 10) + 1 else 0) +
  opt_len 1 id.

(** Append [s] and a NUL at cp, inside a buffer of [size] bytes. *)
Definition put (size : nat) (buf s : str) : res str :=
  if length buf + length s + 1 <=? size then Ok (buf ++ s) else UB.

(** Append an optional component preceded by '-': src/ath_files.c:92-99, 103-110
    (the two stores cp[0]='-', cp[1]=NUL, then strcpy). *)
Definition put_dash (size : nat) (buf : str) (o : option str) : res str :=
  match o with
  | None => Ok buf
  | Some s => b <- put size buf [chDASH];; put size b s
  end.

(** src/ath_files.c:72-83: the optional path, with a '/' appended if it has none. *)
Definition put_path (size : nat) (path : option str) : res str :=
  match path with
  | None => Ok []
  | Some p =>
      b <- put size [] p;;
      (* cp[-1]: before the buffer when the path is empty *)
      match rev b with
      | [] => UB
      | c :: _ => if Ascii.eqb c chSLASH then Ok b else put size b [chSLASH]
      end
  end.

(** ["%0<dlen>d"] of idump >= 0, dlen > 0. *)
Definition num_str (dlen idump : Z) : str := dec_pad (Z.to_nat dlen) (Z.to_N idump).

(** src/ath_files.c:44-134 ath_fname; malloc is assumed to succeed.  fmt[80] holds
    at most 21 bytes for any int dlen, so it cannot overflow. *)
Definition ath_fname (path : option str) (basename : str) (levstr domstr : option str)
  (dlen idump : Z) (id : option str) (ext : str) : res str :=
  let size := fname_size path basename levstr domstr dlen id ext in
  b <- put_path size path;;
  b <- put size b basename;;
  b <- put_dash size b levstr;;
  b <- put_dash size b domstr;;
  let num := if ((0 <? dlen) && (0 <=? idump))%Z then chDOT :: num_str dlen idump else [] in
  match id with
  | Some i => put size b (num ++ chDOT :: i ++ chDOT :: ext)
  | None => put size b (num ++ chDOT :: ext)
  end.

(** ** The loop over Domains of a dump

    src/dump_vtk.c:33-104 (the same text is in dump_binary.c:35-104,
    dump_tab.c:42-84 and 288-334, output_pgm.c:31-75, output_ppm.c:43-87):
    plev and pdom start as NULL before the two loops and are set, never reset,
    inside them.  levstr[8], domstr[8] hold "lev%d"/"dom%d": writing more than
    8 bytes is [UB].  [dpl] is DomainsPerLevel; every Domain has a Grid on this
    process and is selected for output (nlevel == ndomain == -1).  The result is
    the list of (level, domain, file name). *)
Definition put8 (s : str) : res str := if length s + 1 <=? 8 then Ok s else UB.
Definition lev_name (nl : nat) : str := S_ "lev" ++ dec_N (N.of_nat nl).
Definition dom_name (nd : nat) : str := S_ "dom" ++ dec_N (N.of_nat nd).

Definition dump_one (base ext : str) (dlen num : Z) (nl nd : nat) (st : option str * option str)
  : res (str * (option str * option str)) :=
  plev <- (if 0 <? nl then (s <- put8 (lev_name nl);; Ok (Some s)) else Ok (fst st));;
  pdom <- (if 0 <? nd then (s <- put8 (dom_name nd);; Ok (Some s)) else Ok (snd st));;
  f <- ath_fname plev base plev pdom dlen num None ext;;
  Ok (f, (plev, pdom)).
Fixpoint dump_doms (base ext : str) (dlen num : Z) (nl nd n : nat) (st : option str * option str)
  : res (list (nat * nat * str) * (option str * option str)) :=
  match n with
  | O => Ok ([], st)
  | S n' =>
      '(f, st1) <- dump_one base ext dlen num nl nd st;;
      '(r, st2) <- dump_doms base ext dlen num nl (S nd) n' st1;;
      Ok ((nl, nd, f) :: r, st2)
  end.
Fixpoint dump_levels (base ext : str) (dlen num : Z) (nl : nat) (dpl : list nat)
  (st : option str * option str) : res (list (nat * nat * str)) :=
  match dpl with
  | [] => Ok []
  | n :: dpl' =>
      '(a, st1) <- dump_doms base ext dlen num nl 0 n st;;
      b <- dump_levels base ext dlen num (S nl) dpl' st1;;
      Ok (a ++ b)
  end.
Definition dump_files (base ext : str) (dlen num : Z) (dpl : list nat) : res (list (nat * nat * str)) :=
  dump_levels base ext dlen num 0 dpl (None, None).
