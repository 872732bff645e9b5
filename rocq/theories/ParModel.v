(** * Model of src/par.c: the run-time parameter database

    The two linked lists of the C code (blocks, parameters of a block) are lists
    in list order.  Every string held by the database is owned by it (my_strdup),
    so sharing does not arise.  malloc failure is not modelled.  NULL arguments
    for names are not modelled (they are rejected or undefined in C).
    Debug output is not modelled. *)
From Coq Require Import String Ascii NArith ZArith Bool Arith List.
From Verif Require Import CStr.
Import ListNotations.
Set Implicit Arguments.

(** src/defs.h.in:138 [#define MAXLEN 256], the size of every line buffer. *)
Definition MAXLEN : nat := 256.

(** src/par.c:91-96 [struct Par_s]; [comment == NULL] is [None]. *)
Record par := Par { p_name : str; p_value : str; p_comment : option str }.
(** src/par.c:100-106 [struct Block_s]. *)
Record block := Block {
  b_name : str;
  b_pars : list par;
  b_maxn : nat;      (* max_name_len *)
  b_maxv : nat       (* max_value_len *)
}.
Definition db := list block.

(** The file-scope state: src/par.c:86 now_open, 111 base_block.  now_filename
    (line 87) is kept because par_dist_mpi sends it. *)
Record pstate := PState { now_open : bool; now_file : str; blocks : db }.
Definition init_state : pstate := PState false [] [].

(** src/par.c:761-771 find_par. *)
Fixpoint find_par (ps : list par) (name : str) : option par :=
  match ps with
  | [] => None
  | p :: ps' => if str_eqb (p_name p) name then Some p else find_par ps' name
  end.

(** src/par.c:745-755 find_block. *)
Fixpoint find_block (d : db) (name : str) : option block :=
  match d with
  | [] => None
  | b :: d' => if str_eqb (b_name b) name then Some b else find_block d' name
  end.

(** src/par.c:639-660: the list walk of add_par. *)
Fixpoint add_par_list (ps : list par) (name value : str) (comment : option str)
  : list par :=
  match ps with
  | [] => [Par name value comment]
  | p :: ps' =>
      if str_eqb (p_name p) name
      then Par (p_name p) value
             (match comment with Some c => Some c | None => p_comment p end) :: ps'
      else p :: add_par_list ps' name value comment
  end.

(** src/par.c:619-661 add_par. *)
Definition add_par (b : block) (name value : str) (comment : option str) : block :=
  Block (b_name b) (add_par_list (b_pars b) name value comment)
        (if b_maxn b <? length name then length name else b_maxn b)
        (if b_maxv b <? length value then length value else b_maxv b).

(** src/par.c:720-739 add_block followed by an update of the block it returns.
    C returns a pointer into the list; the model applies [f] to that block in
    place ([f] is the identity when the pointer is not used further). *)
Fixpoint with_block (d : db) (name : str) (f : block -> block) : db :=
  match d with
  | [] => [f (Block name [] 0 0)]
  | b :: d' => if str_eqb (b_name b) name then f b :: d'
               else b :: with_block d' name f
  end.
Definition add_block (d : db) (name : str) : db := with_block d name (fun b => b).

(** src/par.c:335-341 par_sets. *)
Definition par_sets (s : pstate) (blk name sval : str) (comment : option str) : pstate :=
  PState (now_open s) (now_file s)
    (with_block (blocks s) blk (fun b => add_par b name sval comment)).

(** src/par.c:348-356 par_seti, for the only format used with integers in the
    code base, ["%d"]; the text of any int fits sval[MAXLEN]. *)
Definition par_seti (s : pstate) (blk name : str) (ival : Z) (comment : option str) : pstate :=
  par_sets s blk name (dec_Z ival) comment.

(** src/par.c:363-371 par_setd.  The text produced by sprintf for a double is
    abstracted to the string [txt]: UB when it does not fit sval[MAXLEN]. *)
Definition par_setd (s : pstate) (blk name txt : str) (comment : option str) : res pstate :=
  if length txt <? MAXLEN then Ok (par_sets s blk name txt comment) else UB.

(** src/par.c:239-251 par_exist. *)
Definition par_exist (s : pstate) (blk name : str) : res bool :=
  if negb (now_open s) then Fatal else
  match find_block (blocks s) blk with
  | None => Ok false
  | Some b => match find_par (b_pars b) name with None => Ok false | Some _ => Ok true end
  end.

(** src/par.c:806-820 par_getsl. *)
Definition par_getsl (s : pstate) (blk name : str) : res str :=
  if negb (now_open s) then Fatal else
  match find_block (blocks s) blk with
  | None => Fatal
  | Some b => match find_par (b_pars b) name with
              | None => Fatal
              | Some p => Ok (p_value p)
              end
  end.

(** src/par.c:257-261 par_gets; 267-271 par_geti.  (par_getd, 277-281, applies
    atof to the same text and is not modelled further.) *)
Definition par_gets := par_getsl.
Definition par_geti (s : pstate) (blk name : str) : res Z :=
  v <- par_getsl s blk name;; Ok (atoi v).

Definition default_comment : str := S_ "Default Value".

(** src/par.c:288-297 par_gets_def. *)
Definition par_gets_def (s : pstate) (blk name def : str) : res (str * pstate) :=
  e <- par_exist s blk name;;
  if e then (v <- par_getsl s blk name;; Ok (v, s))
  else Ok (def, par_sets s blk name def (Some default_comment)).

(** src/par.c:304-313 par_geti_def. *)
Definition par_geti_def (s : pstate) (blk name : str) (def : Z) : res (Z * pstate) :=
  e <- par_exist s blk name;;
  if e then (v <- par_getsl s blk name;; Ok (atoi v, s))
  else Ok (def, par_seti s blk name def (Some default_comment)).

(** src/par.c:320-329 par_getd_def: as the previous one, with the text of the
    default produced by ["%.15e"] given as [txt]; the result is the text that
    atof is (or would be) applied to, or the default itself. *)
Definition par_getd_def (s : pstate) (blk name txt : str) : res (option str * pstate) :=
  e <- par_exist s blk name;;
  if e then (v <- par_getsl s blk name;; Ok (Some v, s))
  else (s' <- par_setd s blk name txt (Some default_comment);; Ok (None, s')).

(** src/par.c:418-426 par_close with 777-798 free_all. *)
Definition par_close (s : pstate) : pstate :=
  if now_open s then PState false [] [] else s.

(** ** Parsing *)

(** src/par.c:564-569 skipwhite: [cp] is an offset into buffer [buf]. *)
Fixpoint skipwhite_from (l : str) (cp : nat) : res nat :=
  match l with
  | [] => UB
  | c :: l' => if isspace c then skipwhite_from l' (S cp) else Ok cp
  end.
Definition skipwhite (buf : str) (cp : nat) : res nat := skipwhite_from (skipn cp buf) cp.

(** src/par.c:580-584: walk back over white space starting before [cp]; returns
    the place where the terminator goes.  Stepping before the start of the buffer
    is undefined. *)
Fixpoint str_term_scan (buf : str) (cp : nat) : res nat :=
  match cp with
  | O => UB
  | S cp' => c <- rd buf cp';; if isspace c then str_term_scan buf cp' else Ok cp
  end.
(** src/par.c:578-587 str_term. *)
Definition str_term (buf : str) (cp : nat) : res str :=
  i <- str_term_scan buf cp;; wr buf i NUL.

(** Advance to the first NUL or character [stop] (src/par.c:602-603; with
    [stop = NUL], line 693). *)
Fixpoint find_stop_from (l : str) (stop : ascii) (cp : nat) : res nat :=
  match l with
  | [] => UB
  | c :: l' => if Ascii.eqb c NUL || Ascii.eqb c stop then Ok cp
               else find_stop_from l' stop (S cp)
  end.
Definition find_stop (buf : str) (stop : ascii) (cp : nat) : res nat :=
  find_stop_from (skipn cp buf) stop cp.

(** src/par.c:595-608 line_block_name; returns the patched buffer and the offset
    of the name. *)
Definition line_block_name (buf : str) (line : nat) : res (str * nat) :=
  sp <- skipwhite buf (S line);;
  cp <- find_stop buf chGT sp;;
  c <- rd buf cp;;
  if negb (Ascii.eqb c chGT) then Fatal
  else (buf' <- str_term buf cp;; Ok (buf', sp)).

(** src/par.c:679-691: the scan for '=' and '#'.  [eq] holds (equal, value) once
    found.  Returns it together with (hash, comment) and the final cp. *)
Fixpoint scan_line (buf l : str) (cp : nat) (eq : option (nat * nat))
  : res (option (nat * nat) * option (nat * nat) * nat) :=
  match l with
  | [] => UB
  | c :: l' =>
      if Ascii.eqb c NUL then Ok (eq, None, cp)
      else
        eq' <- (if Ascii.eqb c chEQ
                then match eq with
                     | None => v <- skipwhite buf (S cp);; Ok (Some (cp, v))
                     | Some _ => Ok eq
                     end
                else Ok eq);;
        if Ascii.eqb c chHASH
        then (cm <- skipwhite buf (S cp);; Ok (eq', Some (cp, cm), cp))
        else scan_line buf l' (S cp) eq'
  end.

(** src/par.c:669-714 add_par_line up to the call of add_par: the three strings
    are read from the buffer after all terminators have been written. *)
Definition parse_par_line (buf : str) (line : nat) : res (str * str * option str) :=
  name <- skipwhite buf line;;
  '(eq, hash, cp) <- scan_line buf (skipn name buf) name None;;
  nul <- find_stop buf NUL cp;;
  match eq with
  | None => Fatal
  | Some (equal, value) =>
      buf1 <- str_term buf equal;;
      match hash with
      | None =>
          buf2 <- str_term buf1 nul;;
          n <- cstr_at buf2 name;; v <- cstr_at buf2 value;; Ok (n, v, None)
      | Some (h, cm) =>
          buf2 <- str_term buf1 h;;
          c0 <- rd buf2 cm;;
          if Ascii.eqb c0 NUL then
            n <- cstr_at buf2 name;; v <- cstr_at buf2 value;; Ok (n, v, None)
          else
            buf3 <- str_term buf2 nul;;
            n <- cstr_at buf3 name;; v <- cstr_at buf3 value;;
            c <- cstr_at buf3 cm;; Ok (n, v, Some c)
      end
  end.

(** The end marker tested for in src/par.c:177 and written in 407. *)
Definition PAR_END : str := S_ "<par_end>".

(** One line buffer handed to the body of the while loop of par_open,
    src/par.c:174-183.  The current block pointer [bp] is represented by the
    block's name ([None] for NULL): block names are unique in the list, so the
    name determines the node.  Returns [None] when the loop is left (<par_end>). *)
Definition par_line (d : db) (bp : option str) (buf : str)
  : res (option (db * option str)) :=
  cp <- skipwhite buf 0;;
  c <- rd buf cp;;
  if Ascii.eqb c NUL then Ok (Some (d, bp))
  else if Ascii.eqb c chHASH then Ok (Some (d, bp))
  else
    s <- cstr_at buf cp;;
    if prefixb PAR_END s then Ok None
    else if Ascii.eqb c chLT then
      ('(buf', sp) <- line_block_name buf cp;;
       n <- cstr_at buf' sp;;
       Ok (Some (add_block d n, Some n)))
    else
      match bp with
      | None => Fatal                                   (* line 674-675 *)
      | Some bn =>
          '(n, v, cm) <- parse_par_line buf cp;;
          Ok (Some (with_block d bn (fun b => add_par b n v cm), bp))
      end.

(** fgets(line,MAXLEN,fp): at most MAXLEN-1 bytes, through the first newline.
    Returns the bytes and the remaining stream. *)
Fixpoint fgets_n (n : nat) (s : str) : str * str :=
  match n, s with
  | O, _ => ([], s)
  | _, [] => ([], [])
  | S n', c :: s' => if Ascii.eqb c LF then ([c], s')
                     else let (l, r) := fgets_n n' s' in (c :: l, r)
  end.
Definition fgets (s : str) : option (str * str) :=
  match s with [] => None | _ => Some (fgets_n (MAXLEN - 1) s) end.

(** src/par.c:173-184: the while loop; [fuel] bounds the number of lines.  Each
    fgets consumes at least one byte, so fuel [length file] suffices; running out
    of fuel is reported as [UB] and shown impossible (open_loop_fuel). *)
Fixpoint open_loop (fuel : nat) (d : db) (bp : option str) (file : str) : res db :=
  match fgets file with
  | None => Ok d
  | Some (line, rest) =>
      match fuel with
      | O => UB
      | S f =>
          r <- par_line d bp (line ++ [NUL]);;
          match r with
          | None => Ok d
          | Some (d', bp') => open_loop f d' bp' rest
          end
      end
  end.

(** src/par.c:156-187 par_open; the file is given by its contents ([None] when
    fopen fails). *)
Definition par_open (s : pstate) (fname : str) (file : option str) : res pstate :=
  if now_open s then Fatal else
  match file with
  | None => Fatal
  | Some txt =>
      d <- open_loop (length txt) (blocks s) None txt;;
      Ok (PState true fname d)
  end.

(** ** Command line *)

(** strchr: offset of the first [ch] before the terminating NUL. *)
Fixpoint strchr_from (l : str) (ch : ascii) (i : nat) : res (option nat) :=
  match l with
  | [] => UB
  | c :: l' => if Ascii.eqb c ch then Ok (Some i)
               else if Ascii.eqb c NUL then Ok None
               else strchr_from l' ch (S i)
  end.
Definition strchr (buf : str) (i : nat) (ch : ascii) : res (option nat) :=
  strchr_from (skipn i buf) ch i.

(** src/par.c:223-227: replace the value of an existing parameter. *)
Fixpoint set_value (ps : list par) (name value : str) : list par :=
  match ps with
  | [] => []
  | p :: ps' => if str_eqb (p_name p) name then Par (p_name p) value (p_comment p) :: ps'
                else p :: set_value ps' name value
  end.
Fixpoint update_block (d : db) (name : str) (f : block -> block) : db :=
  match d with
  | [] => []
  | b :: d' => if str_eqb (b_name b) name then f b :: d' else b :: update_block d' name f
  end.

(** src/par.c:205-231: one argument, held in the buffer [buf] (the string and its
    NUL).  Returns the database and the buffer after "Repair argv[i]". *)
Definition cmdline_arg (d : db) (buf : str) : res (db * str) :=
  sp <- strchr buf 0 chSLASH;;
  match sp with
  | None => Ok (d, buf)
  | Some sp =>
      buf1 <- wr buf sp NUL;;
      let name := S sp in
      ep <- strchr buf1 name chEQ;;
      match ep with
      | None => buf2 <- wr buf1 sp chSLASH;; Ok (d, buf2)
      | Some ep =>
          buf2 <- wr buf1 ep NUL;;
          let value := S ep in
          bn <- cstr_at buf2 0;;
          n <- cstr_at buf2 name;;
          v <- cstr_at buf2 value;;
          match find_block d bn with
          | None => Fatal
          | Some b =>
              match find_par (b_pars b) n with
              | None => Fatal
              | Some _ =>
                  buf3 <- wr buf2 sp chSLASH;;
                  buf4 <- wr buf3 ep chEQ;;
                  Ok (update_block d bn
                        (fun b => Block (b_name b) (set_value (b_pars b) n v)
                                    (b_maxn b)
                                    (if b_maxv b <? length v then length v else b_maxv b)),
                      buf4)
              end
          end
      end
  end.

(** src/par.c:204-232: the loop over argv[1..argc-1]; [args] are these buffers. *)
Fixpoint cmdline_loop (d : db) (args : list str) : res (db * list str) :=
  match args with
  | [] => Ok (d, [])
  | a :: args' =>
      '(d1, a') <- cmdline_arg d a;;
      '(d2, rest) <- cmdline_loop d1 args';;
      Ok (d2, a' :: rest)
  end.
Definition par_cmdline (s : pstate) (args : list str) : res (pstate * list str) :=
  '(d, args') <- cmdline_loop (blocks s) args;;
  Ok (PState (now_open s) (now_file s) d, args').

(** ** Dumping *)

(** printf ["%-Ns"]: left-justified, padded with spaces to width [n]. *)
Definition pad_right (n : nat) (s : str) : str := s ++ repeat chSP (n - length s).

(** src/par.c:391,398-400: one parameter line of par_dump, mode 0 or 2. *)
Definition dump_par (b : block) (p : par) : str :=
  pad_right (b_maxn b) (p_name p) ++ S_ " = " ++ pad_right (b_maxv b) (p_value p) ++
  match p_comment p with
  | None => [LF]
  | Some c => S_ " # " ++ c ++ [LF]
  end.
(** src/par.c:390-403: one block. *)
Definition dump_block (b : block) : str :=
  chLT :: b_name b ++ [chGT; LF] ++ flat_map (dump_par b) (b_pars b) ++ [LF].
(** src/par.c:377-412 par_dump with mode == 2 (the mode used by dump_restart). *)
Definition par_dump2 (s : pstate) : str :=
  flat_map dump_block (blocks s) ++ PAR_END ++ [LF].
(** src/par.c:394-396: mode 1. *)
Definition dump_block1 (b : block) : str :=
  b_name b ++ S_ "::" ++ [LF] ++
  flat_map (fun p => S_ " " ++ b_name b ++ S_ "/" ++ p_name p ++ S_ " = " ++ p_value p ++ [LF])
           (b_pars b) ++ [LF].
(** src/par.c:377-412 par_dump with mode == 0 (used by main to log the run). *)
Definition par_dump0 (s : pstate) : str :=
  S_ "# --------------------- PAR_DUMP -----------------------" ++ [LF; LF] ++
  flat_map dump_block (blocks s) ++
  S_ "# --------------------- PAR_DUMP -------------------------" ++ [LF].

(** ** Distribution over MPI *)

(** sprintf into line[MAXLEN]: undefined if text and NUL do not fit. *)
Definition sprintf_line (txt : str) : res str :=
  if length txt <? MAXLEN then Ok txt else UB.

(** src/par.c:468-475: the line rebuilt for one parameter. *)
Definition dist_par_line (p : par) : str :=
  p_name p ++ S_ " = " ++ p_value p ++
  match p_comment p with None => [] | Some c => S_ " # " ++ c end.

(** src/par.c:457-482: the sequence of strings broadcast by rank 0. *)
Fixpoint dist_pars (ps : list par) : res (list str) :=
  match ps with
  | [] => Ok []
  | p :: ps' => l <- sprintf_line (dist_par_line p);;
                rest <- dist_pars ps';; Ok (l :: rest)
  end.
Fixpoint dist_blocks (d : db) : res (list str) :=
  match d with
  | [] => Ok []
  | b :: d' =>
      l <- sprintf_line (chLT :: b_name b ++ [chGT]);;
      ps <- dist_pars (b_pars b);;
      rest <- dist_blocks d';; Ok (l :: ps ++ rest)
  end.
Definition dist_send (s : pstate) : res (str * list str) :=
  if negb (now_open s) then Fatal
  else (m <- dist_blocks (blocks s);; Ok (now_file s, m)).

(** src/par.c:508-521: the receiving loop of a child.  [bp] as in par_line. *)
Fixpoint dist_recv_loop (d : db) (bp : option str) (msgs : list str) : res db :=
  match msgs with
  | [] => Ok d
  | m :: msgs' =>
      let buf := m ++ [NUL] in
      c <- rd buf 0;;
      if Ascii.eqb c chLT then
        '(buf', sp) <- line_block_name buf 0;;
        n <- cstr_at buf' sp;;
        dist_recv_loop (add_block d n) (Some n) msgs'
      else
        match bp with
        | None => Fatal
        | Some bn =>
            '(n, v, cm) <- parse_par_line buf 0;;
            dist_recv_loop (with_block d bn (fun b => add_par b n v cm)) bp msgs'
        end
  end.
(** src/par.c:490-525: a child; the file name must fit line[MAXLEN]. *)
Definition dist_recv (s : pstate) (msg : str * list str) : res pstate :=
  if now_open s then Fatal
  else if negb (length (fst msg) <? MAXLEN) then UB
  else (d <- dist_recv_loop (blocks s) None (snd msg);; Ok (PState true (fst msg) d)).
(** src/par.c:435-528 par_dist_mpi on all ranks: rank 0 first in the list.
    MPI_Bcast delivers the same data to every rank. *)
Fixpoint recv_all (ch : list pstate) (msg : str * list str) : res (list pstate) :=
  match ch with
  | [] => Ok []
  | c :: ch' => c' <- dist_recv c msg;; r <- recv_all ch' msg;; Ok (c' :: r)
  end.
Definition par_dist_mpi (root : pstate) (children : list pstate) : res (list pstate) :=
  m <- dist_send root;; ch <- recv_all children m;; Ok (root :: ch).
