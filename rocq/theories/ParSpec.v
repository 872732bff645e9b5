(** * Specification vocabulary for the parameter database (C01-C08)

    What a user sees of the database: an ordered list of blocks, each an ordered
    list of parameters with a text value and an optional comment.  The alignment
    widths kept by the C code are not part of it. *)
From Coq Require Import String Ascii NArith ZArith Bool Arith List.
From Verif Require Import CStr ParModel.
Import ListNotations.
Set Implicit Arguments.

Definition entry := (str * option str)%type.           (* value, comment *)
Definition view := list (str * list (str * entry)).

Definition view_of (d : db) : view :=
  map (fun b => (b_name b,
                 map (fun p => (p_name p, (p_value p, p_comment p))) (b_pars b))) d.

(** The database contains parameter [n] of block [b] with entry [e]. *)
Definition holds (v : view) (b n : str) (e : entry) : Prop :=
  exists ps, In (b, ps) v /\ In (n, e) ps.
Definition present (v : view) (b n : str) : Prop := exists e, holds v b n e.

(** No block and no parameter of a block is listed twice. *)
Definition unique (v : view) : Prop :=
  NoDup (map fst v) /\ forall b ps, In (b, ps) v -> NoDup (map fst ps).

(** The listing order of all parameters. *)
Definition keys (v : view) : list (str * str) :=
  flat_map (fun bp => map (fun np => (fst bp, fst np)) (snd bp)) v.
Definition block_names (v : view) : list str := map fst v.

(** Operations a program can perform, and histories of them. *)
Inductive op :=
| OpOpen (fname : str) (file : option str)
| OpClose
| OpCmdline (args : list str)
| OpSets (b n v : str) (c : option str)
| OpSeti (b n : str) (z : Z) (c : option str)
| OpSetd (b n txt : str) (c : option str)
| OpGets (b n : str)
| OpExist (b n : str)
| OpGetsDef (b n d : str)
| OpGetiDef (b n : str) (d : Z)
| OpGetdDef (b n txt : str)
| OpDistRecv (msg : str * list str).

Definition step (s : pstate) (o : op) : res pstate :=
  match o with
  | OpOpen f t => par_open s f t
  | OpClose => Ok (par_close s)
  | OpCmdline a => '(s', _) <- par_cmdline s (map (fun x => x ++ [NUL]) a);; Ok s'
  | OpSets b n v c => Ok (par_sets s b n v c)
  | OpSeti b n z c => Ok (par_seti s b n z c)
  | OpSetd b n t c => par_setd s b n t c
  | OpGets b n => _ <- par_gets s b n;; Ok s
  | OpExist b n => _ <- par_exist s b n;; Ok s
  | OpGetsDef b n d => '(_, s') <- par_gets_def s b n d;; Ok s'
  | OpGetiDef b n d => '(_, s') <- par_geti_def s b n d;; Ok s'
  | OpGetdDef b n t => '(_, s') <- par_getd_def s b n t;; Ok s'
  | OpDistRecv m => dist_recv s m
  end.
Fixpoint run (s : pstate) (ops : list op) : res pstate :=
  match ops with
  | [] => Ok s
  | o :: ops' => s' <- step s o;; run s' ops'
  end.
Definition reachable (s : pstate) : Prop := exists ops, run init_state ops = Ok s.

(** ** Input files *)

Definition all_space (w : str) : Prop := Forall (fun c => isspace c = true /\ c <> LF) w.
(** A field: no line break, no NUL, first and last byte not white space. *)
Definition plain (s : str) : Prop := ~ In NUL s /\ ~ In LF s.
Definition trimmed (s : str) : Prop :=
  s = [] \/ exists a m b, (s = [a] \/ s = a :: m ++ [b]) /\ isspace a = false /\ isspace b = false.
Definition field (s : str) : Prop := s <> [] /\ plain s /\ trimmed s.

(** A line of an input file. *)
Inductive item :=
| IBlank (w : str)
| IComment (w txt : str)
| IBlock (w1 w2 name w3 rest : str)                     (* w1<w2 name w3>rest *)
| IPar (w1 name w2 w3 value w4 : str)                   (* w1 name w2 = w3 value w4 *)
| IParC (w1 name w2 w3 value w4 w5 comment w6 : str).   (* ... # w5 comment w6 *)

Definition print_item (i : item) : str :=
  match i with
  | IBlank w => w
  | IComment w t => w ++ chHASH :: t
  | IBlock w1 w2 n w3 r => w1 ++ chLT :: w2 ++ n ++ w3 ++ chGT :: r
  | IPar w1 n w2 w3 v w4 => w1 ++ n ++ w2 ++ chEQ :: w3 ++ v ++ w4
  | IParC w1 n w2 w3 v w4 w5 c w6 =>
      w1 ++ n ++ w2 ++ chEQ :: w3 ++ v ++ w4 ++ chHASH :: w5 ++ c ++ w6
  end.

Definition par_name_ok (n : str) : Prop :=
  field n /\ ~ In chEQ n /\ ~ In chHASH n /\ (forall t, n <> chLT :: t).
Definition block_name_ok (n : str) : Prop :=
  field n /\ ~ In chGT n.
Definition value_ok (v : str) : Prop := field v /\ ~ In chHASH v.
Definition comment_ok (c : str) : Prop := plain c /\ trimmed c.

(** Well-formed line.  [IParC] with an empty comment is "name = value #"; [IPar]
    may have an empty value, [IParC] may not (see [empty_value_with_comment]). *)
Definition item_ok (i : item) : Prop :=
  match i with
  | IBlank w => all_space w
  | IComment w t => all_space w /\ plain t
  | IBlock w1 w2 n w3 r =>
      all_space w1 /\ all_space w2 /\ all_space w3 /\ block_name_ok n /\ plain r
  | IPar w1 n w2 w3 v w4 =>
      all_space w1 /\ all_space w2 /\ all_space w3 /\ all_space w4 /\
      par_name_ok n /\ (v = [] \/ value_ok v)
  | IParC w1 n w2 w3 v w4 w5 c w6 =>
      all_space w1 /\ all_space w2 /\ all_space w3 /\ all_space w4 /\
      all_space w5 /\ all_space w6 /\
      par_name_ok n /\ value_ok v /\ comment_ok c
  end.
(** The <par_end> line. *)
Definition is_end (i : item) : Prop :=
  exists w1 rest, print_item i = w1 ++ S_ "<par_end>" ++ rest /\ all_space w1.

(** What the lines of a file assign: each assignment with the block it is in. *)
Fixpoint assignments (cur : str) (is : list item) : list (str * str * entry) :=
  match is with
  | [] => []
  | IBlock _ _ n _ _ :: r => assignments n r
  | IPar _ n _ _ v _ :: r => (cur, n, (v, None)) :: assignments cur r
  | IParC _ n _ _ v _ _ c _ :: r =>
      (cur, n, (v, match c with [] => None | _ => Some c end)) :: assignments cur r
  | _ :: r => assignments cur r
  end.
(** The value a file gives to (b,n): the last one assigned. *)
Fixpoint last_value (b n : str) (l : list (str * str * entry)) : option str :=
  match l with
  | [] => None
  | (b', n', (v, _)) :: r =>
      match last_value b n r with
      | Some v' => Some v'
      | None => if str_eqb b b' && str_eqb n n' then Some v else None
      end
  end.
(** All parameter lines come after a block line. *)
Fixpoint starts_in_block (is : list item) : Prop :=
  match is with
  | [] => True
  | IBlank _ :: r | IComment _ _ :: r => starts_in_block r
  | IBlock _ _ _ _ _ :: _ => True
  | _ => False
  end.
Definition file_of (is : list item) : str := flat_map (fun i => print_item i ++ [LF]) is.

(** ** Databases that can be written and read back *)
Definition par_printable (p : str * entry) : Prop :=
  par_name_ok (fst p) /\
  match snd p with
  | (v, None) => v = [] \/ value_ok v
  | (v, Some c) => value_ok v /\ c <> [] /\ comment_ok c
  end.
Definition db_printable (v : view) : Prop :=
  forall b ps, In (b, ps) v ->
    block_name_ok b /\ b <> S_ "par_end" /\ Forall par_printable ps.

(** ** What reading a file must produce *)

(** First occurrences, in order. *)
Fixpoint firsts (seen l : list str) : list str :=
  match l with
  | [] => []
  | x :: r => if existsb (str_eqb x) seen then firsts seen r else x :: firsts (x :: seen) r
  end.
(** The block lines. *)
Fixpoint blocks_of (is : list item) : list str :=
  match is with
  | [] => []
  | IBlock _ _ n _ _ :: r => n :: blocks_of r
  | _ :: r => blocks_of r
  end.
Definition names_in (b : str) (l : list (str * str * entry)) : list str :=
  map (fun a => snd (fst a)) (filter (fun a => str_eqb b (fst (fst a))) l).
(** The last comment given to (b,n). *)
Fixpoint last_comment (b n : str) (l : list (str * str * entry)) : option str :=
  match l with
  | [] => None
  | (b', n', (_, c)) :: r =>
      match last_comment b n r with
      | Some c' => Some c'
      | None => if str_eqb b b' && str_eqb n n' then c else None
      end
  end.
(** Blocks in order of first appearance, the parameters of each in order of first
    appearance, each with the last value and the last comment given. *)
Definition expected_view (is : list item) : view :=
  let l := assignments [] is in
  map (fun b => (b, map (fun n => (n, (match last_value b n l with Some v => v | None => [] end,
                                       last_comment b n l)))
                        (firsts [] (names_in b l))))
      (firsts [] (blocks_of is)).

(** ** Malformed lines *)
(** A block line without '>', or a line that is neither blank, comment nor block
    line and has no '=' before its first '#'. *)
Inductive malformed : str -> Prop :=
| mal_block : forall w t, all_space w -> plain t -> ~ In chGT t -> malformed (w ++ chLT :: t)
| mal_par : forall w a rest, all_space w -> plain a -> plain rest ->
    (exists c a', a = c :: a' /\ isspace c = false /\ c <> chLT) ->
    ~ In chHASH a -> ~ In chEQ a -> (rest = [] \/ exists r, rest = chHASH :: r) ->
    malformed (w ++ a ++ rest).

(** ** Command-line overrides *)
(** Cut at the first occurrence of [c]. *)
Fixpoint cut (c : ascii) (s : str) : option (str * str) :=
  match s with
  | [] => None
  | x :: r => if Ascii.eqb x c then Some ([], r)
              else match cut c r with Some (a, b) => Some (x :: a, b) | None => None end
  end.
(** block/name=value *)
Definition split_arg (a : str) : option (str * str * str) :=
  match cut chSLASH a with
  | None => None
  | Some (b, r) => match cut chEQ r with None => None | Some (n, v) => Some (b, n, v) end
  end.
Fixpoint overrides (args : list str) : list (str * str * str) :=
  match args with
  | [] => []
  | a :: r => match split_arg a with Some o => o :: overrides r | None => overrides r end
  end.
Fixpoint last_override (b n : str) (l : list (str * str * str)) : option str :=
  match l with
  | [] => None
  | (b', n', v) :: r =>
      match last_override b n r with
      | Some v' => Some v'
      | None => if str_eqb b b' && str_eqb n n' then Some v else None
      end
  end.
(** The view with the last override of each parameter applied: nothing else moves. *)
Definition overridden (l : list (str * str * str)) (w : view) : view :=
  map (fun bp => (fst bp,
         map (fun ne => (fst ne, (match last_override (fst bp) (fst ne) l with
                                  | Some v => v | None => fst (snd ne) end, snd (snd ne))))
             (snd bp))) w.

(** ** Lines of a text *)
Definition is_line (s l : str) : Prop :=
  exists a b, s = a ++ l ++ LF :: b /\ ~ In LF l /\ (a = [] \/ exists a', a = a' ++ [LF]).

(** Operations that only read (possibly recording defaults). *)
Definition is_read (o : op) : Prop :=
  match o with
  | OpGets _ _ | OpExist _ _ | OpGetsDef _ _ _ | OpGetiDef _ _ _ | OpGetdDef _ _ _ => True
  | _ => False
  end.
