(** * C strings, byte buffers and printf-style decimal formatting

    Shared vocabulary: outcomes of C code, byte strings, buffers with bounds
    checking, [strcmp] equality, [isspace], ["%d"]/["%0Nd"] formatting and
    [atoi].  Nothing here is specific to one source file of /repo. *)
From Coq Require Import String Ascii NArith ZArith Lia Bool Arith List.
Import ListNotations.
Set Implicit Arguments.

(** Outcome of running a piece of C code: a value, [ath_error] (message and
    [exit]; src/utils.c:ath_error), or undefined behaviour. *)
Inductive res (A : Type) : Type :=
| Ok (a : A)
| Fatal
| UB.
Arguments Ok {A} a.
Arguments Fatal {A}.
Arguments UB {A}.

Definition bind {A B} (x : res A) (f : A -> res B) : res B :=
  match x with Ok a => f a | Fatal => Fatal | UB => UB end.
Notation "x <- e ;; f" := (bind e (fun x => f))
  (at level 61, e at next level, right associativity).
Notation "' pat <- e ;; f" := (bind e (fun x => match x with pat => f end))
  (at level 61, pat pattern, e at next level, right associativity).

(** Byte strings.  A C string value is a list of bytes without NUL. *)
Definition str := list ascii.
Definition S_ (s : string) : str := list_ascii_of_string s.
Definition NUL : ascii := Ascii.zero.
Definition LF : ascii := ascii_of_nat 10.
Definition chSP : ascii := " "%char.
Definition chEQ : ascii := "="%char.
Definition chHASH : ascii := "#"%char.
Definition chLT : ascii := "<"%char.
Definition chGT : ascii := ">"%char.
Definition chSLASH : ascii := "/"%char.

(** [isspace] in the C locale: space, \t \n \v \f \r. *)
Definition isspace (c : ascii) : bool :=
  let n := nat_of_ascii c in (n =? 32)%nat || ((9 <=? n)%nat && (n <=? 13)%nat).

(** [strcmp(a,b) == 0]. *)
Fixpoint str_eqb (a b : str) : bool :=
  match a, b with
  | [], [] => true
  | x :: a', y :: b' => Ascii.eqb x y && str_eqb a' b'
  | _, _ => false
  end.

(** [strncmp(a,b,|b|) == 0]: [b] is a prefix of [a]. *)
Fixpoint prefixb (b a : str) : bool :=
  match b, a with
  | [], _ => true
  | x :: b', y :: a' => Ascii.eqb x y && prefixb b' a'
  | _ :: _, [] => false
  end.

(** Bounds-checked access to a buffer. *)
Definition rd (b : str) (i : nat) : res ascii :=
  match nth_error b i with Some c => Ok c | None => UB end.
Definition wr (b : str) (i : nat) (c : ascii) : res str :=
  if (i <? List.length b)%nat then Ok (firstn i b ++ c :: skipn (S i) b) else UB.

(** The C string starting at offset [i]: bytes up to the first NUL; running off
    the buffer is undefined. *)
Fixpoint until_nul (l : str) : res str :=
  match l with
  | [] => UB
  | c :: l' => if Ascii.eqb c NUL then Ok [] else s <- until_nul l';; Ok (c :: s)
  end.
Definition cstr_at (b : str) (i : nat) : res str := until_nul (skipn i b).

(** Decimal formatting.  [digits_fuel] produces the digits of [n], most
    significant first; fuel [N.size_nat n + 1] always suffices (digits_value). *)
Definition digit_char (d : N) : ascii := ascii_of_N (48 + d).
Fixpoint digits_fuel (f : nat) (n : N) (acc : str) : str :=
  match f with
  | O => acc
  | S f' => if (n <? 10)%N then digit_char n :: acc
            else digits_fuel f' (n / 10)%N (digit_char (n mod 10)%N :: acc)
  end.
Definition dec_N (n : N) : str := digits_fuel (S (N.size_nat n)) n [].
(** ["%d"]. *)
Definition dec_Z (z : Z) : str :=
  match z with
  | Zneg p => "-"%char :: dec_N (Npos p)
  | _ => dec_N (Z.to_N z)
  end.
(** ["%0wd"] of a non-negative number: zero padded on the left to width [w]. *)
Definition dec_pad (w : nat) (n : N) : str :=
  let d := dec_N n in repeat "0"%char (w - List.length d) ++ d.

(** [atoi]: skip white space, optional sign, digits up to the first non-digit.
    Values outside the range of int are undefined in C; the model returns the
    mathematical value, and theorems that use it speak of in-range values. *)
Definition isdigit (c : ascii) : bool :=
  let n := N_of_ascii c in ((48 <=? n) && (n <=? 57))%N.
Fixpoint atoi_digits (l : str) (acc : Z) : Z :=
  match l with
  | c :: l' => if isdigit c then atoi_digits l' (acc * 10 + (Z.of_N (N_of_ascii c) - 48))%Z
               else acc
  | [] => acc
  end.
Fixpoint skip_space (l : str) : str :=
  match l with
  | c :: l' => if isspace c then skip_space l' else l
  | [] => []
  end.
Definition atoi (s : str) : Z :=
  match skip_space s with
  | c :: l => if Ascii.eqb c "-"%char then Z.opp (atoi_digits l 0)
              else if Ascii.eqb c "+"%char then atoi_digits l 0
              else atoi_digits (c :: l) 0
  | [] => 0%Z
  end.
