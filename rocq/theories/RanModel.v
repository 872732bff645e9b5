(** * Model of the random number generator ran2, src/prob/hgb.c and ten more problem files

    All integers are long; [lmax] is LONG_MAX, and an operation whose result does not
    fit is undefined.  The static variables and the caller's idum are one record.
    The quotient [iy/NDIV] is converted to int; a quotient that is no index of the table is
    undefined here (if it does not even fit in an int the conversion is
    implementation-defined).  Real numbers stand for double-precision numbers. *)
From Coq Require Import Reals ZArith List.
From Verif Require Import CStr.
Import ListNotations.
Open Scope Z_scope.
Open Scope bool_scope.

(** prob/hgb.c:640-652 *)
Definition IM1 : Z := 2147483563.
Definition IM2 : Z := 2147483399.
Definition IMM1 : Z := IM1 - 1.
Definition IA1 : Z := 40014.
Definition IA2 : Z := 40692.
Definition IQ1 : Z := 53668.
Definition IQ2 : Z := 52774.
Definition IR1 : Z := 12211.
Definition IR2 : Z := 3791.
Definition NTAB : Z := 32.
Definition NDIV : Z := 1 + Z.quot IMM1 NTAB.
Definition AM : R := (1 / IZR IM1)%R.
(** DBL_EPSILON is 2^-52. *)
Definition RNMX : R := (1 - / 2 ^ 52)%R.

Record ran_st := RanSt { idum : Z; idum2 : Z; iy : Z; iv : Z -> Z }.

(** The static variables before the first call, prob/hgb.c:667-669. *)
Definition ran_start (seed : Z) : ran_st := RanSt seed 123456789 0 (fun _ => 0).

Section Ran.
Variable lmax : Z.
Definition ck (x : Z) : res Z := if (- lmax - 1 <=? x) && (x <=? lmax) then Ok x else UB.

(** prob/hgb.c:677-679, 684-686, 687-689: k=s/iq; s=ia*(s-k*iq)-k*ir; if (s < 0) s += im; *)
Definition schrage (ia iq ir im s : Z) : res Z :=
  let k := Z.quot s iq in
  bind (ck (k * iq)) (fun a => bind (ck (s - a)) (fun b => bind (ck (ia * b)) (fun c =>
  bind (ck (k * ir)) (fun d => bind (ck (c - d)) (fun e =>
  if e <? 0 then ck (e + im) else Ok e))))).

(** prob/hgb.c:676-681: the loop from j = n-1 down to 0. *)
Fixpoint load (n : nat) (s : Z) (v : Z -> Z) : res (Z * (Z -> Z)) :=
  match n with
  | O => Ok (s, v)
  | S j =>
      bind (schrage IA1 IQ1 IR1 IM1 s) (fun s =>
      load j s (if Z.of_nat j <? NTAB then fun i => if i =? Z.of_nat j then s else v i else v))
  end.

(** prob/hgb.c:672-683 *)
Definition ran_init (q : ran_st) : res ran_st :=
  bind (ck (- idum q)) (fun m =>
  let s := if m <? 1 then 1 else m in
  bind (load (Z.to_nat (NTAB + 8)) s (iv q)) (fun '(s', v) => Ok (RanSt s' s (v 0) v))).

(** prob/hgb.c:663-696 ran2 *)
Definition ran2 (q : ran_st) : res (ran_st * R) :=
  bind (if idum q <=? 0 then ran_init q else Ok q) (fun q =>
  bind (schrage IA1 IQ1 IR1 IM1 (idum q)) (fun s =>
  bind (schrage IA2 IQ2 IR2 IM2 (idum2 q)) (fun s2 =>
  let j := Z.quot (iy q) NDIV in
  if (0 <=? j) && (j <? NTAB) then
    bind (ck (iv q j - s2)) (fun y =>
    bind (if y <? 1 then ck (y + IMM1) else Ok y) (fun y =>
    let temp := (AM * IZR y)%R in
    Ok (RanSt s s2 y (fun i => if i =? j then s else iv q i), if Rlt_dec RNMX temp then RNMX else temp)))
  else UB))).

(** [n] calls, one after the other. *)
Fixpoint ran_calls (n : nat) (q : ran_st) : res (ran_st * list R) :=
  match n with
  | O => Ok (q, [])
  | S n => bind (ran2 q) (fun '(q, x) => bind (ran_calls n q) (fun '(q, l) => Ok (q, x :: l)))
  end.
End Ran.
