(** * Model of rkck, rkqs, odeint and odeint_lite, src/utils.c

    A vector is a function from indices; [n] is the number of its components.  The
    user's derivs is a function of x and the vector.  Real numbers stand for
    double-precision numbers: a step h that is not zero always changes x, so "Stepsize underflow"
    does not appear.  [None] means that the loop of rkqs needs more than [fuel] rounds. *)
From Coq Require Import Reals ZArith List.
From Verif Require Import CStr.
Import ListNotations.
Open Scope R_scope.

Definition vec := nat -> R.
Definition rhs_t := R -> vec -> vec.

(** utils.c:616-680 rkck: yout and yerr. *)
Definition rkck (derivs : rhs_t) (y dydx : vec) (x h : R) : vec * vec :=
  let ak2 := derivs (x + 2 / 10 * h) (fun i => y i + 2 / 10 * h * dydx i) in
  let ak3 := derivs (x + 3 / 10 * h) (fun i => y i + h * (3 / 40 * dydx i + 9 / 40 * ak2 i)) in
  let ak4 := derivs (x + 6 / 10 * h) (fun i => y i + h * (3 / 10 * dydx i + (- (9 / 10)) * ak2 i + 12 / 10 * ak3 i)) in
  let ak5 := derivs (x + 1 * h) (fun i => y i + h * ((-11) / 54 * dydx i + 25 / 10 * ak2 i + (-70) / 27 * ak3 i + 35 / 27 * ak4 i)) in
  let ak6 := derivs (x + 875 / 1000 * h) (fun i => y i + h * (1631 / 55296 * dydx i + 175 / 512 * ak2 i + 575 / 13824 * ak3 i + 44275 / 110592 * ak4 i + 253 / 4096 * ak5 i)) in
  let c1 := 37 / 378 in let c3 := 250 / 621 in let c4 := 125 / 594 in let c6 := 512 / 1771 in
  let dc1 := c1 - 2825 / 27648 in let dc3 := c3 - 18575 / 48384 in
  let dc4 := c4 - 13525 / 55296 in let dc5 := (-277) / 14336 in let dc6 := c6 - 25 / 100 in
  (fun i => y i + h * (c1 * dydx i + c3 * ak3 i + c4 * ak4 i + c6 * ak6 i),
   fun i => h * (dc1 * dydx i + dc3 * ak3 i + dc4 * ak4 i + dc5 * ak5 i + dc6 * ak6 i)).

(** utils.c:711-714 *)
Definition errmax (n : nat) (yerr yscal : vec) (eps : R) : R :=
  fold_left (fun m i => Rmax m (Rabs (yerr i / yscal i))) (seq 0 n) 0 / eps.

(** What rkqs leaves: x, y, hdid, hnext. *)
Record step := Step { sx : R; sy : vec; hdid : R; hnext : R }.

(** utils.c:709-729: the loop, and 731-736. *)
Fixpoint rkqs_loop (fuel n : nat) (derivs : rhs_t) (y dydx : vec) (x h eps : R) (yscal : vec) : option step :=
  match fuel with
  | O => None
  | S fuel =>
      let '(ytemp, yerr) := rkck derivs y dydx x h in
      let e := errmax n yerr yscal eps in
      if Rle_dec e 1 then
        Some (Step (x + h) ytemp h (if Rlt_dec (189 / 1000000) e then 9 / 10 * h * Rpower e (- (2 / 10)) else 5 * h))
      else
        let htemp := 9 / 10 * h * Rpower e (- (25 / 100)) in
        let h := if Rle_dec 0 h then Rmax htemp (1 / 10 * h) else Rmin htemp (1 / 10 * h) in
        rkqs_loop fuel n derivs y dydx x h eps yscal
  end.

Definition sgn (a : R) : R := if Rlt_dec a 0 then -1 else 1.
Definition TINY_NUMBER : R := / 10 ^ 20.

Section Odeint.
Variables fuel n kmax : nat.
Variable derivs : rhs_t.
Variables x1 x2 eps hmin dxsav : R.

(** utils.c:787-816: [steps] passes left; the first store is due if fabs(x-xsav) > fabs(dxsav).  Storing reads
    y[nvar], which is not part of the array. *)
Fixpoint odeint_loop (steps : nat) (xsav x h : R) (kount : nat) (y : vec) : option (res (R * vec)) :=
  match steps with
  | O => Some Fatal
  | S steps =>
      let dydx := derivs x y in
      let yscal := fun i => Rabs (y i) + Rabs (dydx i * h) + TINY_NUMBER in
      if (Nat.ltb 0 kmax && Nat.ltb kount (kmax - 1) && (if Rlt_dec (Rabs dxsav) (Rabs (x - xsav)) then true else false))%bool then Some UB
      else
        let h := if Rlt_dec 0 ((x + h - x2) * (x + h - x1)) then x2 - x else h in
        match rkqs_loop fuel n derivs y dydx x h eps yscal with
        | None => None
        | Some s =>
            if Rle_dec 0 ((sx s - x2) * (x2 - x1)) then
              Some (if Nat.ltb 0 kmax then UB else Ok (sx s, sy s))
            else if Rle_dec (Rabs (hnext s)) hmin then Some Fatal
            else odeint_loop steps xsav (sx s) (hnext s) kount (sy s)
        end
  end.
End Odeint.

(** utils.c:780-786; MAXSTP is 10000.  The x at which the loop was left and ystart. *)
Definition odeint (fuel n kmax : nat) (derivs : rhs_t) (ystart : vec) (x1 x2 eps h1 hmin dxsav : R) : option (res (R * vec)) :=
  odeint_loop fuel n kmax derivs x1 x2 eps hmin dxsav (Z.to_nat 10000) (x1 - dxsav * 2) x1 (Rabs h1 * sgn (x2 - x1)) 0 ystart.
(** utils.c:830-838 *)
Definition odeint_lite (fuel n : nat) (derivs : rhs_t) (ystart : vec) (x1 x2 eps h1 hmin : R) : option (res (R * vec)) :=
  odeint fuel n 0 derivs ystart x1 x2 eps h1 hmin 0.
