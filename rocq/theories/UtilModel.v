(** Utility functions of src/utils.c: ath_gcd, ath_bswap, minmax1-3, compute_div_b,
    sign_change, bisection, trapzd, qsimp, avg1d-3d, avgXZ and the vector potential helpers
    vecpot2b1i-3i.  Integers are mathematical integers (the values met in ath_gcd and
    ath_bswap never grow); Real is the real numbers. *)
From Coq Require Import ZArith List Bool Reals.
From Verif Require Import CStr MeshModel PosModel GasModel.
Import ListNotations.
Open Scope R_scope.

(** * Integers and bytes *)

(** src/utils.c:54: while((c=a%b)) {a=b; b=c;} return b.  [a%b] truncates towards zero and is
    undefined for b = 0 (INT_MIN%-1 is not modelled).  [fuel] bounds the iterations; the
    properties show that it never runs out. *)
Fixpoint gcd_loop (fuel : nat) (a b : Z) : res Z :=
  if (b =? 0)%Z then UB else
  match fuel with
  | O => UB
  | S n => let c := Z.rem a b in if (c =? 0)%Z then Ok b else gcd_loop n b c
  end.
(** src/utils.c:50-56 *)
Definition ath_gcd (a b : Z) : res Z :=
  let '(a, b) := if (b >? a)%Z then (b, a) else (a, b) in
  gcd_loop (S (Z.to_nat (Z.abs b))) a b.

(** Memory: a byte at every address; [upd] stores one. *)
Definition mem (A : Type) := Z -> A.
Definition upd {A} (m : mem A) (p : Z) (v : A) : mem A := fun q => if (q =? p)%Z then v else m q.
(** tmp = dat[x]; dat[x] = dat[y]; dat[y] = tmp;   (src/utils.c:86, 91-92, 97-100, 105-107) *)
Definition swap2 {A} (x y : Z) (m : mem A) : mem A := let tmp := m x in upd (upd m x (m y)) y tmp.
(** while (cnt--) { body; dat += len; }   (src/utils.c:85-102).  A negative cnt would count down
    past the smallest int: [UB]. *)
Fixpoint while_cnt {A} (body : Z -> mem A -> mem A) (len : Z) (cnt : nat) (dat : Z) (m : mem A) : mem A :=
  match cnt with O => m | S n => while_cnt body len n (dat + len) (body dat m) end.
(** for(k=0; k<n; k++) of src/utils.c:104, from k on *)
Fixpoint general_swaps {A} (len dat k : Z) (n : nat) (m : mem A) : mem A :=
  match n with
  | O => m
  | S n' => general_swaps len dat (k + 1) n' (swap2 (dat + k) (dat + (len - 1 - k)) m)
  end.
(** src/utils.c:77-110; [dat] is the address of the first byte. *)
Definition ath_bswap {A} (dat len cnt : Z) (m : mem A) : res (mem A) :=
  if (len =? 1)%Z then Ok m
  else if (len =? 2)%Z then
    if (cnt <? 0)%Z then UB else
    Ok (while_cnt (fun d m => swap2 d (d + 1) m) 2 (Z.to_nat cnt) dat m)
  else if (len =? 4)%Z then
    if (cnt <? 0)%Z then UB else
    Ok (while_cnt (fun d m => swap2 (d + 1) (d + 2) (swap2 d (d + 3) m)) 4 (Z.to_nat cnt) dat m)
  else if (len =? 8)%Z then
    if (cnt <? 0)%Z then UB else
    Ok (while_cnt (fun d m => swap2 (d + 3) (d + 4) (swap2 (d + 2) (d + 5)
                                (swap2 (d + 1) (d + 6) (swap2 d (d + 7) m)))) 8 (Z.to_nat cnt) dat m)
  else Ok (general_swaps len dat 0 (Z.to_nat (Z.quot len 2)) m).

(** * Extremes *)

(** for (i=0; i<n; i++) st = body(i, st) *)
Fixpoint for_up {S} (i : Z) (n : nat) (body : Z -> S -> S) (st : S) : S :=
  match n with O => st | Datatypes.S n' => for_up (i + 1)%Z n' body (body i st) end.
Definition fori {S} (lo hi : Z) (body : Z -> S -> S) (st : S) : S := for_up lo (Z.to_nat (hi - lo)) body st.
(** The loop body of src/utils.c:148-149 *)
Definition mm (v : R) (st : R * R) : R * R := (MIN (fst st) v, MAX (snd st) v).
(** src/utils.c:142-155; the results are (dmin, dmax). *)
Definition minmax1 (data : Z -> R) (nx1 : Z) : R * R :=
  fori 0 nx1 (fun i => mm (data i)) (data 0%Z, data 0%Z).
(** src/utils.c:160-174 *)
Definition minmax2 (data : Z -> Z -> R) (nx2 nx1 : Z) : R * R :=
  fori 0 nx2 (fun j => fori 0 nx1 (fun i => mm (data j i))) (data 0%Z 0%Z, data 0%Z 0%Z).
(** src/utils.c:181-197 *)
Definition minmax3 (data : Z -> Z -> Z -> R) (nx3 nx2 nx1 : Z) : R * R :=
  fori 0 nx3 (fun k => fori 0 nx2 (fun j => fori 0 nx1 (fun i => mm (data k j i))))
    (data 0%Z 0%Z 0%Z, data 0%Z 0%Z 0%Z).

(** * compute_div_b *)

(** The fields of GridS read by compute_div_b besides those of [pgrid]; arrays are indexed [k][j][i]. *)
Record bgrid := BG { b_e : axis -> Z; b_B1 : Z -> Z -> Z -> R; b_B2 : Z -> Z -> Z -> R; b_B3 : Z -> Z -> Z -> R }.
(** src/utils.c:231-241: one cell; [cyl] is the macro CYLINDRICAL. *)
Definition div_b_cell (cyl : bool) (pG : pgrid) (g : bgrid) (k j i : Z) : R :=
  let '(x1, x2, x3) := cc_pos pG i j k in
  let rsf := if cyl then (x1 + 1/2 * p_dx pG X1) / x1 else 1 in
  let lsf := if cyl then (x1 - 1/2 * p_dx pG X1) / x1 else 1 in
  let dx2 := if cyl then x1 * p_dx pG X2 else p_dx pG X2 in
  let d := (rsf * b_B1 g k j (i + 1)%Z - lsf * b_B1 g k j i) / p_dx pG X1 in
  let d := if (b_e g X2 >? p_s pG X2)%Z then d + (b_B2 g k (j + 1)%Z i - b_B2 g k j i) / dx2 else d in
  if (b_e g X3 >? p_s pG X3)%Z then d + (b_B3 g (k + 1)%Z j i - b_B3 g k j i) / p_dx pG X3 else d.
(** src/utils.c:218-249 *)
Definition compute_div_b (cyl : bool) (pG : pgrid) (g : bgrid) : R :=
  fori (p_s pG X3) (b_e g X3 + 1) (fun k =>
  fori (p_s pG X2) (b_e g X2 + 1) (fun j =>
  fori (p_s pG X1) (b_e g X1 + 1) (fun i maxdivB =>
    MAX maxdivB (Rabs (div_b_cell cyl pG g k j i))))) 0.

(** * Root finding *)

Definition lt0 (x : R) : bool := if Rlt_dec x 0 then true else false.
Definition is0 (x : R) : bool := if Req_EM_T x 0 then true else false.
(** src/utils.c:524-533: the inner loop, [n] points left. *)
Fixpoint sc_scan (f : R -> R) (delta : R) (n : nat) (a fk : R) : option (R * R) :=
  match n with
  | O => None
  | S n' =>
      let b := a + delta in
      let fkp1 := f b in
      if lt0 (fkp1 * fk) then Some (a, b) else sc_scan f delta n' b fkp1
  end.
(** src/utils.c:520-534: levels k .. k+m-1.  n = pow(2,k). *)
Fixpoint sc_levels (f : R -> R) (a0 b0 : R) (k m : nat) : option (R * R) :=
  match m with
  | O => None
  | S m' =>
      let n := Nat.pow 2 k in
      let delta := (b0 - a0) / INR (n - 1) in
      match sc_scan f delta (n - 1) a0 (f a0) with
      | Some ab => Some ab
      | None => sc_levels f a0 b0 (S k) m'
      end
  end.
(** src/utils.c:514-537, with f = func(x,.); [Some (a,b)] is the return value 1 with *a and *b, [None]
    the return value 0. *)
Definition sign_change (f : R -> R) (a0 b0 : R) : option (R * R) := sc_levels f a0 b0 1 20.

(** tol, src/utils.c:546 *)
Definition bis_tol : R := / 10 ^ 10.
(** fabs((b-a)/c) < tol, src/utils.c:569.  For c = 0 the quotient is an infinity or NaN and the
    comparison is false. *)
Definition bis_close (a b c : R) : bool :=
  if Req_EM_T c 0 then false else if Rlt_dec (Rabs ((b - a) / c)) bis_tol then true else false.
(** src/utils.c:563-596, [n] iterations left; the value is *root, [Fatal] is ath_error. *)
Fixpoint bis_loop (f : R -> R) (n : nat) (a b fa fb : R) : res R :=
  match n with
  | O => Fatal
  | S n' =>
      let c := 1/2 * (a + b) in
      if bis_close a b c then Ok c else
      let fc := f c in
      if lt0 (fa * fc) then bis_loop f n' a c fa fc
      else if lt0 (fc * fb) then bis_loop f n' c b fc fb
      else if is0 fc then Ok c
      else Fatal
  end.
(** src/utils.c:543-600 *)
Definition bisection (f : R -> R) (a0 b0 : R) : res R :=
  let fa := f a0 in
  let fb := f b0 in
  if Rlt_dec (Rabs fa) bis_tol then Ok a0
  else if Rlt_dec (Rabs fb) bis_tol then Ok b0
  else bis_loop f 400 a0 b0 fa fb.

(** * Quadrature *)

(** for (sum=0.0,j=1; j<=it; j++,x+=dx) sum += func(x);   src/utils.c:871 *)
Fixpoint tz_sum (f : R -> R) (dx : R) (n : nat) (x sum : R) : R :=
  match n with O => sum | S n' => tz_sum f dx n' (x + dx) (sum + f x) end.
(** src/utils.c:858-874 *)
Definition trapzd (f : R -> R) (a b : R) (n : nat) (s : R) : R :=
  if (n =? 1)%nat then 1/2 * (b - a) * (f a + f b)
  else
    let it := Nat.pow 2 (n - 2) in
    let tnm := INR it in
    let dx := (b - a) / tnm in
    let x := a + 1/2 * dx in
    1/2 * (s + (b - a) * tz_sum f dx it x 0 / tnm).
(** src/utils.c:885-886 *)
Definition EPS : R := / 10 ^ 8.
Definition JMAX : nat := 20.
(** src/utils.c:900: the convergence test *)
Definition qs_done (s os : R) : bool :=
  (if Rlt_dec (Rabs (s - os)) (EPS * Rabs os) then true else false) || (is0 s && is0 os).
(** src/utils.c:896-904: [n] passes left, the next one is number [j]. *)
Fixpoint qs_loop (f : R -> R) (a b : R) (n j : nat) (ost os : R) : res R :=
  match n with
  | O => Fatal
  | S n' =>
      let st := trapzd f a b j ost in
      let s := (4 * st - ost) / 3 in
      if (5 <? j)%nat && qs_done s os then Ok s else qs_loop f a b n' (S j) st s
  end.
(** src/utils.c:891-907 *)
Definition qsimp (f : R -> R) (a b : R) : res R := qs_loop f a b JMAX 1 (- 10 ^ 30) (- 10 ^ 30).
(** An integrand that itself calls qsimp may end in ath_error; the whole evaluation then ends there.
    [qsimpM] is qsimp for such integrands: fatal if the integrand is fatal at one of the
    points it evaluates.  It has the text of trapzd and qsimp with the outcomes threaded. *)
Fixpoint tz_sumM (f : R -> res R) (dx : R) (n : nat) (x sum : R) : res R :=
  match n with O => Ok sum | S n' => v <- f x;; tz_sumM f dx n' (x + dx) (sum + v) end.
Definition trapzdM (f : R -> res R) (a b : R) (n : nat) (s : R) : res R :=
  if (n =? 1)%nat then fa <- f a;; fb <- f b;; Ok (1/2 * (b - a) * (fa + fb))
  else
    let it := Nat.pow 2 (n - 2) in
    let tnm := INR it in
    let dx := (b - a) / tnm in
    let x := a + 1/2 * dx in
    sum <- tz_sumM f dx it x 0;; Ok (1/2 * (s + (b - a) * sum / tnm)).
Fixpoint qs_loopM (f : R -> res R) (a b : R) (n j : nat) (ost os : R) : res R :=
  match n with
  | O => Fatal
  | S n' =>
      st <- trapzdM f a b j ost;;
      let s := (4 * st - ost) / 3 in
      if (5 <? j)%nat && qs_done s os then Ok s else qs_loopM f a b n' (S j) st s
  end.
Definition qsimpM (f : R -> res R) (a b : R) : res R := qs_loopM f a b JMAX 1 (- 10 ^ 30) (- 10 ^ 30).

(** The static variables xsav, ysav, zsav of src/utils.c:918 *)
Record sav := Sav { xsav : R; ysav : R; zsav : R }.
(** fx, src/utils.c:1018-1025: nrfunc is the user's function *)
Definition fx (cyl : bool) (nrfunc : R -> R -> R -> R) (s : sav) (x : R) : R :=
  if cyl then x * nrfunc x (ysav s) (zsav s) else nrfunc x (ysav s) (zsav s).
(** fy, src/utils.c:1010-1016 *)
Definition fy (cyl : bool) (nrfunc : R -> R -> R -> R) (xmin xmax : R) (s : sav) (y : R) : res R :=
  let s := Sav (xsav s) y (zsav s) in qsimp (fx cyl nrfunc s) xmin xmax.
(** fz, src/utils.c:1002-1008 *)
Definition fz (cyl : bool) (nrfunc : R -> R -> R -> R) (xmin xmax ymin ymax : R) (s : sav) (z : R) : res R :=
  let s := Sav (xsav s) (ysav s) z in qsimpM (fy cyl nrfunc xmin xmax s) ymin ymax.
(** Edges of the cell: src/utils.c:938, 964-965, 989-991, 1086-1088 *)
Definition cmin (pG : pgrid) (a : axis) (x : R) : R := x - 1/2 * p_dx pG a.
Definition cmax (pG : pgrid) (a : axis) (x : R) : R := x + 1/2 * p_dx pG a.
(** src/utils.c:929-948; [s] is the content of the static variables on entry *)
Definition avg1d (cyl : bool) (func : R -> R -> R -> R) (pG : pgrid) (s : sav) (i j k : Z) : res R :=
  let '(x1, x2, x3) := cc_pos pG i j k in
  let s := Sav (xsav s) x2 x3 in
  let dvol := if cyl then p_dx pG X1 * x1 else p_dx pG X1 in
  q <- qsimp (fx cyl func s) (cmin pG X1 x1) (cmax pG X1 x1);; Ok (q / dvol).
(** src/utils.c:956-974 *)
Definition avg2d (cyl : bool) (func : R -> R -> R -> R) (pG : pgrid) (s : sav) (i j k : Z) : res R :=
  let '(x1, x2, x3) := cc_pos pG i j k in
  let s := Sav (xsav s) (ysav s) x3 in
  let dvol := if cyl then p_dx pG X1 * p_dx pG X2 * x1 else p_dx pG X1 * p_dx pG X2 in
  q <- qsimpM (fy cyl func (cmin pG X1 x1) (cmax pG X1 x1) s) (cmin pG X2 x2) (cmax pG X2 x2);; Ok (q / dvol).
(** src/utils.c:983-1000 *)
Definition avg3d (cyl : bool) (func : R -> R -> R -> R) (pG : pgrid) (s : sav) (i j k : Z) : res R :=
  let '(x1, x2, x3) := cc_pos pG i j k in
  let dvol := if cyl then p_dx pG X1 * p_dx pG X2 * p_dx pG X3 * x1 else p_dx pG X1 * p_dx pG X2 * p_dx pG X3 in
  q <- qsimpM (fz cyl func (cmin pG X1 x1) (cmax pG X1 x1) (cmin pG X2 x2) (cmax pG X2 x2) s)
         (cmin pG X3 x3) (cmax pG X3 x3);; Ok (q / dvol).
(** fx2, fXZ, avgXZ: src/utils.c:1027-1055 *)
Definition fx2 (nrfunc : R -> R -> R -> R) (s : sav) (x : R) : R := nrfunc x (ysav s) (zsav s).
Definition fXZ (nrfunc : R -> R -> R -> R) (xmin xmax : R) (s : sav) (z : R) : res R :=
  let s := Sav (xsav s) (ysav s) z in qsimp (fx2 nrfunc s) xmin xmax.
Definition avgXZ (func : R -> R -> R -> R) (pG : pgrid) (s : sav) (i j k : Z) : res R :=
  let '(x1, x2, x3) := cc_pos pG i j k in
  let s := Sav (xsav s) x2 (zsav s) in
  q <- qsimpM (fXZ func (cmin pG X1 x1) (cmax pG X1 x1) s) (cmin pG X3 x3) (cmax pG X3 x3);;
  Ok (q / (p_dx pG X1 * p_dx pG X3)).

(** * Fields from a vector potential *)

(** f1, f2, f3: src/utils.c:1232-1245 *)
Definition f1 (a1func : R -> R -> R -> R) (s : sav) (x : R) : R := a1func x (ysav s) (zsav s).
Definition f2 (a2func : R -> R -> R -> R) (s : sav) (y : R) : R := a2func (xsav s) y (zsav s).
Definition f3 (a3func : R -> R -> R -> R) (s : sav) (z : R) : R := a3func (xsav s) (ysav s) z.
Definition set_x (s : sav) v := Sav v (ysav s) (zsav s).
Definition set_y (s : sav) v := Sav (xsav s) v (zsav s).
Definition set_z (s : sav) v := Sav (xsav s) (ysav s) v.
(** if (d > 0.0) b /= e; *)
Definition div_if (d e b : R) : R := if Rlt_dec 0 d then b / e else b.
(** src/utils.c:1077-1120.  A potential component is [None] for NULL. *)
Definition vecpot2b1i (cyl : bool) (A2 A3 : option (R -> R -> R -> R)) (pG : pgrid) (s : sav) (i j k : Z) : res R :=
  let '(x1, x2, x3) := cc_pos pG i j k in
  let xmin := cmin pG X1 x1 in
  let ymin := cmin pG X2 x2 in let ymax := cmax pG X2 x2 in
  let zmin := cmin pG X3 x3 in let zmax := cmax pG X3 x3 in
  let s := set_x s xmin in
  let lsf := if cyl then xmin else 1 in
  let rsf := if cyl then xmin else 1 in
  let dx2 := if cyl then xmin * p_dx pG X2 else p_dx pG X2 in
  ' (b1i, s) <- match A2 with
    | None => Ok (0, s)
    | Some A2 =>
        if Req_EM_T ymin ymax then Ok (0 + (rsf * A2 xmin ymin zmin - lsf * A2 xmin ymin zmax), s)
        else
          let s := set_z s zmin in
          p <- qsimp (f2 A2 s) ymin ymax;;
          let s := set_z s zmax in
          q <- qsimp (f2 A2 s) ymin ymax;;
          Ok (0 + rsf * p - lsf * q, s)
    end;;
  ' (b1i, s) <- match A3 with
    | None => Ok (b1i, s)
    | Some A3 =>
        if Req_EM_T zmin zmax then Ok (b1i + (A3 xmin ymax zmin - A3 xmin ymin zmin), s)
        else
          let s := set_y s ymax in
          p <- qsimp (f3 A3 s) zmin zmax;;
          let s := set_y s ymin in
          q <- qsimp (f3 A3 s) zmin zmax;;
          Ok (b1i + p - q, s)
    end;;
  Ok (div_if (p_dx pG X3) (p_dx pG X3) (div_if (p_dx pG X2) dx2 b1i)).
(** src/utils.c:1133-1174 *)
Definition vecpot2b2i (A1 A3 : option (R -> R -> R -> R)) (pG : pgrid) (s : sav) (i j k : Z) : res R :=
  let '(x1, x2, x3) := cc_pos pG i j k in
  let xmin := cmin pG X1 x1 in let xmax := cmax pG X1 x1 in
  let ymin := cmin pG X2 x2 in
  let zmin := cmin pG X3 x3 in let zmax := cmax pG X3 x3 in
  let s := set_y s ymin in
  ' (b2i, s) <- match A1 with
    | None => Ok (0, s)
    | Some A1 =>
        if Req_EM_T xmin xmax then Ok (0 + (A1 xmin ymin zmax - A1 xmin ymin zmin), s)
        else
          let s := set_z s zmax in
          p <- qsimp (f1 A1 s) xmin xmax;;
          let s := set_z s zmin in
          q <- qsimp (f1 A1 s) xmin xmax;;
          Ok (0 + p - q, s)
    end;;
  ' (b2i, s) <- match A3 with
    | None => Ok (b2i, s)
    | Some A3 =>
        if Req_EM_T zmin zmax then Ok (b2i + (A3 xmin ymin zmin - A3 xmax ymin zmin), s)
        else
          let s := set_x s xmin in
          p <- qsimp (f3 A3 s) zmin zmax;;
          let s := set_x s xmax in
          q <- qsimp (f3 A3 s) zmin zmax;;
          Ok (b2i + p - q, s)
    end;;
  Ok (div_if (p_dx pG X3) (p_dx pG X3) (div_if (p_dx pG X1) (p_dx pG X1) b2i)).
(** src/utils.c:1185-1230 *)
Definition vecpot2b3i (cyl : bool) (A1 A2 : option (R -> R -> R -> R)) (pG : pgrid) (s : sav) (i j k : Z) : res R :=
  let '(x1, x2, x3) := cc_pos pG i j k in
  let xmin := cmin pG X1 x1 in let xmax := cmax pG X1 x1 in
  let ymin := cmin pG X2 x2 in let ymax := cmax pG X2 x2 in
  let zmin := cmin pG X3 x3 in
  let s := set_z s zmin in
  let rsf := if cyl then xmax else 1 in
  let lsf := if cyl then xmin else 1 in
  let dx2 := if cyl then x1 * p_dx pG X2 else p_dx pG X2 in
  ' (b3i, s) <- match A1 with
    | None => Ok (0, s)
    | Some A1 =>
        if Req_EM_T xmin xmax then Ok (0 + (A1 xmin ymin zmin - A1 xmin ymax zmin), s)
        else
          let s := set_y s ymin in
          p <- qsimp (f1 A1 s) xmin xmax;;
          let s := set_y s ymax in
          q <- qsimp (f1 A1 s) xmin xmax;;
          Ok (0 + p - q, s)
    end;;
  ' (b3i, s) <- match A2 with
    | None => Ok (b3i, s)
    | Some A2 =>
        if Req_EM_T ymin ymax then Ok (b3i + (rsf * A2 xmax ymin zmin - lsf * A2 xmin ymin zmin), s)
        else
          let s := set_x s xmax in
          p <- qsimp (f2 A2 s) ymin ymax;;
          let s := set_x s xmin in
          q <- qsimp (f2 A2 s) ymin ymax;;
          Ok (b3i + rsf * p - lsf * q, s)
    end;;
  Ok (div_if (p_dx pG X2) dx2 (div_if (p_dx pG X1) (p_dx pG X1) b3i)).
