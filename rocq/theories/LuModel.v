(** Linear algebra of src/utils.c:1247-1390: ludcmp, lubksb, InverseMatrix, MatrixMult.  Matrices are
    total functions of the row and column; Real is the real numbers. *)
From Coq Require Import Arith List Bool Reals.
From Verif Require Import CStr GasModel.
Open Scope R_scope.

Definition mat := nat -> nat -> R.
Definition vec := nat -> R.
Definition mset (a : mat) (i j : nat) (v : R) : mat := fun i' j' => if ((i' =? i) && (j' =? j))%nat then v else a i' j'.
Definition vset {V} (b : nat -> V) (i : nat) (v : V) : nat -> V := fun i' => if (i' =? i)%nat then v else b i'.
(** for (i=lo; i<lo+n; i++) *)
Fixpoint for_n {S} (i n : nat) (body : nat -> S -> S) (st : S) : S :=
  match n with O => st | Datatypes.S m => for_n (Datatypes.S i) m body (body i st) end.
(** for (k=lo;k<lo+n;k++) sum -= a[i][k]*b[k]; *)
Definition minus_dot (a : mat) (i : nat) (b : vec) (lo n : nat) (sum : R) : R :=
  for_n lo n (fun k sum => sum - a i k * b k) sum.

(** src/utils.c:1270-1272: the largest absolute value in row i *)
Definition row_big (a : mat) (n i : nat) : R :=
  for_n 0 n (fun j big => let temp := Rabs (a i j) in if Rlt_dec big temp then temp else big) 0.
(** src/utils.c:1268-1275 *)
Definition scalings (a : mat) (n : nat) (rowscale : vec) : res vec :=
  for_n 0 n (fun i r => rs <- r;; let big := row_big a n i in if Req_EM_T big 0 then Fatal else Ok (vset rs i (1 / big))) (Ok rowscale).
(** src/utils.c:1279-1283: upper block of column j *)
Definition upper_block (j : nat) (a : mat) : mat :=
  for_n 0 j (fun i a => mset a i j (minus_dot a i (fun k => a k j) 0 i (a i j))) a.
(** src/utils.c:1285-1297: lower block of column j and the pivot search; [imax] keeps its old (at first
    uninitialised) value if no row is selected. *)
Definition lower_block (n j : nat) (rowscale : vec) (a : mat) (imax : nat) : mat * R * nat :=
  for_n j (n - j) (fun i '(a, big, imax) =>
      let sum := minus_dot a i (fun k => a k j) 0 j (a i j) in
      let a := mset a i j sum in
      let dum := rowscale i * Rabs sum in
      if Rle_dec big dum then (a, dum, i) else (a, big, imax)) (a, 0, imax).
(** src/utils.c:1300-1304 *)
Definition swap_rows (n j imax : nat) (a : mat) : mat :=
  for_n 0 n (fun k a => let dum := a imax k in mset (mset a imax k (a j k)) j k dum) a.
(** src/utils.c:1311-1312 *)
Definition scale_col (n j : nat) (a : mat) : mat :=
  let dum := 1 / a j j in for_n (S j) (n - S j) (fun i a => mset a i j (a i j * dum)) a.

Record lu := LU { l_a : mat; l_scale : vec; l_indx : nat -> nat; l_d : R; l_imax : nat }.
(** src/utils.c:1277-1313: column j *)
Definition lu_col (n j : nat) (s : lu) : lu :=
  let a := upper_block j (l_a s) in
  let '(a, big, imax) := lower_block n j (l_scale s) a (l_imax s) in
  let '(a, d, rs) := if (j =? imax)%nat then (a, l_d s, l_scale s)
                     else (swap_rows n j imax a, - l_d s, vset (l_scale s) imax (l_scale s j)) in
  let indx := vset (l_indx s) j imax in
  let a := if Req_EM_T (a j j) 0 then mset a j j TINY_NUMBER else a in
  LU (scale_col n j a) rs indx d imax.
(** src/utils.c:1258-1315.  [rs0], [indx0], [imax0]: initial contents of rowscale, indx and imax. *)
Definition ludcmp (a : mat) (n : nat) (rs0 : vec) (indx0 : nat -> nat) (imax0 : nat) : res (mat * (nat -> nat) * R) :=
  rs <- scalings a n rs0;;
  let s := for_n 0 n (lu_col n) (LU a rs indx0 1 imax0) in
  Ok (l_a s, l_indx s, l_d s).

(** src/utils.c:1328-1336: solve L*y = b.  [ii] is None for -1. *)
Definition fwd (a : mat) (n : nat) (indx : nat -> nat) (b : vec) : vec * option nat :=
  for_n 0 n (fun i '(b, ii) =>
      let ip := indx i in
      let sum := b ip in
      let b := vset b ip (b i) in
      let '(sum, ii) := match ii with
        | Some i0 => (minus_dot a i b i0 (i - i0) sum, ii)
        | None => (sum, if Req_EM_T sum 0 then None else Some i)
        end in
      (vset b i sum, ii)) (b, None).
(** src/utils.c:1338-1342: solve U*x = y; for (i=n-1;i>=0;i--) *)
Fixpoint bwd (a : mat) (n : nat) (m : nat) (b : vec) : vec :=
  match m with
  | O => b
  | S i => bwd a n i (vset b i (minus_dot a i b (S i) (n - S i) (b i) / a i i))
  end.
(** src/utils.c:1323-1343 *)
Definition lubksb (a : mat) (n : nat) (indx : nat -> nat) (b : vec) : vec := bwd a n n (fst (fwd a n indx b)).

(** src/utils.c:1352-1371.  [b0], [col0] and the three arguments of ludcmp: initial contents. *)
Definition InverseMatrix (a : mat) (n : nat) (b0 : mat) (col0 : vec) (rs0 : vec) (indx0 : nat -> nat) (imax0 : nat) : res mat :=
  ' (a, indx, d) <- ludcmp a n rs0 indx0 imax0;;
  Ok (fst (for_n 0 n (fun j '(b, col) =>
        let col := for_n 0 n (fun i c => vset c i 0) col in
        let col := vset col j 1 in
        let col := lubksb a n indx col in
        (for_n 0 n (fun i b => mset b i j (col i)) b, col)) (b0, col0))).
(** src/utils.c:1375-1385 *)
Definition MatrixMult (a b : mat) (m n l : nat) (c : mat) : mat :=
  for_n 0 m (fun i c => for_n 0 l (fun j c =>
     for_n 0 n (fun k c => mset c i j (c i j + a i k * b k j)) (mset c i j 0)) c) c.
