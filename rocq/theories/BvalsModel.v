(** Model of src/bvals_mhd.c: physical boundary conditions, packing and unpacking of
    messages, and the exchange of ghost zones between the Grids of a Domain.

    Configuration: MHD, adiabatic, any number of passive scalars.  Without MHD the face
    arrays and B1c..B3c are absent; the theorems about [fU] then hold with these components
    ignored.  RADIATION variables and SHEARING_BOX are not modelled.  Words are of an
    arbitrary type [F] with an arbitrary unary minus [neg] and constant [zero]: no
    arithmetic law is assumed, so the results hold bit for bit for IEEE numbers.

    The bodies of the boundary, pack and unpack functions were transcribed from the C loops
    by tools/bvals2v.py.  The two or three consecutive statements "copy the cell, then negate
    some of its components" are merged into one assignment with a function on cells. *)
From Coq Require Import ZArith List Bool Lia.
From Verif Require Import Loop.
Import ListNotations.
Open Scope Z_scope.

Inductive axis := A1 | A2 | A3.
Definition axis_eqb (a b : axis) : bool :=
  match a, b with A1, A1 | A2, A2 | A3, A3 => true | _, _ => false end.

(** Size of a Grid: nghost and Nx[0..2]; src/init_grid.c:77-147 sets is..ke from them. *)
Record geom := Geom { g_ng : Z; g_N1 : Z; g_N2 : Z; g_N3 : Z }.
Definition g_is (G : geom) : Z := if g_N1 G >? 1 then g_ng G else 0.
Definition g_ie (G : geom) : Z := if g_N1 G >? 1 then g_N1 G + g_ng G - 1 else 0.
Definition g_js (G : geom) : Z := if g_N2 G >? 1 then g_ng G else 0.
Definition g_je (G : geom) : Z := if g_N2 G >? 1 then g_N2 G + g_ng G - 1 else 0.
Definition g_ks (G : geom) : Z := if g_N3 G >? 1 then g_ng G else 0.
Definition g_ke (G : geom) : Z := if g_N3 G >? 1 then g_N3 G + g_ng G - 1 else 0.
Definition g_N (G : geom) (a : axis) : Z := match a with A1 => g_N1 G | A2 => g_N2 G | A3 => g_N3 G end.
(** Allocated extent of the arrays U, B1i, B2i, B3i: src/init_grid.c:151-181. *)
Definition alloc (N ng : Z) : Z := if N >? 1 then N + 2 * ng else 1.

Section Bvals.
Context {F : Type} (neg : F -> F) (zero : F).
Definition same {A : Type} (x : A) : A := x.

(** ConsS, src/athena.h: conserved variables of one cell with [cs] the scalars s[NSCALARS]. *)
Record cons := Cons { cd : F; cM1 : F; cM2 : F; cM3 : F; cE : F; cB1 : F; cB2 : F; cB3 : F; cs : list F }.
Definition neg_M1 (c : cons) : cons := Cons (cd c) (neg (cM1 c)) (cM2 c) (cM3 c) (cE c) (cB1 c) (cB2 c) (cB3 c) (cs c).
Definition neg_M2 (c : cons) : cons := Cons (cd c) (cM1 c) (neg (cM2 c)) (cM3 c) (cE c) (cB1 c) (cB2 c) (cB3 c) (cs c).
Definition neg_M3 (c : cons) : cons := Cons (cd c) (cM1 c) (cM2 c) (neg (cM3 c)) (cE c) (cB1 c) (cB2 c) (cB3 c) (cs c).
Definition neg_B1c (c : cons) : cons := Cons (cd c) (cM1 c) (cM2 c) (cM3 c) (cE c) (neg (cB1 c)) (cB2 c) (cB3 c) (cs c).
Definition neg_B2c (c : cons) : cons := Cons (cd c) (cM1 c) (cM2 c) (cM3 c) (cE c) (cB1 c) (neg (cB2 c)) (cB3 c) (cs c).
Definition neg_B3c (c : cons) : cons := Cons (cd c) (cM1 c) (cM2 c) (cM3 c) (cE c) (cB1 c) (cB2 c) (neg (cB3 c)) (cs c).

(** The arrays of a Grid. *)
Record fields := Flds { fU : arr cons; fB1 : arr F; fB2 : arr F; fB3 : arr F }.
(** The assignments a boundary function makes to the four arrays, in program order per array
    (no assignment mixes two arrays). *)
Record prog := Prog { pU : list (asg cons); pB1 : list (asg F); pB2 : list (asg F); pB3 : list (asg F) }.
Definition apply (p : prog) (f : fields) : fields :=
  Flds (run (pU p) (fU f)) (run (pB1 p) (fB1 f)) (run (pB2 p) (fB2 f)) (run (pB3 p) (fB3 f)).

(** ** Messages *)
(** The words of one cell in the order in which pack_* stores them. *)
Definition words (c : cons) : list F := [cd c; cM1 c; cM2 c; cM3 c; cE c; cB1 c; cB2 c; cB3 c] ++ cs c.
(** Read a cell with [n] scalars from the message; None if the message is too short. *)
Definition of_words (n : nat) (b : list F) : option (cons * list F) :=
  match b with
  | d :: m1 :: m2 :: m3 :: e :: b1 :: b2 :: b3 :: r =>
      if (n <=? length r)%nat then Some (Cons d m1 m2 m3 e b1 b2 b3 (firstn n r), skipn n r) else None
  | _ => None
  end.
Fixpoint rd_cells (n : nat) (L : list idx) (A : arr cons) (b : list F) : option (arr cons * list F) :=
  match L with
  | [] => Some (A, b)
  | c :: L' => match of_words n b with Some (v, b') => rd_cells n L' (set A c v) b' | None => None end
  end.
Fixpoint rd_words (L : list idx) (A : arr F) (b : list F) : option (arr F * list F) :=
  match L with
  | [] => Some (A, b)
  | c :: L' => match b with v :: b' => rd_words L' (set A c v) b' | [] => None end
  end.
(** The elements of U, B1i, B2i, B3i which a pack or unpack function visits, in order: first
    the loop over U, with all words of a cell (pack_*: "*(pSnd++) = ..."; unpack_*:
    "... = *(pRcv++)"), then the loops over B1i, B2i, B3i. *)
Record visit := Visit { vU : list idx; vB1 : list idx; vB2 : list idx; vB3 : list idx }.
Definition pack (v : visit) (f : fields) : list F :=
  flat_map (fun c => words (fU f c)) (vU v) ++ map (fB1 f) (vB1 v) ++ map (fB2 f) (vB2 v) ++ map (fB3 f) (vB3 v).
Definition unpack (n : nat) (v : visit) (b : list F) (f : fields) : option fields :=
  match rd_cells n (vU v) (fU f) b with
  | None => None
  | Some (u, b0) =>
    match rd_words (vB1 v) (fB1 f) b0 with
    | None => None
    | Some (x1, b1) =>
      match rd_words (vB2 v) (fB2 f) b1 with
      | None => None
      | Some (x2, b2) =>
        match rd_words (vB3 v) (fB3 f) b2 with
        | None => None
        | Some (x3, _) => Some (Flds u x1 x2 x3)
        end
      end
    end
  end.

(** ** Boundary, pack and unpack functions *)
(** src/bvals_mhd.c:957-1010 *)
Definition reflect_ix1 (G : geom) : prog :=
  let ng := g_ng G in let is := g_is G in let ie := g_ie G in let js := g_js G in let je := g_je G in
  let ks := g_ks G in let ke := g_ke G in
  let ju := if (g_N2 G >? 1) then je + 1 else je in
  let ku := if (g_N3 G >? 1) then ke + 1 else ke in
  Prog
    (for_ (ks) (ke) (fun k =>
      for_ (js) (je) (fun j =>
        for_ (1) (ng) (fun i =>
          [((k, j, is - i), Copy (k, j, is + (i - 1)) (fun c => neg_B1c (neg_M1 c)))]))))
    (for_ (ks) (ke) (fun k =>
      for_ (js) (je) (fun j =>
        [((k, j, is), Const zero)] ++ for_ (1) (ng - 1) (fun i =>
          [((k, j, is - i), Copy (k, j, is + i) neg)]))))
    (for_ (ks) (ke) (fun k =>
      for_ (js) (ju) (fun j =>
        for_ (1) (ng) (fun i =>
          [((k, j, is - i), Copy (k, j, is + (i - 1)) same)]))))
    (for_ (ks) (ku) (fun k =>
      for_ (js) (je) (fun j =>
        for_ (1) (ng) (fun i =>
          [((k, j, is - i), Copy (k, j, is + (i - 1)) same)])))).

(** src/bvals_mhd.c:1016-1069 *)
Definition reflect_ox1 (G : geom) : prog :=
  let ng := g_ng G in let is := g_is G in let ie := g_ie G in let js := g_js G in let je := g_je G in
  let ks := g_ks G in let ke := g_ke G in
  let ju := if (g_N2 G >? 1) then je + 1 else je in
  let ku := if (g_N3 G >? 1) then ke + 1 else ke in
  Prog
    (for_ (ks) (ke) (fun k =>
      for_ (js) (je) (fun j =>
        for_ (1) (ng) (fun i =>
          [((k, j, ie + i), Copy (k, j, ie - (i - 1)) (fun c => neg_B1c (neg_M1 c)))]))))
    (for_ (ks) (ke) (fun k =>
      for_ (js) (je) (fun j =>
        [((k, j, ie + 1), Const zero)] ++ for_ (2) (ng) (fun i =>
          [((k, j, ie + i), Copy (k, j, ie - (i - 2)) neg)]))))
    (for_ (ks) (ke) (fun k =>
      for_ (js) (ju) (fun j =>
        for_ (1) (ng) (fun i =>
          [((k, j, ie + i), Copy (k, j, ie - (i - 1)) same)]))))
    (for_ (ks) (ku) (fun k =>
      for_ (js) (je) (fun j =>
        for_ (1) (ng) (fun i =>
          [((k, j, ie + i), Copy (k, j, ie - (i - 1)) same)])))).

(** src/bvals_mhd.c:1075-1130 *)
Definition reflect_ix2 (G : geom) : prog :=
  let ng := g_ng G in let is := g_is G in let ie := g_ie G in let js := g_js G in let je := g_je G in
  let ks := g_ks G in let ke := g_ke G in
  let ku := if (g_N3 G >? 1) then ke + 1 else ke in
  Prog
    (for_ (ks) (ke) (fun k =>
      for_ (1) (ng) (fun j =>
        for_ (is - ng) (ie + ng) (fun i =>
          [((k, js - j, i), Copy (k, js + (j - 1), i) (fun c => neg_B2c (neg_M2 c)))]))))
    (for_ (ks) (ke) (fun k =>
      for_ (1) (ng) (fun j =>
        for_ (is - (ng - 1)) (ie + ng) (fun i =>
          [((k, js - j, i), Copy (k, js + (j - 1), i) same)]))))
    (for_ (ks) (ke) (fun k =>
      for_ (is - ng) (ie + ng) (fun i =>
        [((k, js, i), Const zero)]) ++ for_ (1) (ng - 1) (fun j =>
        for_ (is - ng) (ie + ng) (fun i =>
          [((k, js - j, i), Copy (k, js + j, i) neg)]))))
    (for_ (ks) (ku) (fun k =>
      for_ (1) (ng) (fun j =>
        for_ (is - ng) (ie + ng) (fun i =>
          [((k, js - j, i), Copy (k, js + (j - 1), i) same)])))).

(** src/bvals_mhd.c:1136-1191 *)
Definition reflect_ox2 (G : geom) : prog :=
  let ng := g_ng G in let is := g_is G in let ie := g_ie G in let js := g_js G in let je := g_je G in
  let ks := g_ks G in let ke := g_ke G in
  let ku := if (g_N3 G >? 1) then ke + 1 else ke in
  Prog
    (for_ (ks) (ke) (fun k =>
      for_ (1) (ng) (fun j =>
        for_ (is - ng) (ie + ng) (fun i =>
          [((k, je + j, i), Copy (k, je - (j - 1), i) (fun c => neg_B2c (neg_M2 c)))]))))
    (for_ (ks) (ke) (fun k =>
      for_ (1) (ng) (fun j =>
        for_ (is - (ng - 1)) (ie + ng) (fun i =>
          [((k, je + j, i), Copy (k, je - (j - 1), i) same)]))))
    (for_ (ks) (ke) (fun k =>
      for_ (is - ng) (ie + ng) (fun i =>
        [((k, je + 1, i), Const zero)]) ++ for_ (2) (ng) (fun j =>
        for_ (is - ng) (ie + ng) (fun i =>
          [((k, je + j, i), Copy (k, je - (j - 2), i) neg)]))))
    (for_ (ks) (ku) (fun k =>
      for_ (1) (ng) (fun j =>
        for_ (is - ng) (ie + ng) (fun i =>
          [((k, je + j, i), Copy (k, je - (j - 1), i) same)])))).

(** src/bvals_mhd.c:1197-1251 *)
Definition reflect_ix3 (G : geom) : prog :=
  let ng := g_ng G in let is := g_is G in let ie := g_ie G in let js := g_js G in let je := g_je G in
  let ks := g_ks G in let ke := g_ke G in
  Prog
    (for_ (1) (ng) (fun k =>
      for_ (js - ng) (je + ng) (fun j =>
        for_ (is - ng) (ie + ng) (fun i =>
          [((ks - k, j, i), Copy (ks + (k - 1), j, i) (fun c => neg_B3c (neg_M3 c)))]))))
    (for_ (1) (ng) (fun k =>
      for_ (js - ng) (je + ng) (fun j =>
        for_ (is - (ng - 1)) (ie + ng) (fun i =>
          [((ks - k, j, i), Copy (ks + (k - 1), j, i) same)]))))
    (for_ (1) (ng) (fun k =>
      for_ (js - (ng - 1)) (je + ng) (fun j =>
        for_ (is - ng) (ie + ng) (fun i =>
          [((ks - k, j, i), Copy (ks + (k - 1), j, i) same)]))))
    (for_ (js - ng) (je + ng) (fun j =>
      for_ (is - ng) (ie + ng) (fun i =>
        [((ks, j, i), Const zero)])) ++
    for_ (1) (ng - 1) (fun k =>
      for_ (js - ng) (je + ng) (fun j =>
        for_ (is - ng) (ie + ng) (fun i =>
          [((ks - k, j, i), Copy (ks + k, j, i) neg)])))).

(** src/bvals_mhd.c:1257-1311 *)
Definition reflect_ox3 (G : geom) : prog :=
  let ng := g_ng G in let is := g_is G in let ie := g_ie G in let js := g_js G in let je := g_je G in
  let ks := g_ks G in let ke := g_ke G in
  Prog
    (for_ (1) (ng) (fun k =>
      for_ (js - ng) (je + ng) (fun j =>
        for_ (is - ng) (ie + ng) (fun i =>
          [((ke + k, j, i), Copy (ke - (k - 1), j, i) (fun c => neg_B3c (neg_M3 c)))]))))
    (for_ (1) (ng) (fun k =>
      for_ (js - ng) (je + ng) (fun j =>
        for_ (is - (ng - 1)) (ie + ng) (fun i =>
          [((ke + k, j, i), Copy (ke - (k - 1), j, i) same)]))))
    (for_ (1) (ng) (fun k =>
      for_ (js - (ng - 1)) (je + ng) (fun j =>
        for_ (is - ng) (ie + ng) (fun i =>
          [((ke + k, j, i), Copy (ke - (k - 1), j, i) same)]))))
    (for_ (js - ng) (je + ng) (fun j =>
      for_ (is - ng) (ie + ng) (fun i =>
        [((ke + 1, j, i), Const zero)])) ++
    for_ (2) (ng) (fun k =>
      for_ (js - ng) (je + ng) (fun j =>
        for_ (is - ng) (ie + ng) (fun i =>
          [((ke + k, j, i), Copy (ke - (k - 2), j, i) neg)])))).

(** src/bvals_mhd.c:1317-1365 *)
Definition outflow_ix1 (G : geom) : prog :=
  let ng := g_ng G in let is := g_is G in let ie := g_ie G in let js := g_js G in let je := g_je G in
  let ks := g_ks G in let ke := g_ke G in
  let ju := if (g_N2 G >? 1) then je + 1 else je in
  let ku := if (g_N3 G >? 1) then ke + 1 else ke in
  Prog
    (for_ (ks) (ke) (fun k =>
      for_ (js) (je) (fun j =>
        for_ (1) (ng) (fun i =>
          [((k, j, is - i), Copy (k, j, is) same)]))))
    (for_ (ks) (ke) (fun k =>
      for_ (js) (je) (fun j =>
        for_ (1) (ng - 1) (fun i =>
          [((k, j, is - i), Copy (k, j, is) same)]))))
    (for_ (ks) (ke) (fun k =>
      for_ (js) (ju) (fun j =>
        for_ (1) (ng) (fun i =>
          [((k, j, is - i), Copy (k, j, is) same)]))))
    (for_ (ks) (ku) (fun k =>
      for_ (js) (je) (fun j =>
        for_ (1) (ng) (fun i =>
          [((k, j, is - i), Copy (k, j, is) same)])))).

(** src/bvals_mhd.c:1371-1419 *)
Definition outflow_ox1 (G : geom) : prog :=
  let ng := g_ng G in let is := g_is G in let ie := g_ie G in let js := g_js G in let je := g_je G in
  let ks := g_ks G in let ke := g_ke G in
  let ju := if (g_N2 G >? 1) then je + 1 else je in
  let ku := if (g_N3 G >? 1) then ke + 1 else ke in
  Prog
    (for_ (ks) (ke) (fun k =>
      for_ (js) (je) (fun j =>
        for_ (1) (ng) (fun i =>
          [((k, j, ie + i), Copy (k, j, ie) same)]))))
    (for_ (ks) (ke) (fun k =>
      for_ (js) (je) (fun j =>
        for_ (2) (ng) (fun i =>
          [((k, j, ie + i), Copy (k, j, ie) same)]))))
    (for_ (ks) (ke) (fun k =>
      for_ (js) (ju) (fun j =>
        for_ (1) (ng) (fun i =>
          [((k, j, ie + i), Copy (k, j, ie) same)]))))
    (for_ (ks) (ku) (fun k =>
      for_ (js) (je) (fun j =>
        for_ (1) (ng) (fun i =>
          [((k, j, ie + i), Copy (k, j, ie) same)])))).

(** src/bvals_mhd.c:1425-1473 *)
Definition outflow_ix2 (G : geom) : prog :=
  let ng := g_ng G in let is := g_is G in let ie := g_ie G in let js := g_js G in let je := g_je G in
  let ks := g_ks G in let ke := g_ke G in
  let ku := if (g_N3 G >? 1) then ke + 1 else ke in
  Prog
    (for_ (ks) (ke) (fun k =>
      for_ (1) (ng) (fun j =>
        for_ (is - ng) (ie + ng) (fun i =>
          [((k, js - j, i), Copy (k, js, i) same)]))))
    (for_ (ks) (ke) (fun k =>
      for_ (1) (ng) (fun j =>
        for_ (is - (ng - 1)) (ie + ng) (fun i =>
          [((k, js - j, i), Copy (k, js, i) same)]))))
    (for_ (ks) (ke) (fun k =>
      for_ (1) (ng - 1) (fun j =>
        for_ (is - ng) (ie + ng) (fun i =>
          [((k, js - j, i), Copy (k, js, i) same)]))))
    (for_ (ks) (ku) (fun k =>
      for_ (1) (ng) (fun j =>
        for_ (is - ng) (ie + ng) (fun i =>
          [((k, js - j, i), Copy (k, js, i) same)])))).

(** src/bvals_mhd.c:1479-1527 *)
Definition outflow_ox2 (G : geom) : prog :=
  let ng := g_ng G in let is := g_is G in let ie := g_ie G in let js := g_js G in let je := g_je G in
  let ks := g_ks G in let ke := g_ke G in
  let ku := if (g_N3 G >? 1) then ke + 1 else ke in
  Prog
    (for_ (ks) (ke) (fun k =>
      for_ (1) (ng) (fun j =>
        for_ (is - ng) (ie + ng) (fun i =>
          [((k, je + j, i), Copy (k, je, i) same)]))))
    (for_ (ks) (ke) (fun k =>
      for_ (1) (ng) (fun j =>
        for_ (is - (ng - 1)) (ie + ng) (fun i =>
          [((k, je + j, i), Copy (k, je, i) same)]))))
    (for_ (ks) (ke) (fun k =>
      for_ (2) (ng) (fun j =>
        for_ (is - ng) (ie + ng) (fun i =>
          [((k, je + j, i), Copy (k, je, i) same)]))))
    (for_ (ks) (ku) (fun k =>
      for_ (1) (ng) (fun j =>
        for_ (is - ng) (ie + ng) (fun i =>
          [((k, je + j, i), Copy (k, je, i) same)])))).

(** src/bvals_mhd.c:1533-1578 *)
Definition outflow_ix3 (G : geom) : prog :=
  let ng := g_ng G in let is := g_is G in let ie := g_ie G in let js := g_js G in let je := g_je G in
  let ks := g_ks G in let ke := g_ke G in
  Prog
    (for_ (1) (ng) (fun k =>
      for_ (js - ng) (je + ng) (fun j =>
        for_ (is - ng) (ie + ng) (fun i =>
          [((ks - k, j, i), Copy (ks, j, i) same)]))))
    (for_ (1) (ng) (fun k =>
      for_ (js - ng) (je + ng) (fun j =>
        for_ (is - (ng - 1)) (ie + ng) (fun i =>
          [((ks - k, j, i), Copy (ks, j, i) same)]))))
    (for_ (1) (ng) (fun k =>
      for_ (js - (ng - 1)) (je + ng) (fun j =>
        for_ (is - ng) (ie + ng) (fun i =>
          [((ks - k, j, i), Copy (ks, j, i) same)]))))
    (for_ (1) (ng - 1) (fun k =>
      for_ (js - ng) (je + ng) (fun j =>
        for_ (is - ng) (ie + ng) (fun i =>
          [((ks - k, j, i), Copy (ks, j, i) same)])))).

(** src/bvals_mhd.c:1584-1629 *)
Definition outflow_ox3 (G : geom) : prog :=
  let ng := g_ng G in let is := g_is G in let ie := g_ie G in let js := g_js G in let je := g_je G in
  let ks := g_ks G in let ke := g_ke G in
  Prog
    (for_ (1) (ng) (fun k =>
      for_ (js - ng) (je + ng) (fun j =>
        for_ (is - ng) (ie + ng) (fun i =>
          [((ke + k, j, i), Copy (ke, j, i) same)]))))
    (for_ (1) (ng) (fun k =>
      for_ (js - ng) (je + ng) (fun j =>
        for_ (is - (ng - 1)) (ie + ng) (fun i =>
          [((ke + k, j, i), Copy (ke, j, i) same)]))))
    (for_ (1) (ng) (fun k =>
      for_ (js - (ng - 1)) (je + ng) (fun j =>
        for_ (is - ng) (ie + ng) (fun i =>
          [((ke + k, j, i), Copy (ke, j, i) same)]))))
    (for_ (2) (ng) (fun k =>
      for_ (js - ng) (je + ng) (fun j =>
        for_ (is - ng) (ie + ng) (fun i =>
          [((ke + k, j, i), Copy (ke, j, i) same)])))).

(** src/bvals_mhd.c:1635-1683 *)
Definition periodic_ix1 (G : geom) : prog :=
  let ng := g_ng G in let is := g_is G in let ie := g_ie G in let js := g_js G in let je := g_je G in
  let ks := g_ks G in let ke := g_ke G in
  let ju := if (g_N2 G >? 1) then je + 1 else je in
  let ku := if (g_N3 G >? 1) then ke + 1 else ke in
  Prog
    (for_ (ks) (ke) (fun k =>
      for_ (js) (je) (fun j =>
        for_ (1) (ng) (fun i =>
          [((k, j, is - i), Copy (k, j, ie - (i - 1)) same)]))))
    (for_ (ks) (ke) (fun k =>
      for_ (js) (je) (fun j =>
        for_ (1) (ng - 1) (fun i =>
          [((k, j, is - i), Copy (k, j, ie - (i - 1)) same)]))))
    (for_ (ks) (ke) (fun k =>
      for_ (js) (ju) (fun j =>
        for_ (1) (ng) (fun i =>
          [((k, j, is - i), Copy (k, j, ie - (i - 1)) same)]))))
    (for_ (ks) (ku) (fun k =>
      for_ (js) (je) (fun j =>
        for_ (1) (ng) (fun i =>
          [((k, j, is - i), Copy (k, j, ie - (i - 1)) same)])))).

(** src/bvals_mhd.c:1689-1737 *)
Definition periodic_ox1 (G : geom) : prog :=
  let ng := g_ng G in let is := g_is G in let ie := g_ie G in let js := g_js G in let je := g_je G in
  let ks := g_ks G in let ke := g_ke G in
  let ju := if (g_N2 G >? 1) then je + 1 else je in
  let ku := if (g_N3 G >? 1) then ke + 1 else ke in
  Prog
    (for_ (ks) (ke) (fun k =>
      for_ (js) (je) (fun j =>
        for_ (1) (ng) (fun i =>
          [((k, j, ie + i), Copy (k, j, is + (i - 1)) same)]))))
    (for_ (ks) (ke) (fun k =>
      for_ (js) (je) (fun j =>
        for_ (2) (ng) (fun i =>
          [((k, j, ie + i), Copy (k, j, is + (i - 1)) same)]))))
    (for_ (ks) (ke) (fun k =>
      for_ (js) (ju) (fun j =>
        for_ (1) (ng) (fun i =>
          [((k, j, ie + i), Copy (k, j, is + (i - 1)) same)]))))
    (for_ (ks) (ku) (fun k =>
      for_ (js) (je) (fun j =>
        for_ (1) (ng) (fun i =>
          [((k, j, ie + i), Copy (k, j, is + (i - 1)) same)])))).

(** src/bvals_mhd.c:1743-1791 *)
Definition periodic_ix2 (G : geom) : prog :=
  let ng := g_ng G in let is := g_is G in let ie := g_ie G in let js := g_js G in let je := g_je G in
  let ks := g_ks G in let ke := g_ke G in
  let ku := if (g_N3 G >? 1) then ke + 1 else ke in
  Prog
    (for_ (ks) (ke) (fun k =>
      for_ (1) (ng) (fun j =>
        for_ (is - ng) (ie + ng) (fun i =>
          [((k, js - j, i), Copy (k, je - (j - 1), i) same)]))))
    (for_ (ks) (ke) (fun k =>
      for_ (1) (ng) (fun j =>
        for_ (is - (ng - 1)) (ie + ng) (fun i =>
          [((k, js - j, i), Copy (k, je - (j - 1), i) same)]))))
    (for_ (ks) (ke) (fun k =>
      for_ (1) (ng - 1) (fun j =>
        for_ (is - ng) (ie + ng) (fun i =>
          [((k, js - j, i), Copy (k, je - (j - 1), i) same)]))))
    (for_ (ks) (ku) (fun k =>
      for_ (1) (ng) (fun j =>
        for_ (is - ng) (ie + ng) (fun i =>
          [((k, js - j, i), Copy (k, je - (j - 1), i) same)])))).

(** src/bvals_mhd.c:1797-1845 *)
Definition periodic_ox2 (G : geom) : prog :=
  let ng := g_ng G in let is := g_is G in let ie := g_ie G in let js := g_js G in let je := g_je G in
  let ks := g_ks G in let ke := g_ke G in
  let ku := if (g_N3 G >? 1) then ke + 1 else ke in
  Prog
    (for_ (ks) (ke) (fun k =>
      for_ (1) (ng) (fun j =>
        for_ (is - ng) (ie + ng) (fun i =>
          [((k, je + j, i), Copy (k, js + (j - 1), i) same)]))))
    (for_ (ks) (ke) (fun k =>
      for_ (1) (ng) (fun j =>
        for_ (is - (ng - 1)) (ie + ng) (fun i =>
          [((k, je + j, i), Copy (k, js + (j - 1), i) same)]))))
    (for_ (ks) (ke) (fun k =>
      for_ (2) (ng) (fun j =>
        for_ (is - ng) (ie + ng) (fun i =>
          [((k, je + j, i), Copy (k, js + (j - 1), i) same)]))))
    (for_ (ks) (ku) (fun k =>
      for_ (1) (ng) (fun j =>
        for_ (is - ng) (ie + ng) (fun i =>
          [((k, je + j, i), Copy (k, js + (j - 1), i) same)])))).

(** src/bvals_mhd.c:1851-1896 *)
Definition periodic_ix3 (G : geom) : prog :=
  let ng := g_ng G in let is := g_is G in let ie := g_ie G in let js := g_js G in let je := g_je G in
  let ks := g_ks G in let ke := g_ke G in
  Prog
    (for_ (1) (ng) (fun k =>
      for_ (js - ng) (je + ng) (fun j =>
        for_ (is - ng) (ie + ng) (fun i =>
          [((ks - k, j, i), Copy (ke - (k - 1), j, i) same)]))))
    (for_ (1) (ng) (fun k =>
      for_ (js - ng) (je + ng) (fun j =>
        for_ (is - (ng - 1)) (ie + ng) (fun i =>
          [((ks - k, j, i), Copy (ke - (k - 1), j, i) same)]))))
    (for_ (1) (ng) (fun k =>
      for_ (js - (ng - 1)) (je + ng) (fun j =>
        for_ (is - ng) (ie + ng) (fun i =>
          [((ks - k, j, i), Copy (ke - (k - 1), j, i) same)]))))
    (for_ (1) (ng - 1) (fun k =>
      for_ (js - ng) (je + ng) (fun j =>
        for_ (is - ng) (ie + ng) (fun i =>
          [((ks - k, j, i), Copy (ke - (k - 1), j, i) same)])))).

(** src/bvals_mhd.c:1902-1947 *)
Definition periodic_ox3 (G : geom) : prog :=
  let ng := g_ng G in let is := g_is G in let ie := g_ie G in let js := g_js G in let je := g_je G in
  let ks := g_ks G in let ke := g_ke G in
  Prog
    (for_ (1) (ng) (fun k =>
      for_ (js - ng) (je + ng) (fun j =>
        for_ (is - ng) (ie + ng) (fun i =>
          [((ke + k, j, i), Copy (ks + (k - 1), j, i) same)]))))
    (for_ (1) (ng) (fun k =>
      for_ (js - ng) (je + ng) (fun j =>
        for_ (is - (ng - 1)) (ie + ng) (fun i =>
          [((ke + k, j, i), Copy (ks + (k - 1), j, i) same)]))))
    (for_ (1) (ng) (fun k =>
      for_ (js - (ng - 1)) (je + ng) (fun j =>
        for_ (is - ng) (ie + ng) (fun i =>
          [((ke + k, j, i), Copy (ks + (k - 1), j, i) same)]))))
    (for_ (2) (ng) (fun k =>
      for_ (js - ng) (je + ng) (fun j =>
        for_ (is - ng) (ie + ng) (fun i =>
          [((ke + k, j, i), Copy (ks + (k - 1), j, i) same)])))).

(** src/bvals_mhd.c:1953-2006 *)
Definition conduct_ix1 (G : geom) : prog :=
  let ng := g_ng G in let is := g_is G in let ie := g_ie G in let js := g_js G in let je := g_je G in
  let ks := g_ks G in let ke := g_ke G in
  let ju := if (g_N2 G >? 1) then je + 1 else je in
  let ku := if (g_N3 G >? 1) then ke + 1 else ke in
  Prog
    (for_ (ks) (ke) (fun k =>
      for_ (js) (je) (fun j =>
        for_ (1) (ng) (fun i =>
          [((k, j, is - i), Copy (k, j, is + (i - 1)) (fun c => neg_B3c (neg_B2c (neg_M1 c))))]))))
    (for_ (ks) (ke) (fun k =>
      for_ (js) (je) (fun j =>
        for_ (1) (ng - 1) (fun i =>
          [((k, j, is - i), Copy (k, j, is + i) same)]))))
    (for_ (ks) (ke) (fun k =>
      for_ (js) (ju) (fun j =>
        for_ (1) (ng) (fun i =>
          [((k, j, is - i), Copy (k, j, is + (i - 1)) neg)]))))
    (for_ (ks) (ku) (fun k =>
      for_ (js) (je) (fun j =>
        for_ (1) (ng) (fun i =>
          [((k, j, is - i), Copy (k, j, is + (i - 1)) neg)])))).

(** src/bvals_mhd.c:2012-2065 *)
Definition conduct_ox1 (G : geom) : prog :=
  let ng := g_ng G in let is := g_is G in let ie := g_ie G in let js := g_js G in let je := g_je G in
  let ks := g_ks G in let ke := g_ke G in
  let ju := if (g_N2 G >? 1) then je + 1 else je in
  let ku := if (g_N3 G >? 1) then ke + 1 else ke in
  Prog
    (for_ (ks) (ke) (fun k =>
      for_ (js) (je) (fun j =>
        for_ (1) (ng) (fun i =>
          [((k, j, ie + i), Copy (k, j, ie - (i - 1)) (fun c => neg_B3c (neg_B2c (neg_M1 c))))]))))
    (for_ (ks) (ke) (fun k =>
      for_ (js) (je) (fun j =>
        for_ (2) (ng) (fun i =>
          [((k, j, ie + i), Copy (k, j, ie - (i - 2)) same)]))))
    (for_ (ks) (ke) (fun k =>
      for_ (js) (ju) (fun j =>
        for_ (1) (ng) (fun i =>
          [((k, j, ie + i), Copy (k, j, ie - (i - 1)) neg)]))))
    (for_ (ks) (ku) (fun k =>
      for_ (js) (je) (fun j =>
        for_ (1) (ng) (fun i =>
          [((k, j, ie + i), Copy (k, j, ie - (i - 1)) neg)])))).

(** src/bvals_mhd.c:2071-2124 *)
Definition conduct_ix2 (G : geom) : prog :=
  let ng := g_ng G in let is := g_is G in let ie := g_ie G in let js := g_js G in let je := g_je G in
  let ks := g_ks G in let ke := g_ke G in
  let ku := if (g_N3 G >? 1) then ke + 1 else ke in
  Prog
    (for_ (ks) (ke) (fun k =>
      for_ (1) (ng) (fun j =>
        for_ (is - ng) (ie + ng) (fun i =>
          [((k, js - j, i), Copy (k, js + (j - 1), i) (fun c => neg_B3c (neg_B1c (neg_M2 c))))]))))
    (for_ (ks) (ke) (fun k =>
      for_ (1) (ng) (fun j =>
        for_ (is - ng) (ie + ng) (fun i =>
          [((k, js - j, i), Copy (k, js + (j - 1), i) neg)]))))
    (for_ (ks) (ke) (fun k =>
      for_ (1) (ng - 1) (fun j =>
        for_ (is - ng) (ie + ng) (fun i =>
          [((k, js - j, i), Copy (k, js + j, i) same)]))))
    (for_ (ks) (ku) (fun k =>
      for_ (1) (ng) (fun j =>
        for_ (is - ng) (ie + ng) (fun i =>
          [((k, js - j, i), Copy (k, js + (j - 1), i) neg)])))).

(** src/bvals_mhd.c:2130-2183 *)
Definition conduct_ox2 (G : geom) : prog :=
  let ng := g_ng G in let is := g_is G in let ie := g_ie G in let js := g_js G in let je := g_je G in
  let ks := g_ks G in let ke := g_ke G in
  let ku := if (g_N3 G >? 1) then ke + 1 else ke in
  Prog
    (for_ (ks) (ke) (fun k =>
      for_ (1) (ng) (fun j =>
        for_ (is - ng) (ie + ng) (fun i =>
          [((k, je + j, i), Copy (k, je - (j - 1), i) (fun c => neg_B3c (neg_B1c (neg_M2 c))))]))))
    (for_ (ks) (ke) (fun k =>
      for_ (1) (ng) (fun j =>
        for_ (is - (ng - 1)) (ie + ng) (fun i =>
          [((k, je + j, i), Copy (k, je - (j - 1), i) neg)]))))
    (for_ (ks) (ke) (fun k =>
      for_ (2) (ng) (fun j =>
        for_ (is - ng) (ie + ng) (fun i =>
          [((k, je + j, i), Copy (k, je - (j - 2), i) same)]))))
    (for_ (ks) (ku) (fun k =>
      for_ (1) (ng) (fun j =>
        for_ (is - ng) (ie + ng) (fun i =>
          [((k, je + j, i), Copy (k, je - (j - 1), i) neg)])))).

(** src/bvals_mhd.c:2189-2239 *)
Definition conduct_ix3 (G : geom) : prog :=
  let ng := g_ng G in let is := g_is G in let ie := g_ie G in let js := g_js G in let je := g_je G in
  let ks := g_ks G in let ke := g_ke G in
  Prog
    (for_ (1) (ng) (fun k =>
      for_ (js - ng) (je + ng) (fun j =>
        for_ (is - ng) (ie + ng) (fun i =>
          [((ks - k, j, i), Copy (ks + (k - 1), j, i) (fun c => neg_B2c (neg_B1c (neg_M3 c))))]))))
    (for_ (1) (ng) (fun k =>
      for_ (js - ng) (je + ng) (fun j =>
        for_ (is - (ng - 1)) (ie + ng) (fun i =>
          [((ks - k, j, i), Copy (ks + (k - 1), j, i) neg)]))))
    (for_ (1) (ng) (fun k =>
      for_ (js - (ng - 1)) (je + ng) (fun j =>
        for_ (is - ng) (ie + ng) (fun i =>
          [((ks - k, j, i), Copy (ks + (k - 1), j, i) neg)]))))
    (for_ (1) (ng - 1) (fun k =>
      for_ (js - ng) (je + ng) (fun j =>
        for_ (is - ng) (ie + ng) (fun i =>
          [((ks - k, j, i), Copy (ks + k, j, i) same)])))).

(** src/bvals_mhd.c:2245-2295 *)
Definition conduct_ox3 (G : geom) : prog :=
  let ng := g_ng G in let is := g_is G in let ie := g_ie G in let js := g_js G in let je := g_je G in
  let ks := g_ks G in let ke := g_ke G in
  Prog
    (for_ (1) (ng) (fun k =>
      for_ (js - ng) (je + ng) (fun j =>
        for_ (is - ng) (ie + ng) (fun i =>
          [((ke + k, j, i), Copy (ke - (k - 1), j, i) (fun c => neg_B2c (neg_B1c (neg_M3 c))))]))))
    (for_ (1) (ng) (fun k =>
      for_ (js - ng) (je + ng) (fun j =>
        for_ (is - (ng - 1)) (ie + ng) (fun i =>
          [((ke + k, j, i), Copy (ke - (k - 1), j, i) neg)]))))
    (for_ (1) (ng) (fun k =>
      for_ (js - (ng - 1)) (je + ng) (fun j =>
        for_ (is - ng) (ie + ng) (fun i =>
          [((ke + k, j, i), Copy (ke - (k - 1), j, i) neg)]))))
    (for_ (2) (ng) (fun k =>
      for_ (js - ng) (je + ng) (fun j =>
        for_ (is - ng) (ie + ng) (fun i =>
          [((ke + k, j, i), Copy (ke - (k - 2), j, i) same)])))).

(** src/bvals_mhd.c:2315-2382 *)
Definition pack_ix1 (G : geom) : visit :=
  let ng := g_ng G in let is := g_is G in let ie := g_ie G in let js := g_js G in let je := g_je G in
  let ks := g_ks G in let ke := g_ke G in
  let ju := if (g_N2 G >? 1) then je + 1 else je in
  let ku := if (g_N3 G >? 1) then ke + 1 else ke in
  Visit
    (for_ (ks) (ke) (fun k => for_ (js) (je) (fun j => for_ (is) (is + (ng - 1)) (fun i => [(k, j, i)]))))
    (for_ (ks) (ke) (fun k => for_ (js) (je) (fun j => for_ (is + 1) (is + (ng - 1)) (fun i => [(k, j, i)]))))
    (for_ (ks) (ke) (fun k => for_ (js) (ju) (fun j => for_ (is) (is + (ng - 1)) (fun i => [(k, j, i)]))))
    (for_ (ks) (ku) (fun k => for_ (js) (je) (fun j => for_ (is) (is + (ng - 1)) (fun i => [(k, j, i)])))).

(** src/bvals_mhd.c:2388-2454 *)
Definition pack_ox1 (G : geom) : visit :=
  let ng := g_ng G in let is := g_is G in let ie := g_ie G in let js := g_js G in let je := g_je G in
  let ks := g_ks G in let ke := g_ke G in
  let ju := if (g_N2 G >? 1) then je + 1 else je in
  let ku := if (g_N3 G >? 1) then ke + 1 else ke in
  Visit
    (for_ (ks) (ke) (fun k => for_ (js) (je) (fun j => for_ (ie - (ng - 1)) (ie) (fun i => [(k, j, i)]))))
    (for_ (ks) (ke) (fun k => for_ (js) (je) (fun j => for_ (ie - (ng - 2)) (ie) (fun i => [(k, j, i)]))))
    (for_ (ks) (ke) (fun k => for_ (js) (ju) (fun j => for_ (ie - (ng - 1)) (ie) (fun i => [(k, j, i)]))))
    (for_ (ks) (ku) (fun k => for_ (js) (je) (fun j => for_ (ie - (ng - 1)) (ie) (fun i => [(k, j, i)])))).

(** src/bvals_mhd.c:2460-2527 *)
Definition pack_ix2 (G : geom) : visit :=
  let ng := g_ng G in let is := g_is G in let ie := g_ie G in let js := g_js G in let je := g_je G in
  let ks := g_ks G in let ke := g_ke G in
  let ku := if (g_N3 G >? 1) then ke + 1 else ke in
  Visit
    (for_ (ks) (ke) (fun k => for_ (js) (js + (ng - 1)) (fun j => for_ (is - ng) (ie + ng) (fun i => [(k, j, i)]))))
    (for_ (ks) (ke) (fun k => for_ (js) (js + (ng - 1)) (fun j => for_ (is - (ng - 1)) (ie + ng) (fun i => [(k, j, i)]))))
    (for_ (ks) (ke) (fun k => for_ (js + 1) (js + (ng - 1)) (fun j => for_ (is - ng) (ie + ng) (fun i => [(k, j, i)]))))
    (for_ (ks) (ku) (fun k => for_ (js) (js + (ng - 1)) (fun j => for_ (is - ng) (ie + ng) (fun i => [(k, j, i)])))).

(** src/bvals_mhd.c:2533-2600 *)
Definition pack_ox2 (G : geom) : visit :=
  let ng := g_ng G in let is := g_is G in let ie := g_ie G in let js := g_js G in let je := g_je G in
  let ks := g_ks G in let ke := g_ke G in
  let ku := if (g_N3 G >? 1) then ke + 1 else ke in
  Visit
    (for_ (ks) (ke) (fun k => for_ (je - (ng - 1)) (je) (fun j => for_ (is - ng) (ie + ng) (fun i => [(k, j, i)]))))
    (for_ (ks) (ke) (fun k => for_ (je - (ng - 1)) (je) (fun j => for_ (is - (ng - 1)) (ie + ng) (fun i => [(k, j, i)]))))
    (for_ (ks) (ke) (fun k => for_ (je - (ng - 2)) (je) (fun j => for_ (is - ng) (ie + ng) (fun i => [(k, j, i)]))))
    (for_ (ks) (ku) (fun k => for_ (je - (ng - 1)) (je) (fun j => for_ (is - ng) (ie + ng) (fun i => [(k, j, i)])))).

(** src/bvals_mhd.c:2606-2670 *)
Definition pack_ix3 (G : geom) : visit :=
  let ng := g_ng G in let is := g_is G in let ie := g_ie G in let js := g_js G in let je := g_je G in
  let ks := g_ks G in let ke := g_ke G in
  Visit
    (for_ (ks) (ks + (ng - 1)) (fun k => for_ (js - ng) (je + ng) (fun j => for_ (is - ng) (ie + ng) (fun i => [(k, j, i)]))))
    (for_ (ks) (ks + (ng - 1)) (fun k => for_ (js - ng) (je + ng) (fun j => for_ (is - (ng - 1)) (ie + ng) (fun i => [(k, j, i)]))))
    (for_ (ks) (ks + (ng - 1)) (fun k => for_ (js - (ng - 1)) (je + ng) (fun j => for_ (is - ng) (ie + ng) (fun i => [(k, j, i)]))))
    (for_ (ks + 1) (ks + (ng - 1)) (fun k => for_ (js - ng) (je + ng) (fun j => for_ (is - ng) (ie + ng) (fun i => [(k, j, i)])))).

(** src/bvals_mhd.c:2676-2740 *)
Definition pack_ox3 (G : geom) : visit :=
  let ng := g_ng G in let is := g_is G in let ie := g_ie G in let js := g_js G in let je := g_je G in
  let ks := g_ks G in let ke := g_ke G in
  Visit
    (for_ (ke - (ng - 1)) (ke) (fun k => for_ (js - ng) (je + ng) (fun j => for_ (is - ng) (ie + ng) (fun i => [(k, j, i)]))))
    (for_ (ke - (ng - 1)) (ke) (fun k => for_ (js - ng) (je + ng) (fun j => for_ (is - (ng - 1)) (ie + ng) (fun i => [(k, j, i)]))))
    (for_ (ke - (ng - 1)) (ke) (fun k => for_ (js - (ng - 1)) (je + ng) (fun j => for_ (is - ng) (ie + ng) (fun i => [(k, j, i)]))))
    (for_ (ke - (ng - 2)) (ke) (fun k => for_ (js - ng) (je + ng) (fun j => for_ (is - ng) (ie + ng) (fun i => [(k, j, i)])))).

(** src/bvals_mhd.c:2746-2813 *)
Definition unpack_ix1 (G : geom) : visit :=
  let ng := g_ng G in let is := g_is G in let ie := g_ie G in let js := g_js G in let je := g_je G in
  let ks := g_ks G in let ke := g_ke G in
  let ju := if (g_N2 G >? 1) then je + 1 else je in
  let ku := if (g_N3 G >? 1) then ke + 1 else ke in
  Visit
    (for_ (ks) (ke) (fun k => for_ (js) (je) (fun j => for_ (is - ng) (is - 1) (fun i => [(k, j, i)]))))
    (for_ (ks) (ke) (fun k => for_ (js) (je) (fun j => for_ (is - (ng - 1)) (is - 1) (fun i => [(k, j, i)]))))
    (for_ (ks) (ke) (fun k => for_ (js) (ju) (fun j => for_ (is - ng) (is - 1) (fun i => [(k, j, i)]))))
    (for_ (ks) (ku) (fun k => for_ (js) (je) (fun j => for_ (is - ng) (is - 1) (fun i => [(k, j, i)])))).

(** src/bvals_mhd.c:2819-2886 *)
Definition unpack_ox1 (G : geom) : visit :=
  let ng := g_ng G in let is := g_is G in let ie := g_ie G in let js := g_js G in let je := g_je G in
  let ks := g_ks G in let ke := g_ke G in
  let ju := if (g_N2 G >? 1) then je + 1 else je in
  let ku := if (g_N3 G >? 1) then ke + 1 else ke in
  Visit
    (for_ (ks) (ke) (fun k => for_ (js) (je) (fun j => for_ (ie + 1) (ie + ng) (fun i => [(k, j, i)]))))
    (for_ (ks) (ke) (fun k => for_ (js) (je) (fun j => for_ (ie + 2) (ie + ng) (fun i => [(k, j, i)]))))
    (for_ (ks) (ke) (fun k => for_ (js) (ju) (fun j => for_ (ie + 1) (ie + ng) (fun i => [(k, j, i)]))))
    (for_ (ks) (ku) (fun k => for_ (js) (je) (fun j => for_ (ie + 1) (ie + ng) (fun i => [(k, j, i)])))).

(** src/bvals_mhd.c:2892-2959 *)
Definition unpack_ix2 (G : geom) : visit :=
  let ng := g_ng G in let is := g_is G in let ie := g_ie G in let js := g_js G in let je := g_je G in
  let ks := g_ks G in let ke := g_ke G in
  let ku := if (g_N3 G >? 1) then ke + 1 else ke in
  Visit
    (for_ (ks) (ke) (fun k => for_ (js - ng) (js - 1) (fun j => for_ (is - ng) (ie + ng) (fun i => [(k, j, i)]))))
    (for_ (ks) (ke) (fun k => for_ (js - ng) (js - 1) (fun j => for_ (is - (ng - 1)) (ie + ng) (fun i => [(k, j, i)]))))
    (for_ (ks) (ke) (fun k => for_ (js - (ng - 1)) (js - 1) (fun j => for_ (is - ng) (ie + ng) (fun i => [(k, j, i)]))))
    (for_ (ks) (ku) (fun k => for_ (js - ng) (js - 1) (fun j => for_ (is - ng) (ie + ng) (fun i => [(k, j, i)])))).

(** src/bvals_mhd.c:2965-3032 *)
Definition unpack_ox2 (G : geom) : visit :=
  let ng := g_ng G in let is := g_is G in let ie := g_ie G in let js := g_js G in let je := g_je G in
  let ks := g_ks G in let ke := g_ke G in
  let ku := if (g_N3 G >? 1) then ke + 1 else ke in
  Visit
    (for_ (ks) (ke) (fun k => for_ (je + 1) (je + ng) (fun j => for_ (is - ng) (ie + ng) (fun i => [(k, j, i)]))))
    (for_ (ks) (ke) (fun k => for_ (je + 1) (je + ng) (fun j => for_ (is - (ng - 1)) (ie + ng) (fun i => [(k, j, i)]))))
    (for_ (ks) (ke) (fun k => for_ (je + 2) (je + ng) (fun j => for_ (is - ng) (ie + ng) (fun i => [(k, j, i)]))))
    (for_ (ks) (ku) (fun k => for_ (je + 1) (je + ng) (fun j => for_ (is - ng) (ie + ng) (fun i => [(k, j, i)])))).

(** src/bvals_mhd.c:3038-3102 *)
Definition unpack_ix3 (G : geom) : visit :=
  let ng := g_ng G in let is := g_is G in let ie := g_ie G in let js := g_js G in let je := g_je G in
  let ks := g_ks G in let ke := g_ke G in
  Visit
    (for_ (ks - ng) (ks - 1) (fun k => for_ (js - ng) (je + ng) (fun j => for_ (is - ng) (ie + ng) (fun i => [(k, j, i)]))))
    (for_ (ks - ng) (ks - 1) (fun k => for_ (js - ng) (je + ng) (fun j => for_ (is - (ng - 1)) (ie + ng) (fun i => [(k, j, i)]))))
    (for_ (ks - ng) (ks - 1) (fun k => for_ (js - (ng - 1)) (je + ng) (fun j => for_ (is - ng) (ie + ng) (fun i => [(k, j, i)]))))
    (for_ (ks - (ng - 1)) (ks - 1) (fun k => for_ (js - ng) (je + ng) (fun j => for_ (is - ng) (ie + ng) (fun i => [(k, j, i)])))).

(** src/bvals_mhd.c:3108-3172 *)
Definition unpack_ox3 (G : geom) : visit :=
  let ng := g_ng G in let is := g_is G in let ie := g_ie G in let js := g_js G in let je := g_je G in
  let ks := g_ks G in let ke := g_ke G in
  Visit
    (for_ (ke + 1) (ke + ng) (fun k => for_ (js - ng) (je + ng) (fun j => for_ (is - ng) (ie + ng) (fun i => [(k, j, i)]))))
    (for_ (ke + 1) (ke + ng) (fun k => for_ (js - ng) (je + ng) (fun j => for_ (is - (ng - 1)) (ie + ng) (fun i => [(k, j, i)]))))
    (for_ (ke + 1) (ke + ng) (fun k => for_ (js - (ng - 1)) (je + ng) (fun j => for_ (is - ng) (ie + ng) (fun i => [(k, j, i)]))))
    (for_ (ke + 2) (ke + ng) (fun k => for_ (js - ng) (je + ng) (fun j => for_ (is - ng) (ie + ng) (fun i => [(k, j, i)])))).

(** ** bvals_mhd_init: choice of the boundary function *)
Inductive bc := Refl | Outf | Peri | Cond.
(** The switch over BCFlag_*: src/bvals_mhd.c:558-586 (same text for the other five sides).
    None: unknown flag, the program exits. *)
Definition bc_of_flag (flag : Z) : option bc :=
  if flag =? 1 then Some Refl else if flag =? 2 then Some Outf
  else if flag =? 4 then Some Peri else if flag =? 5 then Some Cond else None.
Definition bc_fun (b : bc) (a : axis) (right : bool) : geom -> prog :=
  match b, a, right with
  | Refl, A1, false => reflect_ix1 | Refl, A1, true => reflect_ox1
  | Refl, A2, false => reflect_ix2 | Refl, A2, true => reflect_ox2
  | Refl, A3, false => reflect_ix3 | Refl, A3, true => reflect_ox3
  | Outf, A1, false => outflow_ix1 | Outf, A1, true => outflow_ox1
  | Outf, A2, false => outflow_ix2 | Outf, A2, true => outflow_ox2
  | Outf, A3, false => outflow_ix3 | Outf, A3, true => outflow_ox3
  | Peri, A1, false => periodic_ix1 | Peri, A1, true => periodic_ox1
  | Peri, A2, false => periodic_ix2 | Peri, A2, true => periodic_ox2
  | Peri, A3, false => periodic_ix3 | Peri, A3, true => periodic_ox3
  | Cond, A1, false => conduct_ix1 | Cond, A1, true => conduct_ox1
  | Cond, A2, false => conduct_ix2 | Cond, A2, true => conduct_ox2
  | Cond, A3, false => conduct_ix3 | Cond, A3, true => conduct_ox3
  end.
(** What is sent to the left and right neighbour, and where what they send is stored. *)
Definition send_l (a : axis) : geom -> visit := match a with A1 => pack_ix1 | A2 => pack_ix2 | A3 => pack_ix3 end.
Definition send_r (a : axis) : geom -> visit := match a with A1 => pack_ox1 | A2 => pack_ox2 | A3 => pack_ox3 end.
Definition recv_l (a : axis) : geom -> visit := match a with A1 => unpack_ix1 | A2 => unpack_ix2 | A3 => unpack_ix3 end.
Definition recv_r (a : axis) : geom -> visit := match a with A1 => unpack_ox1 | A2 => unpack_ox2 | A3 => unpack_ox3 end.

(** ** bvals_mhd on a Grid without neighbours (src/bvals_mhd.c:279-283, 381-385, 497-501):
    along each axis with more than one cell, left function then right function; axes in the
    order x1, x2, x3. [bl], [br]: the boundary conditions per axis. *)
Definition phys_axis (bl br : axis -> bc) (G : geom) (a : axis) (f : fields) : fields :=
  if g_N G a >? 1 then apply (bc_fun (br a) a true G) (apply (bc_fun (bl a) a false G) f) else f.
Definition bvals_mhd (bl br : axis -> bc) (G : geom) (f : fields) : fields :=
  phys_axis bl br G A3 (phys_axis bl br G A2 (phys_axis bl br G A1 f)).

(** ** bvals_mhd with neighbours, one axis (src/bvals_mhd.c:187-282 and the same text for x2,
    x3).  [ml]: the message received from the left neighbour, packed by its pack_o*; [mr]: the
    message from the right neighbour.  A Grid without a neighbour on a side uses the physical
    boundary there.  When both messages are expected they are unpacked in the order in which
    they arrive ([swap]).  None: a message is shorter than what is read from it. *)
Definition obind {A B} (o : option A) (k : A -> option B) : option B := match o with Some a => k a | None => None end.
Definition mpi_axis (n : nat) (bl br : axis -> bc) (G : geom) (a : axis) (swap : bool)
    (ml mr : option (list F)) (f : fields) : option fields :=
  if g_N G a >? 1 then
    match ml, mr with
    | Some m, Some m' =>
        if swap then obind (unpack n (recv_r a G) m' f) (unpack n (recv_l a G) m) else obind (unpack n (recv_l a G) m f) (unpack n (recv_r a G) m')
    | None, Some m' => unpack n (recv_r a G) m' (apply (bc_fun (bl a) a false G) f)
    | Some m, None => unpack n (recv_l a G) m (apply (bc_fun (br a) a true G) f)
    | None, None => Some (apply (bc_fun (br a) a true G) (apply (bc_fun (bl a) a false G) f))
    end
  else Some f.

(** ** Lengths of messages: [cnt] of src/bvals_mhd.c:190-197, 293-299, 410-415, with NVAR the
    number of words per cell (8 + NSCALARS in this configuration, src/defs.h.in). *)
Definition cnt (nvar : Z) (G : geom) (a : axis) : Z :=
  let ng := g_ng G in let N1 := g_N1 G in let N2 := g_N2 G in let N3 := g_N3 G in
  let cnt2 := if N2 >? 1 then N2 + 1 else 1 in
  let cnt3 := if N3 >? 1 then N3 + 1 else 1 in
  match a with
  | A1 => ng * N2 * N3 * nvar + (ng - 1) * N2 * N3 + ng * cnt2 * N3 + ng * N2 * cnt3
  | A2 => (N1 + 2 * ng) * ng * N3 * nvar + (N1 + 2 * ng - 1) * ng * N3 + (N1 + 2 * ng) * (ng - 1) * N3
          + (N1 + 2 * ng) * ng * cnt3
  | A3 => (N1 + 2 * ng) * (N2 + 2 * ng) * ng * nvar + (N1 + 2 * ng - 1) * (N2 + 2 * ng) * ng
          + (N1 + 2 * ng) * (N2 + 2 * ng - 1) * ng + (N1 + 2 * ng) * (N2 + 2 * ng) * (ng - 1)
  end.
(** Surface areas used to size the buffers, src/bvals_mhd.c:838-874, for one Grid of a Domain
    with NGrid > 1 along the axis. *)
Definition area (G : geom) (a : axis) : Z :=
  let up d n := if n >? 1 then n + d else n in
  match a with
  | A1 => up 1 (g_N2 G) * up 1 (g_N3 G)
  | A2 => up (2 * g_ng G) (g_N1 G) * up 1 (g_N3 G)
  | A3 => up (2 * g_ng G) (g_N1 G) * up (2 * g_ng G) (g_N2 G)
  end.
(** Buffer size, lines 838-890: the largest area over all Grids of the Domains this process
    takes part in, times nghost*(NVAR+3).  [gs]: the Grids, with the axes along which their
    Domain is divided. *)
Definition buf_size (nvar ng : Z) (gs : list (geom * list axis)) : Z :=
  fold_left (fun m G => fold_left (fun m a => Z.max m (area (fst G) a)) (snd G) m) gs 0 * (ng * (nvar + 3)).

End Bvals.
