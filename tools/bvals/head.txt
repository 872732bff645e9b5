(** Model of src/bvals_mhd.c: physical boundary conditions, packing and unpacking of
    messages, and the exchange of ghost zones between the Grids of a Domain.

    Configuration: MHD, adiabatic, any number of passive scalars.  Without MHD the face
    arrays and B1c..B3c are absent; the theorems about [fU] then hold with these components
    ignored.  RADIATION variables and SHEARING_BOX are not modelled.  Words are of an
    arbitrary type [F] with an arbitrary unary minus [neg] and constant [zero]: no
    arithmetic law is assumed, so the results hold bit for bit for IEEE numbers.

    The bodies of the boundary, pack and unpack functions were transcribed from the C loops
    by tools/bvals2v.py.  The two or three consecutive statements "copy the cell, then negate
    some of its components" are merged into one assignment with a function on cells. *)
From Coq Require Import ZArith List Bool Lia.
From Verif Require Import Loop.
Import ListNotations.
Open Scope Z_scope.

Inductive axis := A1 | A2 | A3.
Definition axis_eqb (a b : axis) : bool :=
  match a, b with A1, A1 | A2, A2 | A3, A3 => true | _, _ => false end.

(** Size of a Grid: nghost and Nx[0..2]; src/init_grid.c:77-147 sets is..ke from them. *)
Record geom := Geom { g_ng : Z; g_N1 : Z; g_N2 : Z; g_N3 : Z }.
Definition g_is (G : geom) : Z := if g_N1 G >? 1 then g_ng G else 0.
Definition g_ie (G : geom) : Z := if g_N1 G >? 1 then g_N1 G + g_ng G - 1 else 0.
Definition g_js (G : geom) : Z := if g_N2 G >? 1 then g_ng G else 0.
Definition g_je (G : geom) : Z := if g_N2 G >? 1 then g_N2 G + g_ng G - 1 else 0.
Definition g_ks (G : geom) : Z := if g_N3 G >? 1 then g_ng G else 0.
Definition g_ke (G : geom) : Z := if g_N3 G >? 1 then g_N3 G + g_ng G - 1 else 0.
Definition g_N (G : geom) (a : axis) : Z := match a with A1 => g_N1 G | A2 => g_N2 G | A3 => g_N3 G end.
(** Allocated extent of the arrays U, B1i, B2i, B3i: src/init_grid.c:151-181. *)
Definition alloc (N ng : Z) : Z := if N >? 1 then N + 2 * ng else 1.

Section Bvals.
Context {F : Type} (neg : F -> F) (zero : F).
Definition same {A : Type} (x : A) : A := x.

(** ConsS, src/athena.h: conserved variables of one cell with [cs] the scalars s[NSCALARS]. *)
Record cons := Cons { cd : F; cM1 : F; cM2 : F; cM3 : F; cE : F; cB1 : F; cB2 : F; cB3 : F; cs : list F }.
Definition neg_M1 (c : cons) : cons := Cons (cd c) (neg (cM1 c)) (cM2 c) (cM3 c) (cE c) (cB1 c) (cB2 c) (cB3 c) (cs c).
Definition neg_M2 (c : cons) : cons := Cons (cd c) (cM1 c) (neg (cM2 c)) (cM3 c) (cE c) (cB1 c) (cB2 c) (cB3 c) (cs c).
Definition neg_M3 (c : cons) : cons := Cons (cd c) (cM1 c) (cM2 c) (neg (cM3 c)) (cE c) (cB1 c) (cB2 c) (cB3 c) (cs c).
Definition neg_B1c (c : cons) : cons := Cons (cd c) (cM1 c) (cM2 c) (cM3 c) (cE c) (neg (cB1 c)) (cB2 c) (cB3 c) (cs c).
Definition neg_B2c (c : cons) : cons := Cons (cd c) (cM1 c) (cM2 c) (cM3 c) (cE c) (cB1 c) (neg (cB2 c)) (cB3 c) (cs c).
Definition neg_B3c (c : cons) : cons := Cons (cd c) (cM1 c) (cM2 c) (cM3 c) (cE c) (cB1 c) (cB2 c) (neg (cB3 c)) (cs c).

(** The arrays of a Grid. *)
Record fields := Flds { fU : arr cons; fB1 : arr F; fB2 : arr F; fB3 : arr F }.
(** The assignments a boundary function makes to the four arrays, in program order per array
    (no assignment mixes two arrays). *)
Record prog := Prog { pU : list (asg cons); pB1 : list (asg F); pB2 : list (asg F); pB3 : list (asg F) }.
Definition apply (p : prog) (f : fields) : fields :=
  Flds (run (pU p) (fU f)) (run (pB1 p) (fB1 f)) (run (pB2 p) (fB2 f)) (run (pB3 p) (fB3 f)).

(** ** Messages *)
(** The words of one cell in the order in which pack_* stores them. *)
Definition words (c : cons) : list F := [cd c; cM1 c; cM2 c; cM3 c; cE c; cB1 c; cB2 c; cB3 c] ++ cs c.
(** Read a cell with [n] scalars from the message; None if the message is too short. *)
Definition of_words (n : nat) (b : list F) : option (cons * list F) :=
  match b with
  | d :: m1 :: m2 :: m3 :: e :: b1 :: b2 :: b3 :: r =>
      if (n <=? length r)%nat then Some (Cons d m1 m2 m3 e b1 b2 b3 (firstn n r), skipn n r) else None
  | _ => None
  end.
Fixpoint rd_cells (n : nat) (L : list idx) (A : arr cons) (b : list F) : option (arr cons * list F) :=
  match L with
  | [] => Some (A, b)
  | c :: L' => match of_words n b with Some (v, b') => rd_cells n L' (set A c v) b' | None => None end
  end.
Fixpoint rd_words (L : list idx) (A : arr F) (b : list F) : option (arr F * list F) :=
  match L with
  | [] => Some (A, b)
  | c :: L' => match b with v :: b' => rd_words L' (set A c v) b' | [] => None end
  end.
(** The elements of U, B1i, B2i, B3i which a pack or unpack function visits, in order: first
    the loop over U, with all words of a cell (pack_*: "*(pSnd++) = ..."; unpack_*:
    "... = *(pRcv++)"), then the loops over B1i, B2i, B3i. *)
Record visit := Visit { vU : list idx; vB1 : list idx; vB2 : list idx; vB3 : list idx }.
Definition pack (v : visit) (f : fields) : list F :=
  flat_map (fun c => words (fU f c)) (vU v) ++ map (fB1 f) (vB1 v) ++ map (fB2 f) (vB2 v) ++ map (fB3 f) (vB3 v).
Definition unpack (n : nat) (v : visit) (b : list F) (f : fields) : option fields :=
  match rd_cells n (vU v) (fU f) b with
  | None => None
  | Some (u, b0) =>
    match rd_words (vB1 v) (fB1 f) b0 with
    | None => None
    | Some (x1, b1) =>
      match rd_words (vB2 v) (fB2 f) b1 with
      | None => None
      | Some (x2, b2) =>
        match rd_words (vB3 v) (fB3 f) b2 with
        | None => None
        | Some (x3, _) => Some (Flds u x1 x2 x3)
        end
      end
    end
  end.

(** ** Boundary, pack and unpack functions *)
