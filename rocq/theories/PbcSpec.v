(** Property C84: what becomes of the particles at the boundaries of the Grids and of the Domain. *)
From Coq Require Import ZArith Bool Reals List.
From Verif Require Import CStr MeshModel PartModel PbcModel.
Import ListNotations.
Open Scope R_scope.

Definition multi (W : pworld) (ax : axis) : Prop := (1 < w_Nx W ax)%Z.
(** The edges of the Domain *)
Definition Dmin (W : pworld) (ax : axis) : R := w_edge W ax 0%Z.
Definition Dmax (W : pworld) (ax : axis) : R := w_edge W ax (w_N W ax).
(** The particles of a processor *)
Definition particles (s : pst) : list grain := map (fun k => s_a s (Z.of_nat k)) (seq 0 (Z.to_nat (s_n s))).

(** ** What should happen *)

(** New position and velocity along an axis *)
Definition place (W : pworld) (ax : axis) (x v : R) : R * R :=
  if Rle_dec (Dmax W ax) x then
    match w_bco W ax with
    | Periodic => (x - (Dmax W ax - Dmin W ax), v)
    | Reflecting => (2 * Dmax W ax - x, - v)
    | Outflow => (x, v)
    end
  else if Rlt_dec x (Dmin W ax) then
    match w_bci W ax with
    | Periodic => (x + (Dmax W ax - Dmin W ax), v)
    | Reflecting => (2 * Dmin W ax - x, - v)
    | Outflow => (x, v)
    end
  else (x, v).
Definition placed (W : pworld) (ax : axis) (x v : R) : R * R := if (1 <? w_Nx W ax)%Z then place W ax x v else (x, v).
Definition image (W : pworld) (g : grain) : grain :=
  let p ax := placed W ax (comp ax (g_x g)) (comp ax (g_v g)) in
  Grain (V3 (fst (p X1)) (fst (p X2)) (fst (p X3))) (V3 (snd (p X1)) (snd (p X2)) (snd (p X3))) (g_type g) 1 (g_id g).
(** Where particles may be: the Domain, and beyond an outflow boundary three more cells.  (An axis with one cell counts one unit more.) *)
Definition open_lo (W : pworld) (ax : axis) : bool := (1 <? w_Nx W ax)%Z && is_out (w_bci W ax).
Definition open_up (W : pworld) (ax : axis) : bool := (1 <? w_Nx W ax)%Z && is_out (w_bco W ax).
Definition dlo (W : pworld) (ax : axis) : R := if open_lo W ax then Dmin W ax - 3 * w_dx W ax else Dmin W ax.
Definition dup (W : pworld) (ax : axis) : R :=
  (if open_up W ax then Dmax W ax + 3 * w_dx W ax else Dmax W ax) + (if (1 <? w_Nx W ax)%Z then 0 else 1).
Definition within (lo up x : R) : bool := (if Rle_dec lo x then true else false) && (if Rlt_dec x up then true else false).
(** A particle that ends up elsewhere is removed. *)
Definition fate (W : pworld) (g : grain) : list grain :=
  if within (dlo W X1) (dup W X1) (q1 (g_x (image W g))) && within (dlo W X2) (dup W X2) (q2 (g_x (image W g))) && within (dlo W X3) (dup W X3) (q3 (g_x (image W g)))
  then [image W g] else [].

(** ** One Grid *)

(** The part of that region which belongs to Grid [r] *)
Definition glo (W : pworld) (r : rank) (ax : axis) : R := if open_lo W ax && (ridx ax r =? 0)%Z then gMin W r ax - 3 * w_dx W ax else gMin W r ax.
Definition gup (W : pworld) (r : rank) (ax : axis) : R :=
  (if open_up W ax && (ridx ax r =? w_N W ax - 1)%Z then gMax W r ax + 3 * w_dx W ax else gMax W r ax) + (if (1 <? w_Nx W ax)%Z then 0 else 1).
Definition inside (W : pworld) (r : rank) (g : grain) (ax : axis) : Prop := glo W r ax <= comp ax (g_x g) < gup W r ax.
(** The width of a Grid, and of its neighbours (of itself where there is none) *)
Definition width (W : pworld) (r : rank) (ax : axis) : R := gMax W r ax - gMin W r ax.
Definition width_l (W : pworld) (r : rank) (ax : axis) : R := width W (if has_l W r ax then left_of W ax r else r) ax.
Definition width_r (W : pworld) (r : rank) (ax : axis) : R := width W (if has_r W r ax then right_of W ax r else r) ax.
(** A particle of Grid [r] has moved at most into the neighbouring Grids; beyond an outflow boundary it may be anywhere; it is not exactly on a
    reflecting outer boundary (see C84_reflect_edge_refuted). *)
Definition reach (W : pworld) (r : rank) (ax : axis) (x : R) : Prop :=
  (x < gMin W r ax -> has_l W r ax = false /\ w_bci W ax = Outflow \/ gMin W r ax - width_l W r ax < x) /\
  (gMax W r ax <= x -> has_r W r ax = false /\ w_bco W ax = Outflow \/ x < gMax W r ax + width_r W r ax) /\
  (x = Dmax W ax -> has_r W r ax = false -> w_bco W ax <> Reflecting).
(** The state after the particles have moved: those that left the Grid are marked (property C71). *)
Definition moved (W : pworld) (r : rank) (g : grain) : Prop :=
  g_pos g = 1%Z /\ (forall ax, inside W r g ax) \/
  g_pos g = 10%Z /\ (forall ax, if (1 <? w_Nx W ax)%Z then reach W r ax (comp ax (g_x g)) else inside W r g ax).

(** ** The Domain *)

Definition in_domain (W : pworld) (r : rank) : Prop := forall ax, (0 <= ridx ax r < w_N W ax)%Z.
(** The Grids follow each other along each axis, the boundary conditions are periodic on both sides or on none, and the
    buffers are not empty (see C84_buffer_refuted). *)
Record world (W : pworld) : Prop := {
  tiles : forall ax l, (0 <= l < w_N W ax)%Z -> w_edge W ax l < w_edge W ax (l + 1)%Z;
  sizes : forall ax, 0 < w_dx W ax;
  pairs : forall ax, is_per (w_bci W ax) = is_per (w_bco W ax);
  cells : forall ax, (1 <= w_Nx W ax)%Z;
  single : forall ax, w_Nx W ax = 1%Z -> w_N W ax = 1%Z;
  buffers : (1 <= w_NBUF W)%Z;
  types : (w_types W <= 2 ^ 31)%Z
}.
(** The boundaries along x3 that work: not outflow at the inner one, outflow at the outer one only if x2 has several cells too (property C71), and
    reflecting at the inner one only if it is at 0 (see C84_reflect_x3_refuted). *)
Definition x3_works (W : pworld) : Prop :=
  (multi W X3 -> w_bci W X3 <> Outflow /\ (w_bci W X3 = Reflecting -> Dmin W X3 = 0)) /\ (w_bco W X3 = Outflow -> (multi W X2 <-> multi W X3)).
(** Particle types and numbers fit. *)
Definition labelled (W : pworld) (g : grain) : Prop := (0 <= g_type g < w_types W /\ 0 <= g_id g < 2 ^ 63)%Z.
(** For the resorting: the number of the cell fits in an int. *)
Definition sortable (W : pworld) (r : rank) (g : grain) : Prop :=
  forall ax, multi W ax -> - IZR (2 ^ 31) < (comp ax (g_x g) - gMin W r ax) / w_dx W ax < IZR (2 ^ 31).
Definition count (ty : Z) (l : list grain) : Z := Z.of_nat (length (filter (fun g => g_type g =? ty)%Z l)).
