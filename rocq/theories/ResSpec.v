(** What a restart must give back, stated without reference to the functions of the model. *)
From Coq Require Import String Ascii NArith ZArith Bool Arith Lia List.
From Verif Require Import CStr ParModel ResModel.
Import ListNotations.
Open Scope Z_scope.

(** The integers from [lo] up to but not including [hi] *)
Definition zrange (lo hi : Z) : list Z := map (fun n => lo + Z.of_nat n) (seq 0 (Z.to_nat (hi - lo))).

(** A type whose values (those in [dom]) survive being written to and read from memory *)
Definition codec_ok {A} (C : codec A) (dom : A -> Prop) : Prop :=
  (1 <= c_size C <= 16)%nat /\
  forall a, dom a -> length (c_enc C a) = c_size C /\ c_dec C (c_enc C a) = a.
Definition fits_in (n : Z) (z : Z) : Prop := - 2 ^ n <= z < 2 ^ n.
(** The machine: every Real, 32-bit int, 64-bit long, 16-bit short *)
Definition mach_ok {R} (M : mach R) : Prop :=
  codec_ok (cR M) (fun _ => True) /\ codec_ok (cI M) (fits_in 31) /\
  codec_ok (cL M) (fits_in 63) /\ codec_ok (cS M) (fits_in 15).

(** Active zones; [a], [b], [c] more zones at the upper ends *)
Definition zone {R} (g : grid R) (c b a : Z) (k j i : Z) : Prop :=
  g_ks g <= k <= g_ke g + c /\ g_js g <= j <= g_je g + b /\ g_is g <= i <= g_ie g + a.

(** Cell-centred variables in the configuration (without the magnetic field) *)
Definition cell_var (c : rcfg) (f : fld) : Prop :=
  match f with
  | FD | FM1 | FM2 | FM3 => True
  | FE => r_baro c = false
  | FS n => 0 <= n < r_nscal c
  | _ => False
  end.

(** The flags ib, jb, kb for a Grid *)
Definition own_wide {R} (g : grid R) : wide := Wide (g_ie g >? g_is g) (g_je g >? g_js g) (g_ke g >? g_ks g).

(** The centred fields of [g] are what the faces say: the formula of the geometry in the directions that
    have more than one cell, the face value in the others *)
Definition centred {R} (M : mach R) (b : wide) (g : grid R) (u : arrays R) : Prop :=
  forall k j i, zone g 0 0 0 k j i ->
    u FB1c k j i = (if w1 b then cc1 M i (u FB1i k j i) (u FB1i k j (i + 1)) else u FB1i k j i) /\
    u FB2c k j i = (if w2 b then cc2 M j (u FB2i k j i) (u FB2i k (j + 1) i) else u FB2i k j i) /\
    u FB3c k j i = (if w3 b then cc3 M k (u FB3i k j i) (u FB3i (k + 1) j i) else u FB3i k j i).

(** The data over the mesh come back: cell-centred variables in the active zones, fields on all their
    faces; everything else (ghost zones, other arrays) is left as it was in [u0]. *)
Definition data_back {R} (M : mach R) (c : rcfg) (b : wide) (g : grid R) (u0 u : arrays R) : Prop :=
  (forall f, cell_var c f -> forall k j i, zone g 0 0 0 k j i -> u f k j i = g_u g f k j i) /\
  (r_mhd c = true ->
     (forall k j i, zone g 0 0 (b2z (w1 b)) k j i -> u FB1i k j i = g_u g FB1i k j i) /\
     (forall k j i, zone g 0 (b2z (w2 b)) 0 k j i -> u FB2i k j i = g_u g FB2i k j i) /\
     (forall k j i, zone g (b2z (w3 b)) 0 0 k j i -> u FB3i k j i = g_u g FB3i k j i) /\
     centred M b g u) /\
  (forall f k j i,
     ~ (cell_var c f /\ zone g 0 0 0 k j i) ->
     ~ (r_mhd c = true /\ (f = FB1c \/ f = FB2c \/ f = FB3c) /\ zone g 0 0 0 k j i) ->
     ~ (r_mhd c = true /\ f = FB1i /\ zone g 0 0 (b2z (w1 b)) k j i) ->
     ~ (r_mhd c = true /\ f = FB2i /\ zone g 0 (b2z (w2 b)) 0 k j i) ->
     ~ (r_mhd c = true /\ f = FB3i /\ zone g (b2z (w3 b)) 0 0 k j i) ->
     u f k j i = u0 f k j i).

(** The particles of the Grid: those with pos == 1, in order *)
Definition own_parts {R} (g : grid R) : list (part R) :=
  filter (fun p => p_pos p =? 1) (map (g_part g) (zrange 0 (g_np g))).
Definition same_part {R} (c : rcfg) (p q : part R) : Prop :=
  (forall f, p_r q f = p_r p f) /\ p_prop q = p_prop p /\ p_id q = p_id p /\ p_pos q = 1 /\
  (r_mpi c = true -> p_init q = p_init p).
(** The particles come back, and there is room for them *)
Definition parts_back {R} (c : rcfg) (g g' : grid R) : Prop :=
  g_np g' = Z.of_nat (length (own_parts g)) /\
  Forall2 (same_part c) (own_parts g) (map (g_part g') (zrange 0 (g_np g'))) /\
  g_np g' + 2 <= g_arr g'.

(** One Grid: [g] was written, [g0] is the Grid that is read into, [g'] the result *)
Definition grid_back {R} (M : mach R) (c : rcfg) (time dt : R) (b : wide) (g g0 g' : grid R) : Prop :=
  (g_is g', g_ie g', g_js g', g_je g', g_ks g', g_ke g') = (g_is g0, g_ie g0, g_js g0, g_je g0, g_ks g0, g_ke g0) /\
  g_time g' = time /\ g_dt g' = dt /\
  data_back M c b g (g_u g0) (g_u g') /\
  (if r_part c then parts_back c g g'
   else g_np g' = g_np g0 /\ g_arr g' = g_arr g0 /\ g_part g' = g_part g0).

(** Same layout: the Grid that is read into has the indices of the Grid that was written *)
Definition same_box {R} (g g0 : grid R) : Prop :=
  (g_is g, g_ie g, g_js g, g_je g, g_ks g, g_ke g) = (g_is g0, g_ie g0, g_js g0, g_je g0, g_ks g0, g_ke g0).
Definition same_place {R} (o o0 : option (grid R)) : Prop :=
  match o, o0 with Some g, Some g0 => same_box g g0 | None, None => True | _, _ => False end.
Definition same_layout {R} (m m0 : mesh R) : Prop :=
  Forall2 (Forall2 same_place) (m_dom m) (m_dom m0).

(** The Grids of a mesh, in the order of the file *)
Definition grids {R} (m : mesh R) : list (grid R) :=
  flat_map (fun o => match o with Some g => [g] | None => [] end) (concat (m_dom m)).

(** The table of particle types comes back; num counts the particles of the Grid [g] *)
Definition types_back {R} (c : rcfg) (t t' : glob R) (g : grid R) : Prop :=
  t_n t' = t_n t /\ t_alam t' = t_alam t /\
  forall i, 0 <= i < t_n t ->
    t_r t' TRad i = t_r t TRad i /\ t_r t' TRho i = t_r t TRho i /\ t_r t' TTs i = t_r t TTs i /\
    t_r t' TRa i = t_r t TRa i /\ (r_feed c = true -> t_r t' TM i = t_r t TM i) /\
    t_integ t' i = t_integ t i /\
    t_num t' i = Z.of_nat (length (filter (fun p => p_prop p =? i) (own_parts g))).

(** ** When a mesh can be written *)

(** The integers fit their types and the particles are of the types there are *)
Definition glob_fits {R} (c : rcfg) (t : glob R) : Prop :=
  (r_sts c = true -> fits_in 31 (n_sts t)) /\
  (r_part c = true -> 0 <= t_n t /\ fits_in 31 (t_n t) /\ forall i, 0 <= i < t_n t -> fits_in 15 (t_integ t i)).
Definition grid_fits {R} (c : rcfg) (t : glob R) (g : grid R) : Prop :=
  r_part c = true ->
  0 <= g_np g < 2 ^ 63 /\
  forall p, 0 <= p < g_np g -> p_pos (g_part g p) = 1 ->
    0 <= p_prop (g_part g p) < t_n t /\ fits_in 31 (p_prop (g_part g p)) /\ fits_in 63 (p_id (g_part g p)) /\
    (r_mpi c = true -> fits_in 31 (p_init (g_part g p))).

(** The text of a parameter file has no "<par_end>" before its end *)
Definition has_sub (a s : str) : Prop := exists x y, s = x ++ a ++ y.

(** ** The whole mesh *)

(** The code decides from the Grids met so far whether the fields have an upper face in a direction *)
Definition wide_upto {R} (gs : list (grid R)) (n : nat) : wide :=
  Wide (existsb (fun g => g_ie g >? g_is g) (firstn (S n) gs))
       (existsb (fun g => g_je g >? g_js g) (firstn (S n) gs))
       (existsb (fun g => g_ke g >? g_ks g) (firstn (S n) gs)).
(** [m] was written; [m0] is the mesh that is read into, [m'] the result *)
Definition mesh_back {R} (M : mach R) (c : rcfg) (m m0 m' : mesh R) : Prop :=
  m_nstep m' = m_nstep m /\ m_time m' = m_time m /\ m_dt m' = m_dt m /\
  m_diff m' = (if r_sts c then m_diff m else m_diff m0) /\
  same_layout m m' /\
  forall n g g0 g', nth_error (grids m) n = Some g -> nth_error (grids m0) n = Some g0 -> nth_error (grids m') n = Some g' ->
    grid_back M c (m_time m) (m_dt m) (wide_upto (grids m) n) g g0 g'.
(** The global variables: those of super time-stepping, and the types of the particles *)
Definition glob_back {R} (c : rcfg) (m : mesh R) (t t0 t' : glob R) : Prop :=
  t_alloc t' = t_alloc t0 /\
  (r_sts c = true -> n_sts t' = n_sts t /\ nu_sts t' = nu_sts t) /\
  (r_part c = true -> forall gs g, grids m = gs ++ [g] -> types_back c t t' g).

(** A state that can be written: the integers fit the types they are written with *)
Definition writable {R} (c : rcfg) (m : mesh R) (t : glob R) : Prop :=
  fits_in 31 (m_nstep m) /\ r_nscal c <= 10 ^ 8 /\ glob_fits c t /\ forall g, In g (grids m) -> grid_fits c t g.

(** The variables of a Grid that a run goes on from: the same after the restart *)
Definition same_state {R} (c : rcfg) (g g' : grid R) : Prop :=
  forall k j i,
    (zone g 0 0 0 k j i -> forall f, cell_var c f -> g_u g' f k j i = g_u g f k j i) /\
    (r_mhd c = true ->
      (zone g 0 0 0 k j i -> forall f, f = FB1c \/ f = FB2c \/ f = FB3c -> g_u g' f k j i = g_u g f k j i) /\
      (zone g 0 0 (b2z (g_ie g >? g_is g)) k j i -> g_u g' FB1i k j i = g_u g FB1i k j i) /\
      (zone g 0 (b2z (g_je g >? g_js g)) 0 k j i -> g_u g' FB2i k j i = g_u g FB2i k j i) /\
      (zone g (b2z (g_ke g >? g_ks g)) 0 0 k j i -> g_u g' FB3i k j i = g_u g FB3i k j i)).
