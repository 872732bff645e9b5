(** * Model of src/new_dt.c and of the main loop of src/main.c

    Real numbers stand for double-precision numbers.  Not modelled: special
    relativity, cylindrical coordinates. *)
From Coq Require Import Reals List Bool Arith ZArith.
Import ListNotations.
Open Scope R_scope.

Inductive eos := Adiabatic (gamma : R) | Isothermal (cs2 : R).
Record dcfg := DCfg { d_mhd : bool; d_eos : eos; d_cour : R }.
Definition TINY_NUMBER : R := / 10 ^ 20.            (* src/defs.h.in *)

(** The part of ConsS (src/athena.h) and the left-face fields used by new_dt. *)
Record cell := Cell { c_d : R; c_M1 : R; c_M2 : R; c_M3 : R; c_E : R;
                      c_B1 : R; c_B2 : R; c_B3 : R; c_B1i : R; c_B2i : R; c_B3i : R }.
Record particle := Part { p_v1 : R; p_v2 : R; p_v3 : R }.
(** A Grid: numbers of cells, cell sizes, its active cells and its particles. *)
Record grid := Grid { g_N1 : nat; g_N2 : nat; g_N3 : nat; g_dx1 : R; g_dx2 : R; g_dx3 : R;
                      g_cells : list cell; g_parts : list particle }.

(** src/new_dt.c:99-106: "maximum of face-centered fields". *)
Definition face_b (bc bi : R) : R := bc + Rabs (bi - bc).
(** src/new_dt.c:108-115, 126-133: the square of the sound speed. *)
Definition asq_of (cfg : dcfg) (c : cell) (di qsq bsq : R) : R :=
  match d_eos cfg with
  | Isothermal cs2 => cs2
  | Adiabatic g =>
      let p := if d_mhd cfg then Rmax ((g - 1) * (c_E c - 1/2 * c_d c * qsq - 1/2 * bsq)) TINY_NUMBER
               else Rmax ((g - 1) * (c_E c - 1/2 * c_d c * qsq)) TINY_NUMBER in
      g * p * di
  end.
(** src/new_dt.c:118-122: one of cf1sq, cf2sq, cf3sq. *)
Definition cfsq (asq bsq btsq di : R) : R :=
  let tsum := bsq * di + asq in
  let tdif := bsq * di - asq in
  1/2 * (tsum + sqrt (tdif * tdif + 4 * asq * btsq * di)).
(** src/new_dt.c:89-148: fabs(v)+sqrt(cfsq) in the three directions. *)
Definition cell_speeds (cfg : dcfg) (c : cell) : R * R * R :=
  let di := 1 / c_d c in
  let v1 := c_M1 c * di in let v2 := c_M2 c * di in let v3 := c_M3 c * di in
  let qsq := v1 * v1 + v2 * v2 + v3 * v3 in
  if d_mhd cfg then
    let b1 := face_b (c_B1 c) (c_B1i c) in
    let b2 := face_b (c_B2 c) (c_B2i c) in
    let b3 := face_b (c_B3 c) (c_B3i c) in
    let bsq := b1 * b1 + b2 * b2 + b3 * b3 in
    let asq := asq_of cfg c di qsq bsq in
    (Rabs v1 + sqrt (cfsq asq bsq (b2 * b2 + b3 * b3) di),
     Rabs v2 + sqrt (cfsq asq bsq (b1 * b1 + b3 * b3) di),
     Rabs v3 + sqrt (cfsq asq bsq (b1 * b1 + b2 * b2) di))
  else
    let asq := asq_of cfg c di qsq 0 in
    (Rabs v1 + sqrt asq, Rabs v2 + sqrt asq, Rabs v3 + sqrt asq).

(** max_v1, max_v2, max_v3, max_dti: src/new_dt.c:66. *)
Record acc := Acc { a_v1 : R; a_v2 : R; a_v3 : R; a_dti : R }.
Definition acc0 : acc := Acc 0 0 0 0.
Definition many (n : nat) : bool := (1 <? n)%nat.
(** src/new_dt.c:136-148. *)
Definition cell_step (cfg : dcfg) (g : grid) (a : acc) (c : cell) : acc :=
  let '(s1, s2, s3) := cell_speeds cfg c in
  Acc (if many (g_N1 g) then Rmax (a_v1 a) s1 else a_v1 a)
      (if many (g_N2 g) then Rmax (a_v2 a) s2 else a_v2 a)
      (if many (g_N3 g) then Rmax (a_v3 a) s3 else a_v3 a) (a_dti a).
(** src/new_dt.c:157-165 (with PARTICLES). *)
Definition part_step (g : grid) (a : acc) (p : particle) : acc :=
  Acc (if many (g_N1 g) then Rmax (a_v1 a) (p_v1 p) else a_v1 a)
      (if many (g_N2 g) then Rmax (a_v2 a) (p_v2 p) else a_v2 a)
      (if many (g_N3 g) then Rmax (a_v3 a) (p_v3 p) else a_v3 a) (a_dti a).
(** src/new_dt.c:168-174. *)
Definition dti_step (g : grid) (a : acc) : acc :=
  let t := a_dti a in
  let t := if many (g_N1 g) then Rmax t (a_v1 a / g_dx1 g) else t in
  let t := if many (g_N2 g) then Rmax t (a_v2 a / g_dx2 g) else t in
  let t := if many (g_N3 g) then Rmax t (a_v3 a / g_dx3 g) else t in
  Acc (a_v1 a) (a_v2 a) (a_v3 a) t.
Definition grid_step (cfg : dcfg) (a : acc) (g : grid) : acc :=
  dti_step g (fold_left (part_step g) (g_parts g) (fold_left (cell_step cfg g) (g_cells g) a)).
(** src/new_dt.c:72-176: the loop over the Grids of one process. *)
Definition max_dti (cfg : dcfg) (gs : list grid) : R := a_dti (fold_left (grid_step cfg) gs acc0).

(** dt as a number or +infinity ([None]: division by max_dti = 0, e.g. on a process
    without Grids). *)
Definition inv_dti (cour dti : R) : option R := if Req_EM_T dti 0 then None else Some (cour / dti).
Definition omin (a b : option R) : option R :=
  match a, b with
  | None, x => x
  | x, None => x
  | Some x, Some y => Some (Rmin x y)
  end.
(** MPI_Allreduce(..., MPI_MIN, ...). *)
Definition allmin (l : list (option R)) : option R := fold_right omin None l.

(** Explicit diffusion: none, plain, or super time stepping. *)
Inductive diffmode := NoDiff | Plain | Sts.
(** src/new_dt.c:186-239, on one process: [raw] and [diff] are the reduced values. *)
Definition limit_dt (mode : diffmode) (nstep : nat) (old raw diff : option R) (time tlim : R) : option R :=
  let dt := if (nstep =? 0)%nat then raw
            else omin raw (match old with Some x => Some (2 * x) | None => None end) in
  let dt := if Rlt_dec time tlim
            then match dt with
                 | Some x => if Rlt_dec (tlim - time) x then Some (tlim - time) else Some x
                 | None => Some (tlim - time)
                 end
            else dt in
  match mode with
  | NoDiff => dt
  | Plain => omin dt diff
  | Sts => (* N_STS > 12 exactly when dt/diff_dt > Ratio[11] (get_N_STS, src/new_dt.c:259-276) *)
      match dt, diff with
      | Some x, Some d => if Rlt_dec (109.7045774 * d) x then Some (109.7045774 * d) else Some x
      | _, _ => dt
      end
  end.

(** A process: its Grids, what new_dt_diff returned on it, and its pM->dt. *)
Record proc := Proc { pr_grids : list grid; pr_dti_diff : R; pr_dt : option R }.
(** src/new_dt.c:40-251 on all processes: the new pM->dt of each, which is also given
    to each of its Grids. *)
Definition new_dt (cfg : dcfg) (mode : diffmode) (nstep : nat) (time tlim : R) (ps : list proc) : list (option R) :=
  let raw := allmin (map (fun p => inv_dti (d_cour cfg) (max_dti cfg (pr_grids p))) ps) in
  let diff := allmin (map (fun p => inv_dti (d_cour cfg) (pr_dti_diff p)) ps) in
  map (fun p => limit_dt mode nstep (pr_dt p) raw diff time tlim) ps.

(** ** The main loop: src/main.c:497-645

    [raw k], [diff k]: the reduced time-step limits found by the k-th call of new_dt
    ([k = nstep] at that call); they depend on the solution, so any function is
    considered.  [quit k]: ath_sig_act returned non-zero after cycle k. *)
Record mstate := Ms { m_time : R; m_nstep : nat; m_dt : R }.
Definition limit1 (mode : diffmode) (nstep : nat) (old raw : R) (diff : option R) (time tlim : R) : R :=
  match limit_dt mode nstep (Some old) (Some raw) diff time tlim with Some x => x | None => 0 end.
Record menv := Me { e_mode : diffmode; e_raw : nat -> R; e_diff : nat -> option R; e_tlim : R; e_nlim : Z }.
(** Mesh.time < tlim && (nlim < 0 || Mesh.nstep < nlim) *)
Definition loop_cond (e : menv) (s : mstate) : bool :=
  (if Rlt_dec (m_time s) (e_tlim e) then true else false) &&
  ((e_nlim e <? 0)%Z || (Z.of_nat (m_nstep s) <? e_nlim e)%Z).
(** src/main.c:499-634 one cycle (the solution itself is in e_raw/e_diff). *)
Definition cycle (e : menv) (s : mstate) : mstate :=
  let n := S (m_nstep s) in
  let t := m_time s + m_dt s in
  Ms t n (limit1 (e_mode e) n (m_dt s) (e_raw e n) (e_diff e n) t (e_tlim e)).
(** src/main.c:430: a fresh start calls new_dt once before the loop (nstep = 0). *)
Definition start (e : menv) (time : R) : mstate :=
  Ms time 0 (limit1 (e_mode e) 0 0 (e_raw e 0%nat) (e_diff e 0%nat) time (e_tlim e)).
(** States at the top of the loop after [k] cycles without a stop request. *)
Inductive loop (e : menv) : nat -> mstate -> mstate -> Prop :=
| loop0 : forall s, loop e 0 s s
| loopS : forall k s s', loop e k s s' -> loop_cond e s' = true -> loop e (S k) s (cycle e s').
