(** * Model of the operator-split cooling, src/microphysics/cool_solver.c and integrate_cooling.c

    Without SUB_CYCLE and SIMPSON (both commented out in the file) and without
    scalars (with them the file refers to dtoff, which no file declares).  Real
    numbers stand for double-precision numbers.  [None] stands for a result that is
    not a finite number: the logarithm of a number that is not positive, or a
    division by zero.  The processes other than this one appear as the smallest
    of their time steps.  Not modelled: messages on the error stream. *)
From Coq Require Import Reals ZArith List.
From Verif Require Import CStr GasModel.
Import ListNotations.
Open Scope R_scope.

Definition log10 (x : R) : R := ln x / ln 10.

(** cool_solver.c:360-391 (and 415-446): beta and C. *)
Definition coef (logt : R) : R * R :=
  if Rlt_dec logt (435 / 100) then (-1, -1755 / 100)
  else if Rlt_dec logt (490 / 100) then (163636 / 100000, -290182 / 10000)
  else if Rlt_dec logt (540 / 100) then (0, -21)
  else if Rlt_dec logt (590 / 100) then (-192 / 100, -10632 / 1000)
  else if Rlt_dec logt (625 / 100) then (0, -2196 / 100)
  else if Rlt_dec logt (650 / 100) then (-192 / 100, -996 / 100)
  else if Rlt_dec logt (750 / 100) then (-34 / 100, -2023 / 100)
  else (40 / 100, -2578 / 100).

(** cool_solver.c:345-397 Lam. *)
Definition Lam (temp : R) : option R :=
  if Rlt_dec 0 temp then
    let logt := log10 temp in
    if Rlt_dec logt (42 / 10) then
      Some ((10000000 * exp (- 118400 / (temp + 1000)) + (14 / 1000) * sqrt temp * exp (- 92 / temp)) * (2 / 10 ^ 26))
    else let '(beta, C) := coef logt in Some (Rpower 10 (C + beta * logt))
  else None.

(** cool_solver.c:401-451 dLam. *)
Definition dLam (temp : R) : option R :=
  if Rlt_dec 0 temp then
    let logt := log10 temp in
    if Rlt_dec logt (42 / 10) then
      Some ((10000000 * 118400 * exp (- 118400 / (temp + 1000)) / Rpower (temp + 1000) 2 +
             (14 / 1000) * ((5 / 10) / sqrt temp + 92 / Rpower temp (15 / 10)) * exp (- 92 / temp)) * (2 / 10 ^ 26))
    else let '(beta, C) := coef logt in Some (beta * Rpower 10 (C + beta * logt) / temp)
  else None.

Definition dtempmax : R := 1 / 10.
Definition toler : R := 1 / 100.
Definition itmax : nat := 20.
(** count runs from 0 to cmax + 1 = 17: this many times the step can be halved. *)
Definition halvings : nat := 17.

Section Cool.
Variables Gamma_1 unitT unitC : R.
Variable mhd : bool.
Variable heat : R.

(** cool_solver.c:300-301: dtemp. *)
Definition nstep (t_old nden dt temp : R) : option R :=
  match Lam temp, dLam temp with
  | Some L, Some D =>
      let den := 1 + unitC * D * nden * dt in
      if Req_EM_T den 0 then None else Some ((temp + unitC * (nden * L - heat) * dt - t_old) / den)
  | _, _ => None
  end.

(** cool_solver.c:275-307: the loop over iter, [n] passes; whether it left by the goto,
    and temp. *)
Fixpoint newton (n : nat) (t_old nden dt temp : R) : bool * option R :=
  match n with
  | O => (false, Some temp)
  | S n =>
      match nstep t_old nden dt temp with
      | None => (false, None)
      | Some dtemp =>
          let temp := temp - dtemp in
          if Req_EM_T temp 0 then newton n t_old nden dt temp
          else if Rlt_dec (Rabs (dtemp / temp)) toler then (true, Some temp)
          else newton n t_old nden dt temp
      end
  end.

(** cool_solver.c:247-339 temp_next, [it] iterations, [c] halvings left: the temperature, which may be
    NaN, and the time step. *)
Fixpoint attempt (it c : nat) (t_old nden my_dt : R) : res (option R * R) :=
  let '(conv, t) := newton it t_old nden my_dt t_old in
  match conv, c with
  | false, S c' => attempt it c' t_old nden (my_dt * (5 / 10))
  | _, _ =>
      match t with
      | None => Ok (None, my_dt)
      | Some temp =>
          if Rlt_dec dtempmax (Rabs (t_old - temp) / t_old) then
            match c with S c' => attempt it c' t_old nden (my_dt * (5 / 10)) | O => Fatal end
          else Ok (Some temp, my_dt)
      end
  end.
Definition temp_next (t_old nden dt : R) : res (option R * R) := attempt itmax halvings t_old nden dt.

(** cool_solver.c:86-91 and 133-138. *)
Definition start_temp (U : cons) : R :=
  let t := cE U - ((5 / 10) / cd U) * (cM1 U * cM1 U + cM2 U * cM2 U + cM3 U * cM3 U) in
  let t := if mhd then t - (5 / 10) * (cB1 U * cB1 U + cB2 U * cB2 U + cB3 U * cB3 U) else t in
  let t := t * (Gamma_1 / cd U) in
  Rmax (unitT * t) 10.

(** cool_solver.c:82-100: the time step that one cell allows. *)
Definition cell_dt (pG_dt : R) (U : cons) : res R :=
  let t_old := start_temp U in
  let nden := cd U in
  match Lam t_old with
  | None => UB
  | Some L =>
      let tcool := t_old / nden / (L * unitC) in
      let my_dt := Rmin ((8 / 10) * tcool) pG_dt in
      bind (temp_next t_old nden my_dt) (fun r => match fst r with None => Fatal | Some _ => Ok (snd r) end)
  end.
(** cool_solver.c:79-107; HUGE_NUMBER is 1e20. *)
Fixpoint min_dt (pG_dt : R) (l : list cons) (my_dt_min : R) : res R :=
  match l with
  | [] => Ok my_dt_min
  | U :: l => bind (cell_dt pG_dt U) (fun d => min_dt pG_dt l (Rmin my_dt_min d))
  end.

(** cool_solver.c:173-180: the new energy. *)
Definition put_temp (U : cons) (temp : R) : cons :=
  let t := Rmax temp 10 / unitT in
  let E := t * cd U / Gamma_1 in
  let E := E + ((5 / 10) / cd U) * (cM1 U * cM1 U + cM2 U * cM2 U + cM3 U * cM3 U) in
  let E := if mhd then E + (5 / 10) * (cB1 U * cB1 U + cB2 U * cB2 U + cB3 U * cB3 U) else E in
  Cons (cd U) (cM1 U) (cM2 U) (cM3 U) E (cB1 U) (cB2 U) (cB3 U) (cs U).

(** cool_solver.c:129-180: one cell, [more] = 3 - reset; the cell, the time step, and
    what is left. *)
Fixpoint cell_step (more : nat) (dt : R) (U : cons) : res (cons * R * nat) :=
  bind (temp_next (start_temp U) (cd U) dt) (fun r =>
    if Req_EM_T (snd r) dt then
      match fst r with None => Fatal | Some temp => Ok (put_temp U temp, dt, more) end
    else match more with O => Fatal | S more => cell_step more (snd r) U end).
Fixpoint steps (more : nat) (dt : R) (l : list cons) : res (list cons * R) :=
  match l with
  | [] => Ok ([], dt)
  | U :: l =>
      bind (cell_step more dt U) (fun '(U', dt, more) =>
      bind (steps more dt l) (fun '(l', dt) => Ok (U' :: l', dt)))
  end.

(** cool_solver.c:54-191 cooling_solver: the active cells in the order of the loops. *)
Definition cooling_solver (others pG_dt : R) (l : list cons) : res (list cons * R) :=
  bind (min_dt pG_dt l (10 ^ 20)) (fun my_dt => steps 3 (Rmin my_dt others) l).

(** integrate_cooling.c:27-49, one process: each Domain with the time step that the
    ones before it left.  The new time step of the Mesh. *)
Fixpoint integrate_cooling (pM_dt : R) (doms : list (list cons)) : res (list (list cons) * R) :=
  match doms with
  | [] => Ok ([], pM_dt)
  | l :: doms =>
      bind (cooling_solver (10 ^ 20) pM_dt l) (fun '(l', dt) =>
      bind (integrate_cooling (Rmin pM_dt dt) doms) (fun '(ls, dt) => Ok (l' :: ls, dt)))
  end.
End Cool.
