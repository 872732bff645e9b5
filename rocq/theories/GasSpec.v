(** * Specification: ideal gas dynamics and magnetohydrodynamics

    Textbook definitions, in units where the magnetic pressure is B^2/2.
    Nothing here comes from the code except the two records of variables. *)
From Coq Require Import Reals List Bool.
From Verif Require Import GasModel.
Import ListNotations.
Open Scope R_scope.

(** The configuration makes sense: the adiabatic index exceeds one, the
    isothermal sound speed is positive. *)
Definition eos_ok (c : gcfg) : Prop :=
  match g_eos c with Adiabatic g => 1 < g | Isothermal a => 0 < a end.

(** Members of the records that the configuration does not have are absent. *)
Definition wf_prim (c : gcfg) (W : prim1) : Prop :=
  (g_mhd c = false -> wby W = 0 /\ wbz W = 0) /\
  (match g_eos c with Adiabatic _ => True | Isothermal _ => wp W = 0 end).
Definition wf_cons (c : gcfg) (U : cons1) : Prop :=
  (g_mhd c = false -> uby U = 0 /\ ubz U = 0) /\
  (match g_eos c with Adiabatic _ => True | Isothermal _ => ue U = 0 end).

Section Physics.
Variable c : gcfg.
Variables (W : prim1) (Bx : R).

(** The normal field, present with MHD only. *)
Definition bnorm : R := if g_mhd c then Bx else 0.
Definition gas_pressure : R :=
  match g_eos c with Adiabatic _ => wp W | Isothermal a => a * a * wd W end.
Definition magnetic_pressure : R := (bnorm * bnorm + wby W * wby W + wbz W * wbz W) / 2.
Definition kinetic_energy : R := wd W * (wvx W * wvx W + wvy W * wvy W + wvz W * wvz W) / 2.
Definition total_energy : R :=
  match g_eos c with
  | Adiabatic g => wp W / (g - 1) + kinetic_energy + magnetic_pressure
  | Isothermal _ => 0
  end.
Definition total_pressure : R := gas_pressure + magnetic_pressure.
Definition v_dot_b : R := wvx W * bnorm + wvy W * wby W + wvz W * wbz W.

(** A physical state: positive density and pressure. *)
Definition admissible : Prop :=
  wf_prim c W /\ 0 < wd W /\ match g_eos c with Adiabatic _ => 0 < wp W | Isothermal _ => True end.

(** The conserved variables of the state. *)
Definition conserved : cons1 :=
  Cons1 (wd W) (wd W * wvx W) (wd W * wvy W) (wd W * wvz W) total_energy (wby W) (wbz W)
        (map (fun r => wd W * r) (wr W)).

(** The flux of the conserved variables in the x direction. *)
Definition physical_flux : cons1 :=
  Cons1 (wd W * wvx W)
        (wd W * wvx W * wvx W + total_pressure - bnorm * bnorm)
        (wd W * wvx W * wvy W - bnorm * wby W)
        (wd W * wvx W * wvz W - bnorm * wbz W)
        (match g_eos c with
         | Adiabatic _ => (total_energy + total_pressure) * wvx W - bnorm * v_dot_b
         | Isothermal _ => 0
         end)
        (wvx W * wby W - wvy W * bnorm)
        (wvx W * wbz W - wvz W * bnorm)
        (map (fun r => wd W * wvx W * r) (wr W)).

(** Squares of the sound speed, of the normal Alfven speed and of the Alfven
    speed of the whole field. *)
Definition sound2 : R :=
  match g_eos c with Adiabatic g => g * wp W / wd W | Isothermal a => a * a end.
Definition alfven_x2 : R := bnorm * bnorm / wd W.
Definition alfven2 : R := (bnorm * bnorm + wby W * wby W + wbz W * wbz W) / wd W.

(** [s] is the speed of a magnetosonic wave: the dispersion relation
    s^4 - (a^2 + b^2) s^2 + a^2 b_x^2 = 0. *)
Definition magnetosonic (s : R) : Prop :=
  s^4 - (sound2 + alfven2) * s^2 + sound2 * alfven_x2 = 0.
End Physics.
