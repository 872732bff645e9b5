(** * The configurations of the code that the integrators can be built with

    ./configure selects an equation of state, gas or MHD, an order of
    reconstruction (--with-order), a Riemann solver (--with-flux) and an
    integrator (--with-integrator).  Here these choices are put together to a
    [scheme]: what the integrators of src/integrators call.  A result "infinity or
    NaN" ([None] in GasModel.v, FluxModel.v) becomes the zero state here, so that
    no theorem about the integrators can rest on it being excluded. *)
From Coq Require Import Reals ZArith List Bool.
From Verif Require Import GasModel FluxModel ReconModel EsysPrimModel IntegModel.
Import ListNotations.
Open Scope R_scope.

(** --with-order = 1, 2, 3, 2p, 3p, 3pck, 3pcl (configure.ac:294-313) *)
Inductive order := O1 | O2 | O3 | O2p | O3p | O3pck | O3pcl.
(** --with-flux (configure.ac:316-345), without the exact and relativistic solvers *)
Inductive solver := SRoe | SHlle | SHllc | SHlld | SForce | STwoShock.
Inductive integrator := CTU | VL.

Definition is_adiabatic (c : gcfg) : bool := match g_eos c with Adiabatic _ => true | _ => false end.
(** NWAVE, src/defs.h.in:107-123 *)
Definition nwave (c : gcfg) : nat := (if is_adiabatic c then 5 else 4) + (if g_mhd c then 2 else 0).
(** Prim1DS as an array of NWAVE+NSCALARS reals: src/athena.h:109-122 *)
Definition vec (c : gcfg) (w : prim1) : state :=
  fun n => nth n ([wd w; wvx w; wvy w; wvz w] ++ (if is_adiabatic c then [wp w] else [])
                  ++ (if g_mhd c then [wby w; wbz w] else []) ++ wr w) 0.
Definition unvec (c : gcfg) (ns : nat) (f : state) : prim1 :=
  Prim1 (f 0%nat) (f 1%nat) (f 2%nat) (f 3%nat) (if is_adiabatic c then f 4%nat else 0)
        (if g_mhd c then f (nwave c - 2)%nat else 0) (if g_mhd c then f (nwave c - 1)%nat else 0)
        (map (fun n => f (nwave c + n)%nat) (seq 0 ns)).
(** lr_states_plm.c:105-125, and the same calls in the other files *)
Definition esys_cell (c : gcfg) (w : prim1) (bx : R) : esystem :=
  match g_mhd c, g_eos c with
  | false, Isothermal a => esys_prim_iso_hyd a (wd w) (wvx w)
  | false, Adiabatic g => esys_prim_adb_hyd (wd w) (wvx w) (g * wp w)
  | true, Isothermal a => esys_prim_iso_mhd a (wd w) (wvx w) bx (wby w) (wbz w)
  | true, Adiabatic g => esys_prim_adb_mhd (wd w) (wvx w) (g * wp w) bx (wby w) (wbz w)
  end.

(** lr_states(): the pair (Wl[i], Wr[i]).  With the CTU integrator the edge values
    are traced along the characteristics, except in lr_states_dc.c and lr_states_p3c.c. *)
Definition hll_flux (f : solver) : bool := match f with SHlle | SHllc | SHlld | SForce => true | _ => false end.
Definition lr_states (c : gcfg) (k : integrator) (o : order) (f : solver)
    (dt dx : R) (A : Z -> prim1 * R) (i : Z) : prim1 * prim1 :=
  let W := fun j => vec c (fst (A j)) in
  let es := fun j => esys_cell c (fst (A j)) (snd (A j)) in
  let vx := fun j => wvx (fst (A j)) in
  let nw := nwave c in
  let ns := length (wr (fst (A i))) in
  let out l r := (unvec c ns l, unvec c ns r) in
  let traced strict curved src E :=
    out (ctu_l nw strict (hll_flux f) curved src (dt / dx) W vx es E i)
        (ctu_r nw strict (hll_flux f) curved src (dt / dx) W vx es E i) in
  let plain E := out (vl_l E i) (vl_r E i) in
  match o, k with
  | O1, _ => out (dc_l W i) (dc_r W i)
  | O2, VL => plain (plm_ends nw W es)
  | O2, CTU => traced false false (fun n => n) (plm_ends nw W es)
  | O3, VL => plain (ppm_ends nw W es)
  | O3, CTU => traced false true (fun n => n) (ppm_ends nw W es)
  | O2p, VL => plain (prim2_ends W)
  | O2p, CTU => traced true false (fun n => n) (prim2_ends W)
  | O3p, VL => plain (prim3_ends W)
  | O3p, CTU => traced true true (fun _ => nw) (prim3_ends W)
  | O3pck, _ => plain (koren_ends W)
  | O3pcl, _ => plain (limo3_ends dx W)
  end.

Definition no_cons1 : cons1 := Cons1 0 0 0 0 0 0 0 [].
Definition no_prim1 : prim1 := Prim1 0 0 0 0 0 0 0 [].
Definition no_prim : prim := Prim 0 0 0 0 0 0 0 0 [].
Definition or_else {A} (d : A) (x : option A) : A := match x with Some a => a | None => d end.

(** fluxes(); etah is 0 without H-correction *)
Definition fluxes (c : gcfg) (f : solver) (dmin : R) (Ul Ur : cons1) (Wl Wr : prim1) (Bx : R) : option cons1 :=
  match f with
  | SRoe => roe_flux c 0 Ul Ur Wl Wr Bx
  | SHlle => hlle c Ul Ur Wl Wr Bx
  | SHllc => hllc c Ul Ur Wl Wr
  | SHlld => match g_eos c with Adiabatic g => hlld g Ul Ur Wl Wr Bx | Isothermal a => hlld_iso a dmin Ul Ur Wl Wr Bx end
  | SForce => force c Ul Ur Wl Wr Bx
  | STwoShock => match g_eos c with Isothermal a => two_shock a Ul Ur Wl Wr | Adiabatic _ => None end
  end.

Definition athena (c : gcfg) (k : integrator) (o : order) (f : solver)
    (grav cool : option (R -> R -> R -> R)) (selfg : option (R * R)) (dmin : R) : scheme :=
  Scheme (g_mhd c)
    (fun u b => or_else no_prim1 (Cons1D_to_Prim1D c u b))
    (fun w b => or_else no_cons1 (Prim1D_to_Cons1D c w b))
    (fun u => or_else no_prim (Cons_to_Prim c u))
    (lr_states c k o f)
    (fun Ul Ur Wl Wr Bx => or_else no_cons1 (fluxes c f dmin Ul Ur Wl Wr Bx))
    grav cool selfg (gam1 c) dmin.
