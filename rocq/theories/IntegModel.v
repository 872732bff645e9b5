(** * Common parts of the directionally unsplit integrators, src/integrators/integrate_*.c

    Cartesian coordinates, Newtonian, without particles, shearing box or
    H-correction.  Arrays are functions of the integer indices; a loop nest that
    assigns A[j][i] = body(j,i) is [loop2], which leaves the other entries alone.
    The static work arrays of the C files keep the values of earlier calls, so
    every integrator below takes their old contents as an argument. *)
From Coq Require Import Reals ZArith List Bool.
From Verif Require Import GasModel.
Open Scope R_scope.

Definition within (l u i : Z) : bool := ((l <=? i) && (i <=? u))%Z.
Definition loop1 {A} (l u : Z) (body old : Z -> A) : Z -> A :=
  fun i => if within l u i then body i else old i.
Definition loop2 {A} (jl ju il iu : Z) (body old : Z -> Z -> A) : Z -> Z -> A :=
  fun j i => if within jl ju j && within il iu i then body j i else old j i.
Definition loop3 {A} (kl ku jl ju il iu : Z) (body old : Z -> Z -> Z -> A) : Z -> Z -> Z -> A :=
  fun k j i => if within kl ku k && (within jl ju j && within il iu i) then body k j i else old k j i.

(** src/defs.h.in:125-136: 4 ghost zones (5 only with particles and third order). *)
Definition nghost : Z := 4.

(** What the integrators call, chosen by the configuration: the conversions of
    src/convert_var.c, lr_states of src/reconstruction (it writes Wl[i], Wr[i] for
    il <= i <= iu+1; here the pair at interface i, as a function of dt, dx, the
    primitive variables and the cell-centred normal field), the Riemann solver of
    src/rsolvers, StaticGravPot and CoolingFunc (NULL is [None]), self-gravity
    (four_pi_G, grav_mean_rho), Gamma_1 and the density floor d_MIN. *)
Record scheme := Scheme {
  s_mhd : bool;
  s_c2p : cons1 -> R -> prim1;
  s_p2c : prim1 -> R -> cons1;
  s_cell : cons -> prim;
  s_lr : R -> R -> (Z -> prim1 * R) -> Z -> prim1 * prim1;
  s_flux : cons1 -> cons1 -> prim1 -> prim1 -> R -> cons1;
  s_grav : option (R -> R -> R -> R);
  s_cool : option (R -> R -> R -> R);
  s_selfg : option (R * R);
  s_gm1 : R;
  s_dmin : R }.

(** Assignments to one member of a structure. *)
Definition set_d (u : cons) (x : R) := Cons x (cM1 u) (cM2 u) (cM3 u) (cE u) (cB1 u) (cB2 u) (cB3 u) (cs u).
Definition set_M1 (u : cons) (x : R) := Cons (cd u) x (cM2 u) (cM3 u) (cE u) (cB1 u) (cB2 u) (cB3 u) (cs u).
Definition set_M2 (u : cons) (x : R) := Cons (cd u) (cM1 u) x (cM3 u) (cE u) (cB1 u) (cB2 u) (cB3 u) (cs u).
Definition set_M3 (u : cons) (x : R) := Cons (cd u) (cM1 u) (cM2 u) x (cE u) (cB1 u) (cB2 u) (cB3 u) (cs u).
Definition set_E (u : cons) (x : R) := Cons (cd u) (cM1 u) (cM2 u) (cM3 u) x (cB1 u) (cB2 u) (cB3 u) (cs u).
Definition set_B1 (u : cons) (x : R) := Cons (cd u) (cM1 u) (cM2 u) (cM3 u) (cE u) x (cB2 u) (cB3 u) (cs u).
Definition set_B2 (u : cons) (x : R) := Cons (cd u) (cM1 u) (cM2 u) (cM3 u) (cE u) (cB1 u) x (cB3 u) (cs u).
Definition set_B3 (u : cons) (x : R) := Cons (cd u) (cM1 u) (cM2 u) (cM3 u) (cE u) (cB1 u) (cB2 u) x (cs u).
Definition set_ud (u : cons1) (x : R) := Cons1 x (umx u) (umy u) (umz u) (ue u) (uby u) (ubz u) (us u).
Definition set_umx (u : cons1) (x : R) := Cons1 (ud u) x (umy u) (umz u) (ue u) (uby u) (ubz u) (us u).
Definition set_umy (u : cons1) (x : R) := Cons1 (ud u) (umx u) x (umz u) (ue u) (uby u) (ubz u) (us u).
Definition set_umz (u : cons1) (x : R) := Cons1 (ud u) (umx u) (umy u) x (ue u) (uby u) (ubz u) (us u).
Definition set_ue (u : cons1) (x : R) := Cons1 (ud u) (umx u) (umy u) (umz u) x (uby u) (ubz u) (us u).
Definition set_uby (u : cons1) (x : R) := Cons1 (ud u) (umx u) (umy u) (umz u) (ue u) x (ubz u) (us u).
Definition set_ubz (u : cons1) (x : R) := Cons1 (ud u) (umx u) (umy u) (umz u) (ue u) (uby u) x (us u).
Definition set_wd (w : prim1) (x : R) := Prim1 x (wvx w) (wvy w) (wvz w) (wp w) (wby w) (wbz w) (wr w).
Definition set_wvx (w : prim1) (x : R) := Prim1 (wd w) x (wvy w) (wvz w) (wp w) (wby w) (wbz w) (wr w).
Definition set_wp (w : prim1) (x : R) := Prim1 (wd w) (wvx w) (wvy w) (wvz w) x (wby w) (wbz w) (wr w).
Definition set_wby (w : prim1) (x : R) := Prim1 (wd w) (wvx w) (wvy w) (wvz w) (wp w) x (wbz w) (wr w).
Definition set_wbz (w : prim1) (x : R) := Prim1 (wd w) (wvx w) (wvy w) (wvz w) (wp w) (wby w) x (wr w).

(** Loading a sweep: U1d = (d, M1, M2, M3, E, B2c, B3c, s) along x1, (d, M2, M3, M1,
    E, B3c, B1c, s) along x2, (d, M3, M1, M2, E, B1c, B2c, s) along x3
    (e.g. integrate_3d_ctu.c steps 1a, 2a, 3a). *)
Definition load1 (u : cons) : cons1 := Cons1 (cd u) (cM1 u) (cM2 u) (cM3 u) (cE u) (cB2 u) (cB3 u) (cs u).
Definition load2 (u : cons) : cons1 := Cons1 (cd u) (cM2 u) (cM3 u) (cM1 u) (cE u) (cB3 u) (cB1 u) (cs u).
Definition load3 (u : cons) : cons1 := Cons1 (cd u) (cM3 u) (cM1 u) (cM2 u) (cE u) (cB1 u) (cB2 u) (cs u).

(** for (n=0; n<NSCALARS; n++) s[n] -= a*(r[n] - l[n]); NSCALARS is the length of [s]. *)
Definition sub_s (a : R) (s r l : list R) : list R :=
  map (fun n => nth n s 0 - a * (nth n r 0 - nth n l 0)) (seq 0 (length s)).

(** The flux-difference updates of cell-centred variables: a = dt/dx, fluxes r and
    l at the right and left face; [b] tells whether the transverse fields are
    updated as well (in 1D and in the CTU integrators; only with MHD). *)
Definition upd1 (a : R) (b2 b3 : bool) (u : cons) (r l : cons1) : cons :=
  Cons (cd u - a * (ud r - ud l)) (cM1 u - a * (umx r - umx l)) (cM2 u - a * (umy r - umy l))
       (cM3 u - a * (umz r - umz l)) (cE u - a * (ue r - ue l)) (cB1 u)
       (if b2 then cB2 u - a * (uby r - uby l) else cB2 u)
       (if b3 then cB3 u - a * (ubz r - ubz l) else cB3 u) (sub_s a (cs u) (us r) (us l)).
Definition upd2 (a : R) (b3 b1 : bool) (u : cons) (r l : cons1) : cons :=
  Cons (cd u - a * (ud r - ud l)) (cM1 u - a * (umz r - umz l)) (cM2 u - a * (umx r - umx l))
       (cM3 u - a * (umy r - umy l)) (cE u - a * (ue r - ue l))
       (if b1 then cB1 u - a * (ubz r - ubz l) else cB1 u) (cB2 u)
       (if b3 then cB3 u - a * (uby r - uby l) else cB3 u) (sub_s a (cs u) (us r) (us l)).
Definition upd3 (a : R) (b1 b2 : bool) (u : cons) (r l : cons1) : cons :=
  Cons (cd u - a * (ud r - ud l)) (cM1 u - a * (umy r - umy l)) (cM2 u - a * (umz r - umz l))
       (cM3 u - a * (umx r - umx l)) (cE u - a * (ue r - ue l))
       (if b1 then cB1 u - a * (uby r - uby l) else cB1 u)
       (if b2 then cB2 u - a * (ubz r - ubz l) else cB2 u) (cB3 u) (sub_s a (cs u) (us r) (us l)).

(** "Apply density floor" to an interface state, e.g. integrate_1d_ctu.c:151-158.  The
    comparison with itself (NaN) in other places is not modelled: R has no NaN. *)
Definition floor_w (dmin : R) (w : prim1) : prim1 := if Rlt_dec (wd w) dmin then set_wd w dmin else w.
Definition floor_u (dmin : R) (u : cons1) : cons1 := if Rlt_dec (ud u) dmin then set_ud u dmin else u.
Definition floor_x (dmin : R) (x : R) : R := if Rlt_dec x dmin then dmin else x.

(** Optically thin cooling of an interface state for dt/2, e.g. integrate_1d_ctu.c:203-209. *)
Definition cool_w (sc : scheme) (dt : R) (w : prim1) : prim1 :=
  match s_cool sc with
  | None => w
  | Some f => set_wp w (wp w - half * dt * s_gm1 sc * f (wd w) (wp w) (half * dt))
  end.
