(** Particles: src/particles/{utils_particle,integrators_particle,init_particle}.c.
    Real is the real numbers; a division by zero or the square root of a negative number is
    the outcome [UB], as is a conversion to int out of range.  Without MPI-only members of
    GrainS.  FEEDBACK is always compiled in (without it the same formulas hold with
    the feedback members ignored and stiffness 0). *)
From Coq Require Import ZArith List Bool Reals.
From Verif Require Import CStr MeshModel PosModel GasModel IntegModel.
From Verif Require UtilModel.
Import UtilModel (upd, fori).
Import ListNotations.
Open Scope R_scope.

(** Real3Vect *)
Record v3 := V3 { q1 : R; q2 : R; q3 : R }.
(** GrainS, src/athena.h:212-221 *)
Record grain := Grain { g_x : v3; g_v : v3; g_type : Z; g_pos : Z; g_id : Z }.
(** GPCouple, src/athena.h:246-261 *)
Record gpc := Gpc { gd : R; gv : v3; gcs : R; fb : v3; FBstiff : R; Eloss : R }.
Definition cells (A : Type) := Z -> Z -> Z -> A.
(** ilp, iup, jlp, jup, klp, kup and x1lpar .. x3upar, src/particles/particle.h:25-28 *)
Record plim := Plim { l_lo : axis -> Z; l_up : axis -> Z; l_xlo : axis -> R; l_xup : axis -> R }.

Definition lift {A} (x : option A) : res A := match x with Some a => Ok a | None => UB end.

(** * Interpolation *)

(** 1D weights along one axis, src/particles/utils_particle.c:91-101, 104-114, 117-127: first
    cell and weights; [s] is pG->is, js or ks, [cell] is celli, cellj or cellk, [c1] is 1/dx or
    0 for an axis with one cell. *)
Definition lin_axis (cell : pgrid -> R -> R -> res (Z * R * Z)) (s : Z) (pG : pgrid) (x c1 : R) : res (Z * (Z -> R)) :=
  if Rlt_dec 0 c1 then
    '(i1, a, i) <- cell pG x c1;;
    let i1 := (i + i1 - 1)%Z in
    let w1 := a - IZR i1 - 1/2 in
    Ok (i1, fun n => if (n =? 0)%Z then 1 - w1 else w1)
  else Ok (s, fun n => if (n =? 0)%Z then 1 else 0).
(** src/particles/utils_particle.c:156-168, 171-183, 186-198 *)
Definition tsc_axis (cell : pgrid -> R -> R -> res (Z * R * Z)) (s : Z) (pG : pgrid) (x c1 : R) : res (Z * (Z -> R)) :=
  if Rlt_dec 0 c1 then
    '(i, a, _) <- cell pG x c1;;
    let d := a - IZR i in
    Ok ((i - 1)%Z, fun n => if (n =? 0)%Z then 1/2 * SQR (1 - d) else if (n =? 1)%Z then 3/4 - SQR (d - 1/2) else 1/2 * SQR d)
  else Ok (s, fun n => if (n =? 0)%Z then 1 else 0).
(** src/particles/utils_particle.c:228-240, 243-255, 258-270 *)
Definition qp_axis (cell : pgrid -> R -> R -> res (Z * R * Z)) (s : Z) (pG : pgrid) (x c1 : R) : res (Z * (Z -> R)) :=
  if Rlt_dec 0 c1 then
    '(i, a, _) <- cell pG x c1;;
    let d := a - IZR i in
    Ok ((i - 1)%Z, fun n => if (n =? 0)%Z then 1/2 * (1/2 - d) * (3/2 - d) else if (n =? 1)%Z then 1 - SQR (d - 1/2)
                            else 1/2 * (d - 1/2) * (d + 1/2))
  else Ok (s, fun n => if (n =? 0)%Z then 1 else 0).
(** The weights of a particle: weight[k][j][i], is, js, ks. *)
Definition weights := (cells R * Z * Z * Z)%type.
(** src/particles/utils_particle.c:82-137; [w0] is the previous content of the array weight, whose
    entries with an index 2 are not written. *)
Definition getwei_linear (pG : pgrid) (x cell1 : v3) (w0 : cells R) : res weights :=
  '(i, w1) <- lin_axis celli (p_s pG X1) pG (q1 x) (q1 cell1);;
  '(j, w2) <- lin_axis cellj (p_s pG X2) pG (q2 x) (q2 cell1);;
  '(k, w3) <- lin_axis cellk (p_s pG X3) pG (q3 x) (q3 cell1);;
  Ok (loop3 0 1 0 1 0 1 (fun k j i => w1 i * w2 j * w3 k) w0, i, j, k).
(** src/particles/utils_particle.c:147-206 *)
Definition getwei_TSC (pG : pgrid) (x cell1 : v3) (w0 : cells R) : res weights :=
  '(i, w1) <- tsc_axis celli (p_s pG X1) pG (q1 x) (q1 cell1);;
  '(j, w2) <- tsc_axis cellj (p_s pG X2) pG (q2 x) (q2 cell1);;
  '(k, w3) <- tsc_axis cellk (p_s pG X3) pG (q3 x) (q3 cell1);;
  Ok (loop3 0 2 0 2 0 2 (fun k j i => w1 i * w2 j * w3 k) w0, i, j, k).
(** src/particles/utils_particle.c:219-279 *)
Definition getwei_QP (pG : pgrid) (x cell1 : v3) (w0 : cells R) : res weights :=
  '(i, w1) <- qp_axis celli (p_s pG X1) pG (q1 x) (q1 cell1);;
  '(j, w2) <- qp_axis cellj (p_s pG X2) pG (q2 x) (q2 cell1);;
  '(k, w3) <- qp_axis cellk (p_s pG X3) pG (q3 x) (q3 cell1);;
  Ok (loop3 0 2 0 2 0 2 (fun k j i => w1 i * w2 j * w3 k) w0, i, j, k).
(** src/particles/init_particle.c:125-144: getweight and ncell by the parameter interp = 1, 2, 3 *)
Inductive interp := Linear | TSC | QP.
Definition getweight (m : interp) : pgrid -> v3 -> v3 -> cells R -> res weights :=
  match m with Linear => getwei_linear | TSC => getwei_TSC | QP => getwei_QP end.
Definition ncell (m : interp) : Z := match m with Linear => 2 | _ => 3 end.
(** src/particles/integrators_particle.c:83-86 and elsewhere: 1/dx, or 0 if the axis has one cell;
    [Nx] are the cells of the Grid. *)
Definition cell1_of (Nx : axis -> Z) (pG : pgrid) : v3 :=
  V3 (if (Nx X1 >? 1)%Z then 1 / p_dx pG X1 else 0) (if (Nx X2 >? 1)%Z then 1 / p_dx pG X2 else 0)
     (if (Nx X3 >? 1)%Z then 1 / p_dx pG X3 else 0).

(** The sums of src/particles/utils_particle.c:300-346 *)
Record acc := Acc { aD : R; a1 : R; a2 : R; a3 : R; aC : R; aS : R; aW : R }.
Definition acc0 := Acc 0 0 0 0 0 0 0.
Definition acc_add (w : R) (q : gpc) (a : acc) : acc :=
  Acc (aD a + w * gd q) (a1 a + w * q1 (gv q)) (a2 a + w * q2 (gv q)) (a3 a + w * q3 (gv q))
      (aC a + w * gcs q) (aS a + w * FBstiff q) (aW a + w).
(** rho, (u1,u2,u3), cs, stiff *)
Record vals := Vals { v_rho : R; v_u : v3; v_cs : R; v_stiff : R }.
(** src/particles/utils_particle.c:294-367; [None] is the return value -1.  [iso] is Iso_csound if
    ISOTHERMAL is defined. *)
Definition getvalues (iso : option R) (L : plim) (n : interp) (Coup : cells gpc) (W : weights) : option vals :=
  let '(weight, is, js, ks) := W in
  let n0 := (ncell n - 1)%Z in
  let k1 := Z.max ks (l_lo L X3) in let k2 := Z.min (ks + n0) (l_up L X3) in
  let j1 := Z.max js (l_lo L X2) in let j2 := Z.min (js + n0) (l_up L X2) in
  let i1 := Z.max is (l_lo L X1) in let i2 := Z.min (is + n0) (l_up L X1) in
  let a := fori k1 (k2 + 1) (fun k =>
           fori j1 (j2 + 1) (fun j =>
           fori i1 (i2 + 1) (fun i =>
             acc_add (weight (k - k1)%Z (j - j1)%Z (i - i1)%Z) (Coup k j i)))) acc0 in
  if Rlt_dec (aW a) TINY_NUMBER then None
  else
    let totwei1 := 1 / aW a in
    Some (Vals (aD a * totwei1) (V3 (a1 a * totwei1) (a2 a * totwei1) (a3 a * totwei1))
               (match iso with Some cs => cs | None => aC a * totwei1 end) (aS a * totwei1)).

(** * Stopping time *)

(** Grain_Property and the global arrays used with it, per particle type. *)
Record gprop := Gprop { gp_m : R; gp_rad : R; gp_rhoa : R; gp_tstop0 : R; gp_int : Z }.
Definition ts_floor (dt tstop : R) : R := if Rlt_dec tstop (1 / 100000000 * dt) then 1 / 100000000 * dt else tstop.
(** src/particles/utils_particle.c:382-419 *)
Definition get_ts_general (alamcoeff dt : R) (p : gprop) (rho cs vd : R) : option R :=
  let alam := alamcoeff * gp_rad p * rho in
  tstop <~ (if Rlt_dec alam (9/4) then odiv (gp_rhoa p) (rho * cs)
            else
              Re <~ odiv (4 * alam * vd) cs ;;
              CD <~ (if Rlt_dec Re 1 then odiv 24 Re
                     else if Rlt_dec Re 800 then Some (24 * exp (- (6/10) * ln Re))
                     else Some (44/100)) ;;
              odiv (gp_rhoa p) (rho * vd * CD)) ;;
  Some (ts_floor dt tstop).
(** src/particles/utils_particle.c:427-436 *)
Definition get_ts_epstein (dt : R) (p : gprop) (rho cs vd : R) : option R :=
  tstop <~ odiv (gp_rhoa p) (rho * cs) ;; Some (ts_floor dt tstop).
(** src/particles/utils_particle.c:440-449 *)
Definition get_ts_fixed (dt : R) (p : gprop) (rho cs vd : R) : option R := Some (ts_floor dt (gp_tstop0 p)).
(** src/particles/init_particle.c:147-155 *)
Inductive tsmode := General (alamcoeff : R) | Epstein | Fixed.
Definition get_ts (m : tsmode) (dt : R) (p : gprop) (rho cs vd : R) : option R :=
  match m with General al => get_ts_general al dt p rho cs vd | Epstein => get_ts_epstein dt p rho cs vd | Fixed => get_ts_fixed dt p rho cs vd end.

(** * Gas information and feedback *)

(** src/particles/utils_particle.c:482-508 for one cell (the feedback members stay). *)
Definition gasinfo (c : gcfg) (u : cons) (q : gpc) : option gpc :=
  rho1 <~ odiv 1 (cd u) ;;
  let v1 := cM1 u * rho1 in let v2 := cM2 u * rho1 in let v3_ := cM3 u * rho1 in
  cs <~ (match g_eos c with
         | Adiabatic gam =>
             let P := cE u - 1/2 * cd u * (SQR v1 + SQR v2 + SQR v3_) in
             let P := if g_mhd c then P - 1/2 * (SQR (cB1 u) + SQR (cB2 u) + SQR (cB3 u)) else P in
             let P := MAX ((gam - 1) * P) TINY_NUMBER in
             osqrt (gam * P * rho1)
         | Isothermal _ => Some (gcs q)
         end) ;;
  Some (Gpc (cd u) (V3 v1 v2 v3_) cs (fb q) (FBstiff q) (Eloss q)).
(** src/particles/utils_particle.c:519-532 *)
Definition feedback_clear (L : plim) (Coup : cells gpc) : cells gpc :=
  loop3 (l_lo L X3) (l_up L X3) (l_lo L X2) (l_up L X2) (l_lo L X1) (l_up L X1)
    (fun k j i => let q := Coup k j i in Gpc (gd q) (gv q) (gcs q) (V3 0 0 0) (FBstiff q) 0) Coup.
(** src/particles/utils_particle.c:544-581 (FBstiff too) *)
Definition distrFB_pred (L : plim) (n : interp) (W : weights) (f : v3) (stiffness Elosspar : R) (Coup : cells gpc) : cells gpc :=
  let '(weight, is, js, ks) := W in
  let n0 := (ncell n - 1)%Z in
  let k1 := Z.max ks (l_lo L X3) in let k2 := Z.min (ks + n0) (l_up L X3) in
  let j1 := Z.max js (l_lo L X2) in let j2 := Z.min (js + n0) (l_up L X2) in
  let i1 := Z.max is (l_lo L X1) in let i2 := Z.min (is + n0) (l_up L X1) in
  loop3 k1 k2 j1 j2 i1 i2 (fun k j i =>
    let q := Coup k j i in let w := weight (k - k1)%Z (j - j1)%Z (i - i1)%Z in
    Gpc (gd q) (gv q) (gcs q) (V3 (q1 (fb q) + w * q1 f) (q2 (fb q) + w * q2 f) (q3 (fb q) + w * q3 f))
        (FBstiff q + w * stiffness) (Eloss q + w * Elosspar)) Coup.
(** src/particles/utils_particle.c:593-628 *)
Definition distrFB_corr (L : plim) (n : interp) (W : weights) (f : v3) (Elosspar : R) (Coup : cells gpc) : cells gpc :=
  let '(weight, is, js, ks) := W in
  let n0 := (ncell n - 1)%Z in
  let k1 := Z.max ks (l_lo L X3) in let k2 := Z.min (ks + n0) (l_up L X3) in
  let j1 := Z.max js (l_lo L X2) in let j2 := Z.min (js + n0) (l_up L X2) in
  let i1 := Z.max is (l_lo L X1) in let i2 := Z.min (is + n0) (l_up L X1) in
  loop3 k1 k2 j1 j2 i1 i2 (fun k j i =>
    let q := Coup k j i in let w := weight (k - k1)%Z (j - j1)%Z (i - i1)%Z in
    Gpc (gd q) (gv q) (gcs q) (V3 (q1 (fb q) + w * q1 f) (q2 (fb q) + w * q2 f) (q3 (fb q) + w * q3 f))
        (FBstiff q) (Eloss q + w * Elosspar)) Coup.

(** * Forces *)

(** Shearing box: Omega_0, qshear, FARGO compiled in, ShBoxCoord == xy *)
Record shear := Shear { Omega_0 : R; qshear : R; fargo : bool; sh_xy : bool }.
(** Everything fixed during a run: interpolation, stopping-time mode, Iso_csound with ISOTHERMAL,
    FEEDBACK defined, shearing box, user functions gasvshift(x, u) and Userforce_particle(x, v), particle
    types, cells per axis. *)
Record pcfg := Pcfg { k_interp : interp; k_ts : tsmode; k_iso : option R; k_feedback : bool; k_sh : option shear;
  k_gasvshift : v3 -> v3 -> v3; k_user : v3 -> v3 -> v3; k_prop : Z -> gprop; k_Nx : axis -> Z }.
(** Real weight[3][3][3] of the callers is not initialised; zeros stand for any content
    (nothing depends on it: property C51). *)
Definition junk : cells R := fun _ _ _ => 0.

(** src/particles/integrators_particle.c:684-739: drag force and 1/stopping time *)
Definition Get_Drag (K : pcfg) (L : plim) (pG : pgrid) (dt : R) (Coup : cells gpc) (type : Z) (x v : v3) : res (v3 * R) :=
  W <- getweight (k_interp K) pG x (cell1_of (k_Nx K) pG) junk;;
  match getvalues (k_iso K) L (k_interp K) Coup W with
  | Some a =>
      let u := k_gasvshift K x (v_u a) in
      let vd1 := q1 v - q1 u in let vd2 := q2 v - q2 u in let vd3 := q3 v - q3 u in
      vd <- lift (osqrt (SQR vd1 + SQR vd2 + SQR vd3));;
      tstop <- lift (get_ts (k_ts K) dt (k_prop K type) (v_rho a) (v_cs a) vd);;
      let tstop := if k_feedback K then tstop * MAX 1 (v_stiff a) else tstop in
      ts1 <- lift (odiv 1 tstop);;
      Ok (V3 (- ts1 * vd1) (- ts1 * vd2) (- ts1 * vd3), ts1)
  | None => Ok (V3 (- 0 * 0) (- 0 * 0) (- 0 * 0), 0)
  end.
(** src/particles/integrators_particle.c:752-794 *)
Definition Get_Force (K : pcfg) (x v : v3) : v3 :=
  let ft := k_user K x v in
  match k_sh K with
  | None => ft
  | Some s =>
      let omg2 := SQR (Omega_0 s) in
      if sh_xy s then
        if fargo s then V3 (q1 ft + 2 * q2 v * Omega_0 s) (q2 ft + (qshear s - 2) * q1 v * Omega_0 s) (q3 ft)
        else V3 (q1 ft + 2 * (qshear s * omg2 * q1 x + q2 v * Omega_0 s)) (q2 ft + -2 * q1 v * Omega_0 s) (q3 ft)
      else
        if fargo s then V3 (q1 ft + 2 * q3 v * Omega_0 s) (q2 ft) (q3 ft + (qshear s - 2) * q1 v * Omega_0 s)
        else V3 (q1 ft + 2 * (qshear s * omg2 * q1 x + q3 v * Omega_0 s)) (q2 ft) (q3 ft + -2 * q1 v * Omega_0 s)
  end.
Definition plus3 (a b : v3) : v3 := V3 (q1 a + q1 b) (q2 a + q2 b) (q3 a + q3 b).

(** * Velocity updates: (dv1,dv2,dv3) and the stopping time ([None] is infinity: the particle is off the Grid) *)

(** Step 1 of the three integrators: position after [h], src/particles/integrators_particle.c:193-206, 328-341,
    419-433; [adv] is the factor of the advection term with the shearing box. *)
Definition predict (K : pcfg) (h adv dt : R) (g : grain) : v3 :=
  let x := g_x g in let v := g_v g in
  let x1n := if (k_Nx K X1 >? 1)%Z then q1 x + h * q1 v * dt else q1 x in
  let x2n := if (k_Nx K X2 >? 1)%Z then q2 x + h * q2 v * dt else q2 x in
  let x3n := if (k_Nx K X3 >? 1)%Z then q3 x + h * q3 v * dt else q3 x in
  let x2n := match k_sh K with
             | Some s => if negb (fargo s) && sh_xy s then x2n - adv * qshear s * q1 v * SQR dt else x2n
             | None => x2n end in
  V3 x1n x2n x3n.
(** src/particles/integrators_particle.c:178-297 *)
Definition int_par_fulimp (K : pcfg) (L : plim) (pG : pgrid) (dt : R) (Coup : cells gpc) (g : grain) : res (v3 * option R) :=
  let xn := predict K 1 (1/2) dt g in
  '(fd, ts11) <- Get_Drag K L pG dt Coup (g_type g) (g_x g) (g_v g);;
  let fc := plus3 fd (Get_Force K (g_x g) (g_v g)) in
  '(fd, ts12) <- Get_Drag K L pG dt Coup (g_type g) xn (g_v g);;
  let fp := plus3 fd (Get_Force K xn (g_v g)) in
  let b0 := 1 + dt * ts11 in
  let ft1 := 1/2 * (q1 fc + b0 * q1 fp) in
  let ft2 := 1/2 * (q2 fc + b0 * q2 fp) in
  let ft3 := 1/2 * (q3 fc + b0 * q3 fp) in
  let D := 1 + 1/2 * dt * (ts11 + ts12 + dt * ts11 * ts12) in
  dv <- lift (match k_sh K with
   | None => D1 <~ odiv 1 D ;; Some (V3 (dt * ft1 * D1) (dt * ft2 * D1) (dt * ft3 * D1))
   | Some s =>
      let oh := Omega_0 s * dt in
      let '(ft1, ft2, ft3) :=
        if sh_xy s then
          (ft1 + - oh * q2 fp, ft2 + (if fargo s then 1/2 * (2 - qshear s) * oh * q1 fp else oh * q1 fp), ft3)
        else
          (ft1 + - oh * q3 fp, ft2, ft3 + (if fargo s then 1/2 * (2 - qshear s) * oh * q1 fp else oh * q1 fp)) in
      let oh2 := SQR oh in
      let B := oh * (-2 - (ts11 + ts12) * dt) in
      let A := if fargo s then D - (2 - qshear s) * oh2 else D - 2 * oh2 in
      let C := if fargo s then 1/2 * (qshear s - 2) * B else - B in
      Det1 <~ odiv 1 (SQR A - B * C) ;;
      if sh_xy s then
        d3 <~ odiv (dt * ft3) D ;;
        Some (V3 (dt * Det1 * (ft1 * A - ft2 * B)) (dt * Det1 * (- ft1 * C + ft2 * A)) d3)
      else
        d2 <~ odiv (dt * ft2) D ;;
        Some (V3 (dt * Det1 * (ft1 * A - ft3 * B)) d2 (dt * Det1 * (- ft1 * C + ft3 * A)))
   end);;
  Ok (dv, (ta <~ odiv (1/2) ts11 ;; tb <~ odiv (1/2) ts12 ;; Some (ta + tb))).
(** src/particles/integrators_particle.c:313-400 *)
Definition int_par_semimp (K : pcfg) (L : plim) (pG : pgrid) (dt : R) (Coup : cells gpc) (g : grain) : res (v3 * option R) :=
  let xn := predict K (1/2) (1/8) dt g in
  '(fd, ts1) <- Get_Drag K L pG dt Coup (g_type g) xn (g_v g);;
  let ft := plus3 fd (Get_Force K xn (g_v g)) in
  let b := dt * ts1 + 2 in
  dv <- lift (match k_sh K with
   | None =>
      b2 <~ odiv 1 b ;;
      Some (V3 (dt * 2 * b2 * q1 ft) (dt * 2 * b2 * q2 ft) (dt * 2 * b2 * q3 ft))
   | Some s =>
      let oh := Omega_0 s * dt in
      b1 <~ (if fargo s then odiv 1 (SQR b + 2 * (2 - qshear s) * SQR oh) else odiv 1 (SQR b + 4 * SQR oh)) ;;
      let b2 := b * b1 in
      if sh_xy s then
        d3 <~ odiv (dt * 2 * q3 ft) b ;;
        Some (V3 (dt * 2 * b2 * q1 ft + dt * 4 * oh * b1 * q2 ft)
                 (if fargo s then dt * 2 * b2 * q2 ft - 2 * (2 - qshear s) * dt * oh * b1 * q1 ft
                  else dt * 2 * b2 * q2 ft - 4 * dt * oh * b1 * q1 ft) d3)
      else
        d2 <~ odiv (dt * 2 * q2 ft) b ;;
        Some (V3 (dt * 2 * b2 * q1 ft + dt * 4 * oh * b1 * q3 ft) d2
                 (if fargo s then dt * 2 * b2 * q3 ft - 2 * (2 - qshear s) * dt * oh * b1 * q1 ft
                  else dt * 2 * b2 * q3 ft - 4 * dt * oh * b1 * q1 ft))
   end);;
  Ok (dv, odiv 1 ts1).
(** src/particles/integrators_particle.c:412-475 *)
Definition int_par_exp (K : pcfg) (L : plim) (pG : pgrid) (dt : R) (Coup : cells gpc) (g : grain) : res (v3 * option R) :=
  let xn := predict K (1/2) (1/8) dt g in
  '(fd, _) <- Get_Drag K L pG dt Coup (g_type g) (g_x g) (g_v g);;
  let ft := plus3 fd (Get_Force K (g_x g) (g_v g)) in
  let vn := V3 (q1 (g_v g) + 1/2 * q1 ft * dt) (q2 (g_v g) + 1/2 * q2 ft * dt) (q3 (g_v g) + 1/2 * q3 ft * dt) in
  '(fd, ts1) <- Get_Drag K L pG dt Coup (g_type g) xn vn;;
  let ft := plus3 fd (Get_Force K xn vn) in
  Ok (V3 (q1 ft * dt) (q2 ft * dt) (q3 ft * dt), odiv 1 ts1).
(** src/particles/integrators_particle.c:98-114 *)
Definition int_par (K : pcfg) (L : plim) (pG : pgrid) (dt : R) (Coup : cells gpc) (g : grain) : res (v3 * option R) :=
  let n := gp_int (k_prop K (g_type g)) in
  if (n =? 1)%Z then int_par_exp K L pG dt Coup g
  else if (n =? 2)%Z then int_par_semimp K L pG dt Coup g
  else if (n =? 3)%Z then int_par_fulimp K L pG dt Coup g
  else Fatal.

(** src/particles/integrators_particle.c:590-632 *)
Definition feedback_corrector (K : pcfg) (L : plim) (pG : pgrid) (dt : R) (gri grf : grain) (dv : v3) (ts : option R) (Coup : cells gpc) : res (cells gpc) :=
  let mgr := gp_m (k_prop K (g_type gri)) in
  let mid a b := V3 (1/2 * (q1 a + q1 b)) (1/2 * (q2 a + q2 b)) (1/2 * (q3 a + q3 b)) in
  let x := mid (g_x gri) (g_x grf) in
  let v := mid (g_v gri) (g_v grf) in
  let f := Get_Force K x v in
  let f := V3 (q1 dv - dt * q1 f) (q2 dv - dt * q2 f) (q3 dv - dt * q3 f) in
  ts <- lift ts;; r <- lift (odiv ts dt);;
  let Elosspar := mgr * (SQR (q1 f) + SQR (q2 f) + SQR (q3 f)) * r in
  let f := V3 (mgr * q1 f) (mgr * q2 f) (mgr * q3 f) in
  W <- getweight (k_interp K) pG x (cell1_of (k_Nx K) pG) junk;;
  Ok (distrFB_corr L (k_interp K) W f Elosspar Coup).

(** * The main loop *)

(** src/particles/integrators_particle.c:641-663: Delete_Ghost from index p on; [num] counts the particles of each
    type.  [fuel] bounds the iterations (it never runs out: property C69). *)
Fixpoint delete_from (fuel : nat) (p n : Z) (a : Z -> grain) (num : Z -> Z) : res ((Z -> grain) * Z * (Z -> Z)) :=
  if (p <? n)%Z then
    match fuel with
    | O => Fatal
    | S f =>
        if (g_pos (a p) =? 0)%Z then
          let n := (n - 1)%Z in
          let num := upd num (g_type (a p)) (num (g_type (a p)) - 1)%Z in
          delete_from f p n (upd a p (a n)) num
        else delete_from f (p + 1)%Z n a num
    end
  else Ok (a, n, num).
Definition Delete_Ghost (n : Z) (a : Z -> grain) (num : Z -> Z) : res ((Z -> grain) * Z * (Z -> Z)) :=
  delete_from (Z.to_nat n) 0 n a num.
Definition ge (x y : R) : bool := if Rle_dec y x then true else false.
Definition lt (x y : R) : bool := if Rlt_dec x y then true else false.
(** src/particles/integrators_particle.c:668-686: the new value of gr->pos *)
Definition JudgeCrossing (K : pcfg) (L : plim) (x : v3) (pos : Z) : Z :=
  let out1 := ge (q1 x) (l_xup L X1) || lt (q1 x) (l_xlo L X1) in
  let out2 := ge (q2 x) (l_xup L X2) || lt (q2 x) (l_xlo L X2) in
  let out3 := ge (q3 x) (l_xup L X3) || lt (q3 x) (l_xlo L X3) in
  match k_sh K with
  | Some s =>
      if fargo s then if out1 || out3 then 10%Z else if negb (sh_xy s) && out2 then 10%Z else pos
      else if out1 || out2 || out3 then 10%Z else pos
  | None => if out1 || out2 || out3 then 10%Z else pos
  end.
(** src/particles/integrators_particle.c:116-160: one particle *)
Definition int_one (K : pcfg) (L : plim) (pG : pgrid) (dt : R) (g : grain) (Coup : cells gpc) : res (grain * cells gpc) :=
  '(dv, ts) <- int_par K L pG dt Coup g;;
  let v := plus3 (g_v g) dv in
  let x := V3 (if (k_Nx K X1 >? 1)%Z then q1 (g_x g) + 1/2 * dt * (q1 (g_v g) + q1 v) else q1 (g_x g))
              (if (k_Nx K X2 >? 1)%Z then q2 (g_x g) + 1/2 * dt * (q2 (g_v g) + q2 v) else q2 (g_x g))
              (if (k_Nx K X3 >? 1)%Z then q3 (g_x g) + 1/2 * dt * (q3 (g_v g) + q3 v) else q3 (g_x g)) in
  let curP := Grain x v (g_type g) (g_pos g) (g_id g) in
  Coup <- (if k_feedback K then feedback_corrector K L pG dt g curP dv ts Coup else Ok Coup);;
  Ok (Grain x v (g_type g) (JudgeCrossing K L x (g_pos g)) (g_id g), Coup).
(** src/particles/integrators_particle.c:92-164: the particles p, p+1, .. (m of them) *)
Fixpoint int_all (K : pcfg) (L : plim) (pG : pgrid) (dt : R) (m : nat) (p : Z) (a : Z -> grain) (Coup : cells gpc) : res ((Z -> grain) * cells gpc) :=
  match m with
  | O => Ok (a, Coup)
  | S m' =>
      '(g, Coup) <- int_one K L pG dt (a p) Coup;;
      int_all K L pG dt m' (p + 1)%Z (upd a p g) Coup
  end.
(** src/particles/integrators_particle.c:66-171 (pG->parsub[p].shift of FARGO is not modelled): particles, their
    number, the number of each type, the coupling array. *)
Definition Integrate_Particles (K : pcfg) (L : plim) (pG : pgrid) (dt : R) (n : Z) (a : Z -> grain) (num : Z -> Z) (Coup : cells gpc)
  : res ((Z -> grain) * Z * (Z -> Z) * cells gpc) :=
  let Coup := if k_feedback K then feedback_clear L Coup else Coup in
  '(a, n, num) <- Delete_Ghost n a num;;
  '(a, Coup) <- int_all K L pG dt (Z.to_nat n) 0 a Coup;;
  Ok (a, n, num, Coup).

(** * Limits of the Grid *)

(** src/particles/init_particle.c:219-288.  [e] is the last active cell, [MaxX] the upper edge of the Grid, [bci],
    [bco] tell whether the Grid touches an inner or outer boundary with BCFlag 2. *)
Definition grid_limit (nghost : Z) (Nx : axis -> Z) (pG : pgrid) (e : axis -> Z) (MaxX : axis -> R) (bci bco : axis -> bool) : plim :=
  let m a := if (Nx a >? 1)%Z then 1%Z else 0%Z in
  let far a := IZR ((nghost - 1) * m a) * p_dx pG a in
  Plim (fun a => p_s pG a - m a * nghost)%Z (fun a => e a + m a * nghost)%Z
    (fun a => match a with
       | X1 => if bci X1 then p_MinX pG X1 - far X1 else p_MinX pG X1
       | X2 => if bci X2 then p_MinX pG X2 - far X2 else p_MinX pG X2
       | X3 => if bci X3 then p_MinX pG X3 + far X3 else p_MinX pG X3 end)
    (fun a => match a with
       | X1 => (if bco X1 then MaxX X1 + far X1 else MaxX X1) + (if (Nx X1 =? 1)%Z then 1 else 0)
       | X2 => (if bco X2 then MaxX X2 + far X2 else MaxX X2) + (if (Nx X2 =? 1)%Z then 1 else 0)
       | X3 => (if bco X3 then MaxX X3 + IZR ((nghost - 1) * m X2) * p_dx pG X3 else MaxX X3) + (if (Nx X3 =? 1)%Z then 1 else 0) end).

(** * Sorting *)

(** src/particles/utils_particle.c:671-695 *)
Definition compare_gr (pG : pgrid) (cell1 : v3) (gr1 gr2 : grain) : res Z :=
  k1 <- c_int ((q3 (g_x gr1) - p_MinX pG X3) * q3 cell1);;
  k2 <- c_int ((q3 (g_x gr2) - p_MinX pG X3) * q3 cell1);;
  if (k1 <? k2)%Z then Ok 1%Z else if (k1 >? k2)%Z then Ok 2%Z else
  j1 <- c_int ((q2 (g_x gr1) - p_MinX pG X2) * q2 cell1);;
  j2 <- c_int ((q2 (g_x gr2) - p_MinX pG X2) * q2 cell1);;
  if (j1 <? j2)%Z then Ok 1%Z else if (j1 >? j2)%Z then Ok 2%Z else
  i1 <- c_int ((q1 (g_x gr1) - p_MinX pG X1) * q1 cell1);;
  i2 <- c_int ((q1 (g_x gr2) - p_MinX pG X1) * q1 cell1);;
  if (i1 <? i2)%Z then Ok 1%Z else if (i1 >? i2)%Z then Ok 2%Z else Ok 1%Z.
(** src/particles/utils_particle.c:721-733: while (i <= end), [m] iterations left; returns the array and pivot. *)
Fixpoint partition {A} (cmp : A -> A -> res Z) (m : nat) (i pivot : Z) (a : Z -> A) : res ((Z -> A) * Z) :=
  match m with
  | O => Ok (a, pivot)
  | S m' =>
      c <- cmp (a pivot) (a i);;
      if (c =? 2)%Z then
        let gr := a pivot in
        let a := upd a pivot (a i) in
        let a := upd a i (a (pivot + 1)%Z) in
        let a := upd a (pivot + 1)%Z gr in
        partition cmp m' (i + 1) (pivot + 1) a
      else partition cmp m' (i + 1) pivot a
  end.
(** src/particles/utils_particle.c:704-741; [fuel] bounds the depth of the recursion ([Fatal] stands for running out,
    which never happens: property C64). *)
Fixpoint quicksort_particle {A} (cmp : A -> A -> res Z) (fuel : nat) (start end_ : Z) (a : Z -> A) : res (Z -> A) :=
  if (end_ <=? start)%Z then Ok a else
  match fuel with
  | O => Fatal
  | S f =>
      let pivot := Z.quot (start + end_ + 1) 2 in
      let gr := a pivot in
      let a := upd a pivot (a start) in
      let a := upd a start gr in
      '(a, pivot) <- partition cmp (Z.to_nat (end_ - start)) (start + 1) start a;;
      a <- quicksort_particle cmp f start (pivot - 1) a;;
      quicksort_particle cmp f (pivot + 1) end_ a
  end.
(** src/particles/utils_particle.c:643-659 *)
Definition shuffle (Nx : axis -> Z) (pG : pgrid) (n : Z) (a : Z -> grain) : res (Z -> grain) :=
  quicksort_particle (compare_gr pG (cell1_of Nx pG)) (Z.to_nat n) 0 (n - 1) a.
