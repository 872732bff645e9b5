(** * Reconstruction: src/reconstruction/lr_states_{dc,prim2,plm,prim3,ppm,p3c}.c

    Cartesian coordinates, Newtonian.  A state is viewed, as in the C code, as
    an array of NWAVE+NSCALARS reals (here a function of the index); a slice is
    a function of the cell index.  [nw] is NWAVE; indices from [nw] on are the
    passive scalars.  Divisions are total here; ReconProps.v shows that no
    divisor is zero. *)
From Coq Require Import Reals ZArith Arith List.
From Verif Require Import GasModel.
Open Scope R_scope.

Definition state := nat -> R.
Definition slice := Z -> state.

(** lr_states_prim2.c:115-119, lr_states_plm.c:145-149, lr_states_ppm.c:151-155: van Leer difference. *)
Definition vl_diff (dl dr : R) : R := if Rlt_dec 0 (dl * dr) then 2 * dl * dr / (dl + dr) else 0.

(** lr_states_prim2.c:125-130, lr_states_plm.c:191-196, lr_states_ppm.c:189-195: the limited slope. *)
Definition limited (dl dr dc dg : R) : R :=
  if Rlt_dec 0 (dl * dr) then
    let lim_slope1 := MIN (Rabs dl) (Rabs dr) in
    let lim_slope2 := MIN (half * Rabs dc) (Rabs dg) in
    SIGN dc * MIN (2 * lim_slope1) lim_slope2
  else 0.

(** The MAX/MIN pairs of lr_states_prim2.c:141-146, lr_states_plm.c:236-242, lr_states_ppm.c:482-487. *)
Definition clamp (a b x : R) : R := MIN (MAX a b) (MAX (MIN a b) x).

(** The eigensystem of one cell, from src/reconstruction/esystem_prim.c; arbitrary here. *)
Record esystem := Esystem { ev : nat -> R; lem : nat -> nat -> R; rem : nat -> nat -> R }.
(** sum over m < NWAVE *)
Definition sum (nw : nat) (f : nat -> R) : R := fold_right (fun m s => f m + s) 0 (seq 0 nw).

(** ** First order: lr_states_dc.c:51-54.  Interface i has states Wl[i], Wr[i]. *)
Definition dc_l (W : slice) (i : Z) : state := W (i - 1)%Z.
Definition dc_r (W : slice) (i : Z) : state := W i.

(** ** Second order in the primitive variables: lr_states_prim2.c:110-146 (steps 1-3) *)
Definition prim2_slope (W : slice) (i : Z) (n : nat) : R :=
  let dc := W (i + 1)%Z n - W (i - 1)%Z n in
  let dl := W i n - W (i - 1)%Z n in
  let dr := W (i + 1)%Z n - W i n in
  limited dl dr dc (vl_diff dl dr).
(** The values (Wlv, Wrv) at the left and right end of cell i. *)
Definition prim2_ends (W : slice) (i : Z) (n : nat) : R * R :=
  (clamp (W i n) (W (i - 1)%Z n) (W i n - half * prim2_slope W i n),
   clamp (W i n) (W (i + 1)%Z n) (W i n + half * prim2_slope W i n)).

(** ** Second order in the characteristic variables: lr_states_plm.c *)
Section Chr.
Variables (nw : nat) (W : slice) (es : Z -> esystem).
(** Steps 2-5 (lines 139-213), also lr_states_ppm.c steps 2-5 (132-212): the
    differences are projected on the left eigenvectors, limited, and projected
    back; scalars are limited directly. *)
Definition along (e : esystem) (n : nat) (d : state) : R := sum nw (fun m => lem e n m * d m).
Definition chr_da (i : Z) (n : nat) : R :=
  let dWc := fun m => W (i + 1)%Z m - W (i - 1)%Z m in
  let dWl := fun m => W i m - W (i - 1)%Z m in
  let dWr := fun m => W (i + 1)%Z m - W i m in
  let dWg := fun m => vl_diff (dWl m) (dWr m) in
  if (n <? nw)%nat then limited (along (es i) n dWl) (along (es i) n dWr) (along (es i) n dWc) (along (es i) n dWg)
  else limited (dWl n) (dWr n) (dWc n) (dWg n).
Definition chr_slope (i : Z) (n : nat) : R :=
  if (n <? nw)%nat then sum nw (fun m => chr_da i m * rem (es i) n m)
  else chr_da i n.
(** Step 7 (lines 223-247), with gamma_curv = 0, opg = omg = beta = betai = 1. *)
Definition plm_ends (i : Z) (n : nat) : R * R :=
  let Wlv := W i n - half * chr_slope i n * 1 in
  let Wrv := W i n + half * chr_slope i n * 1 in
  let C := Wrv + 1 * Wlv in
  let Wlv := clamp (W i n) (W (i - 1)%Z n) Wlv in
  let Wrv := C - 1 * Wlv in
  let Wrv := clamp (W i n) (W (i + 1)%Z n) Wrv in
  let Wlv := (C - Wrv) * 1 in
  (Wlv, Wrv).

(** ** Third order: lr_states_ppm.c *)
(** Steps 7, 14 (lines 280-292, 434-451), gamma_curv = 0. *)
Definition ppm_half (i : Z) (n : nat) : R :=
  half * (W i n + W (i - 1)%Z n) - (chr_slope i n - chr_slope (i - 1)%Z n) / 6.
End Chr.
(** Step 16, first loop (lines 470-483), lr_states_prim3.c:205-217. *)
Definition monotonize (w l r : R) : R * R :=
  let qa := (r - w) * (w - l) in
  let qb := r - l in
  let qc := 6 * (w - half * (l + r)) in
  if Rle_dec qa 0 then (w, w)
  else if Rlt_dec (qb * qb) (qb * qc) then ((6 * w - r * 4) / 2, r)
  else if Rlt_dec (qb * qc) (- (qb * qb)) then (l, (6 * w - l * 4) / 2)
  else (l, r).
Definition clamped_ends (W : slice) (i : Z) (n : nat) (e : R * R) : R * R :=
  (clamp (W i n) (W (i - 1)%Z n) (fst e), clamp (W i n) (W (i + 1)%Z n) (snd e)).
Definition ppm_ends (nw : nat) (W : slice) (es : Z -> esystem) (i : Z) (n : nat) : R * R :=
  clamped_ends W i n (monotonize (W i n) (ppm_half nw W es i n) (ppm_half nw W es (i + 1)%Z n)).

(** ** Third order in the primitive variables: lr_states_prim3.c *)
(** Step 1 (lines 106-126). *)
Definition prim3_half (W : slice) (i : Z) (n : nat) : R :=
  let wh := (7 * (W (i - 1)%Z n + W i n) - (W (i - 2)%Z n + W (i + 1)%Z n)) / 12 in
  let d2c := 3 * (W (i - 1)%Z n - 2 * wh + W i n) in
  let d2l := W (i - 2)%Z n - 2 * W (i - 1)%Z n + W i n in
  let d2r := W (i - 1)%Z n - 2 * W i n + W (i + 1)%Z n in
  let lim_slope := MIN (Rabs d2l) (Rabs d2r) in
  let d2lim := 0 in
  let d2lim := if Rlt_dec 0 d2c then if Rlt_dec 0 d2l then if Rlt_dec 0 d2r then SIGN d2c * MIN (5 / 4 * lim_slope) (Rabs d2c) else d2lim else d2lim else d2lim in
  let d2lim := if Rlt_dec d2c 0 then if Rlt_dec d2l 0 then if Rlt_dec d2r 0 then SIGN d2c * MIN (5 / 4 * lim_slope) (Rabs d2c) else d2lim else d2lim else d2lim in
  half * ((W (i - 1)%Z n + W i n) - d2lim / 3).
(** Step 3 (lines 144-173). *)
Definition prim3_extremum (W : slice) (i : Z) (n : nat) (l r : R) : R * R :=
  let w := W i n in
  let qa := (r - w) * (w - l) in
  let qb := (W (i - 1)%Z n - w) * (w - W (i + 1)%Z n) in
  if Rle_dec qa 0 then if Rle_dec qb 0 then
    let qc := 6 * (w - half * (l + r)) in
    let d2 := - 2 * qc in
    let d2c := W (i - 1)%Z n - 2 * w + W (i + 1)%Z n in
    let d2l := W (i - 2)%Z n - 2 * W (i - 1)%Z n + w in
    let d2r := w - 2 * W (i + 1)%Z n + W (i + 2)%Z n in
    let lim_slope := MIN (Rabs d2l) (Rabs d2r) in
    let lim_slope := MIN (Rabs d2c) lim_slope in
    let d2lim := 0 in
    let d2lim := if Rlt_dec 0 d2c then if Rlt_dec 0 d2l then if Rlt_dec 0 d2r then if Rlt_dec 0 d2 then SIGN d2 * MIN (5 / 4 * lim_slope) (Rabs d2) else d2lim else d2lim else d2lim else d2lim in
    let d2lim := if Rlt_dec d2c 0 then if Rlt_dec d2l 0 then if Rlt_dec d2r 0 then if Rlt_dec d2 0 then SIGN d2 * MIN (5 / 4 * lim_slope) (Rabs d2) else d2lim else d2lim else d2lim else d2lim in
    if Req_EM_T d2 0 then (w, w)
    else (w + (l - w) * d2lim / d2, w + (r - w) * d2lim / d2)
  else (l, r) else (l, r).
(** Steps 2-4 (lines 136-226); lines 212, 214 write 3*W - 2*Wrv for (6*W - 4*Wrv)/2. *)
Definition prim3_ends (W : slice) (i : Z) (n : nat) : R * R :=
  let e := prim3_extremum W i n (prim3_half W i n) (prim3_half W (i + 1)%Z n) in
  clamped_ends W i n (monotonize (W i n) (fst e) (snd e)).

(** ** Setting Wl, Wr, van Leer integrator: lr_states_prim2.c:151-157,
    lr_states_plm.c:257-266, lr_states_ppm.c:501-509, lr_states_prim3.c:231-237.
    pWl is &Wl[i+1] and receives Wrv of cell i; pWr is &Wr[i] and receives Wlv. *)
Definition edges := Z -> nat -> R * R.
Definition vl_l (E : edges) (i : Z) : state := fun n => snd (E (i - 1)%Z n).
Definition vl_r (E : edges) (i : Z) : state := fun n => fst (E i n).

(** ** Characteristic tracing, CTU integrator: lr_states_ppm.c:510-661 (steps
    18, 19).  lr_states_plm.c:268-400 and lr_states_prim2.c:225-310 are the same
    with W6 = 0 ([curved = false]); prim2 and prim3 test the speeds of the waves
    with > and < ([strict]) where plm and ppm use >= and <=.  [hll] says that
    the Riemann solver is HLLE, HLLC, HLLD or FORCE, [k] is dt/dx, [vx] the
    velocity of the cell, [src n] the index of the slope used for scalar [n]. *)
Section Ctu.
Variables (nw : nat) (strict hll curved : bool) (src : nat -> nat) (k : R) (W : slice) (vx : Z -> R) (es : Z -> esystem) (E : edges).
Definition rightward (x : R) : bool := if strict then if Rlt_dec 0 x then true else false else if Rle_dec 0 x then true else false.
Definition leftward (x : R) : bool := if strict then if Rlt_dec x 0 then true else false else if Rle_dec x 0 then true else false.
(** Step 17 (lines 492-495), lr_states_plm.c:245-247. *)
Definition dW (i : Z) (n : nat) : R := snd (E i n) - fst (E i n).
Definition W6 (i : Z) (n : nat) : R := if curved then 6 * (W i n - half * (fst (E i n) + snd (E i n))) else 0.
Definition ev_max (i : Z) : R := ev (es i) (nw - 1).
Definition ev_min (i : Z) : R := ev (es i) 0.
Definition four3 : R := 4 / 3.
(** Step 18 (lines 512-533). *)
Definition base_l (i : Z) (n : nat) : R :=
  let qx1 := half * MAX (ev_max i) 0 * k in snd (E i n) - qx1 * (dW i n - (1 - four3 * qx1) * W6 i n).
Definition base_r (i : Z) (n : nat) : R :=
  let qx2 := - half * MIN (ev_min i) 0 * k in fst (E i n) + qx2 * (dW i n + (1 - four3 * qx2) * W6 i n).
(** Step 19: lines 543-562 (pWl) and 604-619 (HLL fluxes). *)
Definition waves_l (i : Z) (m : nat) : R :=
  sum nw (fun n =>
    (if rightward (ev (es i) n) then
       let qx1 := half * k * ev_max i in let qx2 := half * k * ev (es i) n in
       let qb := qx1 - qx2 in let qc := four3 * (SQR qx1 - SQR qx2) in
       along nw (es i) n (fun m => qb * (dW i m - W6 i m) + qc * W6 i m) * rem (es i) m n else 0)
    + (if hll then if leftward (ev (es i) n) then
       let qx1 := half * k * ev_max i in let qx2 := half * k * ev (es i) n in
       along nw (es i) n (fun m => (qx1 - qx2) * dW i m) * rem (es i) m n else 0 else 0)).
(** Step 19: lines 585-601 (pWr) and 565-580 (HLL fluxes). *)
Definition waves_r (i : Z) (m : nat) : R :=
  sum nw (fun n =>
    (if leftward (ev (es i) n) then
       let qx1 := half * k * ev_min i in let qx2 := half * k * ev (es i) n in
       let qb := qx1 - qx2 in let qc := four3 * (SQR qx1 - SQR qx2) in
       along nw (es i) n (fun m => qb * (dW i m + W6 i m) + qc * W6 i m) * rem (es i) m n else 0)
    + (if hll then if rightward (ev (es i) n) then
       let qx1 := half * k * ev_min i in let qx2 := half * k * ev (es i) n in
       along nw (es i) n (fun m => (qx1 - qx2) * dW i m) * rem (es i) m n else 0 else 0)).
(** Passive scalars: lines 625-661; lr_states_prim3.c:328-338 reads dW[m], W6[m] with m = NWAVE. *)
Definition scalar_l (i : Z) (n : nat) : R :=
  if Rlt_dec 0 (vx i) then
    let qx1 := half * k * ev_max i in let qx2 := half * k * vx i in
    let qb := qx1 - qx2 in let qc := four3 * (SQR qx1 - SQR qx2) in
    qb * (dW i (src n) - W6 i (src n)) + qc * W6 i (src n) else 0.
Definition scalar_r (i : Z) (n : nat) : R :=
  if Rlt_dec 0 (vx i) then 0
  else if Rlt_dec (vx i) 0 then
    let qx1 := half * k * ev_min i in let qx2 := half * k * vx i in
    let qb := qx1 - qx2 in let qc := four3 * (SQR qx1 - SQR qx2) in
    qb * (dW i (src n) + W6 i (src n)) + qc * W6 i (src n) else 0.
Definition ctu_l (i : Z) : state := fun n => let i := (i - 1)%Z in
  base_l i n + (if (n <? nw)%nat then waves_l i n else scalar_l i n).
Definition ctu_r (i : Z) : state := fun n =>
  base_r i n + (if (n <? nw)%nat then waves_r i n else scalar_r i n).
End Ctu.

(** ** Third order compact: lr_states_p3c.c:98-135 *)
Definition TINY40 : R := / 10 ^ 40.
Definition p3c_theta (da db : R) : R := da / (Rabs db + TINY40) * SIGN db.
(** Lines 105-112. *)
Definition koren (theta : R) : R := MAX (MIN (MIN theta ((2 + theta) / 6)) 1) 0.
Definition koren_ends (W : slice) (i : Z) (n : nat) : R * R :=
  let dl := W i n - W (i - 1)%Z n in let dr := W (i + 1)%Z n - W i n in
  (W i n - koren (p3c_theta dr dl) * dl, W i n + koren (p3c_theta dl dr) * dr).
(** Lines 113-130; RLIM is 0.1. *)
Definition limo3 (dx dl dr theta : R) : R :=
  let lm := (2 + theta) / 6 in
  if Rle_dec 1 ((SQR dl + SQR dr) / SQR (/ 10 * dx)) then
    let phi := MIN theta (8 / 10) in
    let phi := MIN lm phi in
    let phi := MAX (- (1 / 4) * theta) phi in
    let phi := MIN lm phi in
    MAX phi 0
  else lm.
Definition limo3_ends (dx : R) (W : slice) (i : Z) (n : nat) : R * R :=
  let dl := W i n - W (i - 1)%Z n in let dr := W (i + 1)%Z n - W i n in
  (W i n - limo3 dx dl dr (p3c_theta dr dl) * dl, W i n + limo3 dx dl dr (p3c_theta dl dr) * dr).
