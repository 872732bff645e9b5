(** * src/integrators/integrate_1d_ctu.c: integrate_1d_ctu()

    Modelled: Cartesian, with or without MHD, scalars, a static potential,
    self-gravity and cooling.  Not modelled: particles, cylindrical geometry, the
    copies of fluxes kept for mesh refinement. *)
From Coq Require Import Reals ZArith List Bool.
From Verif Require Import GasModel IntegModel.
Open Scope R_scope.

(** The part of GridS used in 1D (src/athena.h), and the saved mass fluxes. *)
Record grid1 := Grid1 {
  is : Z; ie : Z; dt : R; dx1 : R; MinX1 : R; X2 : R; X3 : R;
  U : Z -> cons; B1i : Z -> R; B2i : Z -> R; B3i : Z -> R; Phi : Z -> R; x1Mass : Z -> R }.

(** The static work arrays (W, Wl/Wr, x1Flux, dhalf, phalf, Uhalf) as left by earlier calls. *)
Record scratch1 := Scratch1 {
  z_W : Z -> prim1 * R; z_lr : Z -> prim1 * prim1; z_F : Z -> cons1;
  z_dh : Z -> R; z_ph : Z -> R; z_Uh : Z -> cons }.

(** src/cc_pos.c:39-43 *)
Definition x1c (g : grid1) (i : Z) : R := MinX1 g + (IZR (i - is g) + half) * dx1 g.

Section Ctu1.
Variables (sc : scheme) (z : scratch1) (g : grid1).
Definition il := (is g - 1)%Z.
Definition iu := (ie g + 1)%Z.
Definition q := dt g / dx1 g.                                         (* dtodx1 *)
Definition hq := half * dt g / dx1 g.                                 (* hdtodx1 *)

(** Step 1a-1b, lines 121-146. *)
Definition W : Z -> prim1 * R :=
  loop1 (is g - nghost) (ie g + nghost)
    (fun i => (s_c2p sc (load1 (U g i)) (cB1 (U g i)), cB1 (U g i))) (z_W z).
(** lr_states(...,il+1,iu-1,...), line 148, and the density floor, 151-158. *)
Definition Wlr0 := loop1 (il + 1) iu (fun i => s_lr sc (dt g) (dx1 g) W i) (z_lr z).
Definition Wlr1 := loop1 (il + 1) iu
  (fun i => (floor_w (s_dmin sc) (fst (Wlr0 i)), floor_w (s_dmin sc) (snd (Wlr0 i)))) Wlr0.
(** Step 1c, lines 164-184. *)
Definition Wlr2 :=
  match s_grav sc with
  | None => Wlr1
  | Some phi => loop1 (il + 1) iu (fun i =>
      let x1 := x1c g i in
      let phicr := phi x1 (X2 g) (X3 g) in
      let phicl := phi (x1 - dx1 g) (X2 g) (X3 g) in
      let phifc := phi (x1 - half * dx1 g) (X2 g) (X3 g) in
      (set_wvx (fst (Wlr1 i)) (wvx (fst (Wlr1 i)) - q * (phifc - phicl)),
       set_wvx (snd (Wlr1 i)) (wvx (snd (Wlr1 i)) - q * (phicr - phifc)))) Wlr1
  end.
(** lines 190-195 *)
Definition Wlr3 :=
  match s_selfg sc with
  | None => Wlr2
  | Some _ => loop1 (il + 1) iu (fun i =>
      (set_wvx (fst (Wlr2 i)) (wvx (fst (Wlr2 i)) - hq * (Phi g i - Phi g (i - 1)%Z)),
       set_wvx (snd (Wlr2 i)) (wvx (snd (Wlr2 i)) - hq * (Phi g i - Phi g (i - 1)%Z)))) Wlr2
  end.
(** lines 202-210 *)
Definition Wlr := loop1 (il + 1) iu
  (fun i => (cool_w sc (dt g) (fst (Wlr3 i)), cool_w sc (dt g) (snd (Wlr3 i)))) Wlr3.
(** Step 1d, lines 309-314. *)
Definition F := loop1 (il + 1) iu (fun i =>
  s_flux sc (s_p2c sc (fst (Wlr i)) (B1i g i)) (s_p2c sc (snd (Wlr i)) (B1i g i))
         (fst (Wlr i)) (snd (Wlr i)) (B1i g i)) (z_F z).

(** Step 8a, lines 325-337. *)
Definition dhalf :=
  match s_grav sc, s_cool sc with
  | None, None => z_dh z
  | _, _ => loop1 (il + 1) (iu - 1) (fun i =>
      floor_x (s_dmin sc) (cd (U g i) - hq * (ud (F (i + 1)%Z) - ud (F i)))) (z_dh z)
  end.
(** Step 8b, lines 344-401. *)
Definition phalf :=
  match s_cool sc with
  | None => z_ph z
  | Some _ => loop1 (il + 1) (iu - 1) (fun i =>
      let u := U g i in
      let M1h := cM1 u - hq * (umx (F (i + 1)%Z) - umx (F i)) in
      let M2h := cM2 u - hq * (umy (F (i + 1)%Z) - umy (F i)) in
      let M3h := cM3 u - hq * (umz (F (i + 1)%Z) - umz (F i)) in
      let Eh := cE u - hq * (ue (F (i + 1)%Z) - ue (F i)) in
      let M1h := match s_grav sc with
                 | None => M1h
                 | Some phi => M1h - hq * (phi (x1c g i + half * dx1 g) (X2 g) (X3 g)
                                           - phi (x1c g i - half * dx1 g) (X2 g) (X3 g)) * cd u
                 end in
      let M1h := match s_selfg sc with
                 | None => M1h
                 | Some _ => M1h - hq * (half * (Phi g i + Phi g (i + 1)%Z)
                                         - half * (Phi g i + Phi g (i - 1)%Z)) * cd u
                 end in
      let p := Eh - half * (M1h * M1h + M2h * M2h + M3h * M3h) / dhalf i in
      let p := if s_mhd sc then
                 let B1ch := cB1 u in
                 let B2ch := cB2 u - hq * (uby (F (i + 1)%Z) - uby (F i)) in
                 let B3ch := cB3 u - hq * (ubz (F (i + 1)%Z) - ubz (F i)) in
                 p - half * (B1ch * B1ch + B2ch * B2ch + B3ch * B3ch)
               else p in
      p * s_gm1 sc) (z_ph z)
  end.

(** Step 11a, lines 464-485. *)
Definition U11a :=
  match s_grav sc with
  | None => U g
  | Some phi => loop1 (is g) (ie g) (fun i =>
      let u := U g i in
      let x1 := x1c g i in
      let phic := phi x1 (X2 g) (X3 g) in
      let phir := phi (x1 + half * dx1 g) (X2 g) (X3 g) in
      let phil := phi (x1 - half * dx1 g) (X2 g) (X3 g) in
      let u := set_M1 u (cM1 u - q * dhalf i * (phir - phil)) in
      set_E u (cE u - q * (ud (F i) * (phic - phil) + ud (F (i + 1)%Z) * (phir - phic)))) (U g)
  end.
(** Step 11b, lines 493-516. *)
Definition U11b :=
  match s_selfg sc with
  | None => U11a
  | Some (four_pi_G, mean_rho) => loop1 (is g) (ie g) (fun i =>
      let u := U11a i in
      let phic := Phi g i in
      let phil := half * (Phi g (i - 1)%Z + Phi g i) in
      let phir := half * (Phi g i + Phi g (i + 1)%Z) in
      let gxl := (Phi g (i - 1)%Z - Phi g i) / dx1 g in
      let gxr := (Phi g i - Phi g (i + 1)%Z) / dx1 g in
      let flux_m1l := half * (gxl * gxl) / four_pi_G + mean_rho * phil in
      let flux_m1r := half * (gxr * gxr) / four_pi_G + mean_rho * phir in
      let u := set_M1 u (cM1 u - q * (flux_m1r - flux_m1l)) in
      set_E u (cE u - q * (ud (F i) * (phic - phil) + ud (F (i + 1)%Z) * (phir - phic)))) U11a
  end.
Definition mass :=
  match s_selfg sc with None => x1Mass g | Some _ => loop1 (is g) (ie g + 1) (fun i => ud (F i)) (x1Mass g) end.
(** Step 11c, lines 524-529. *)
Definition U11c :=
  match s_cool sc with
  | None => U11b
  | Some f => loop1 (is g) (ie g) (fun i =>
      set_E (U11b i) (cE (U11b i) - dt g * f (dhalf i) (phalf i) (dt g))) U11b
  end.
(** Step 12a, lines 554-576. *)
Definition U12 := loop1 (is g) (ie g)
  (fun i => upd1 q (s_mhd sc) (s_mhd sc) (U11c i) (F (i + 1)%Z) (F i)) U11c.
Definition integrate_1d_ctu : grid1 :=
  Grid1 (is g) (ie g) (dt g) (dx1 g) (MinX1 g) (X2 g) (X3 g) U12 (B1i g)
    (if s_mhd sc then loop1 (is g) (ie g) (fun i => cB2 (U12 i)) (B2i g) else B2i g)
    (if s_mhd sc then loop1 (is g) (ie g) (fun i => cB3 (U12 i)) (B3i g) else B3i g)
    (Phi g) mass.
End Ctu1.
