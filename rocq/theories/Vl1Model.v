(** * src/integrators/integrate_1d_vl.c: integrate_1d_vl()

    Same scope as Ctu1Model.v. *)
From Coq Require Import Reals ZArith List Bool.
From Verif Require Import GasModel IntegModel Ctu1Model.
Open Scope R_scope.

Section Vl1.
Variables (sc : scheme) (z : scratch1) (g : grid1).
Definition il := (is g - (nghost - 1))%Z.                              (* line 70 *)
Definition iu := (ie g + (nghost - 1))%Z.
Definition q := dt g / dx1 g.
Definition hq := half * dt g / dx1 g.
Definition Bxi := B1i g.

(** lines 78-80 *)
Definition Uh0 := loop1 (is g - nghost) (ie g + nghost) (U g) (z_Uh z).
(** Step 1, lines 90-132. *)
Definition W : Z -> prim1 * R :=
  loop1 (is g - nghost) (ie g + nghost)
    (fun i => (s_c2p sc (load1 (U g i)) (cB1 (U g i)), cB1 (U g i))) (z_W z).
Definition F0 := loop1 il (ie g + nghost) (fun i =>
  s_flux sc (load1 (U g (i - 1)%Z)) (load1 (U g i)) (fst (W (i - 1)%Z)) (fst (W i)) (Bxi i)) (z_F z).
(** Step 5, lines 142-161. *)
Definition Uh1 := loop1 il iu
  (fun i => upd1 hq (s_mhd sc) (s_mhd sc) (Uh0 i) (F0 (i + 1)%Z) (F0 i)) Uh0.
(** Step 6a, lines 172-188. *)
Definition Uh2 :=
  match s_grav sc with
  | None => Uh1
  | Some phi => loop1 il iu (fun i =>
      let u := Uh1 i in
      let x1 := x1c g i in
      let phic := phi x1 (X2 g) (X3 g) in
      let phir := phi (x1 + half * dx1 g) (X2 g) (X3 g) in
      let phil := phi (x1 - half * dx1 g) (X2 g) (X3 g) in
      let u := set_M1 u (cM1 u - hq * cd (U g i) * (phir - phil)) in
      set_E u (cE u - hq * (ud (F0 i) * (phic - phil) + ud (F0 (i + 1)%Z) * (phir - phic)))) Uh1
  end.
(** Step 6b, lines 195-210. *)
Definition Uh :=
  match s_selfg sc with
  | None => Uh2
  | Some _ => loop1 il iu (fun i =>
      let u := Uh2 i in
      let phic := Phi g i in
      let phir := half * (Phi g i + Phi g (i + 1)%Z) in
      let phil := half * (Phi g i + Phi g (i - 1)%Z) in
      let u := set_M1 u (cM1 u - hq * cd (U g i) * (phir - phil)) in
      set_E u (cE u - hq * (ud (F0 i) * (phic - phil) + ud (F0 (i + 1)%Z) * (phir - phic)))) Uh2
  end.
(** Step 7, lines 251-282. *)
Definition Wh : Z -> prim1 * R :=
  loop1 il iu (fun i => (s_c2p sc (load1 (Uh i)) (cB1 (Uh i)), cB1 (Uh i))) W.
Definition Wlr := loop1 (is g) (ie g + 1) (fun i => s_lr sc (dt g) (dx1 g) Wh i) (z_lr z).
(** Step 10, lines 292-297. *)
Definition F := loop1 (is g) (ie g + 1) (fun i =>
  s_flux sc (s_p2c sc (fst (Wlr i)) (Bxi i)) (s_p2c sc (snd (Wlr i)) (Bxi i))
         (fst (Wlr i)) (snd (Wlr i)) (Bxi i)) F0.
(** Step 12a, lines 310-326. *)
Definition U12a :=
  match s_grav sc with
  | None => U g
  | Some phi => loop1 (is g) (ie g) (fun i =>
      let u := U g i in
      let x1 := x1c g i in
      let phic := phi x1 (X2 g) (X3 g) in
      let phir := phi (x1 + half * dx1 g) (X2 g) (X3 g) in
      let phil := phi (x1 - half * dx1 g) (X2 g) (X3 g) in
      let u := set_M1 u (cM1 u - q * cd (Uh i) * (phir - phil)) in
      set_E u (cE u - q * (ud (F i) * (phic - phil) + ud (F (i + 1)%Z) * (phir - phic)))) (U g)
  end.
(** Step 12b, lines 334-366. *)
Definition U12b :=
  match s_selfg sc with
  | None => U12a
  | Some (four_pi_G, mean_rho) => loop1 (is g) (ie g) (fun i =>
      let u := U12a i in
      let phic := Phi g i in
      let phil := half * (Phi g (i - 1)%Z + Phi g i) in
      let phir := half * (Phi g i + Phi g (i + 1)%Z) in
      let gxl := (Phi g (i - 1)%Z - Phi g i) / dx1 g in
      let gxr := (Phi g i - Phi g (i + 1)%Z) / dx1 g in
      let flx_m1l := half * (gxl * gxl) / four_pi_G + mean_rho * phil in
      let flx_m1r := half * (gxr * gxr) / four_pi_G + mean_rho * phir in
      let u := set_M1 u (cM1 u - q * (flx_m1r - flx_m1l)) in
      set_E u (cE u - q * (ud (F i) * (phic - phil) + ud (F (i + 1)%Z) * (phir - phic)))) U12a
  end.
Definition mass :=
  match s_selfg sc with None => x1Mass g | Some _ => loop1 (is g) (ie g + 1) (fun i => ud (F i)) (x1Mass g) end.
(** Step 13a, lines 404-426. *)
Definition U13 := loop1 (is g) (ie g)
  (fun i => upd1 q (s_mhd sc) (s_mhd sc) (U12b i) (F (i + 1)%Z) (F i)) U12b.
Definition integrate_1d_vl : grid1 :=
  Grid1 (is g) (ie g) (dt g) (dx1 g) (MinX1 g) (X2 g) (X3 g) U13 (B1i g)
    (if s_mhd sc then loop1 (is g) (ie g) (fun i => cB2 (U13 i)) (B2i g) else B2i g)
    (if s_mhd sc then loop1 (is g) (ie g) (fun i => cB3 (U13 i)) (B3i g) else B3i g)
    (Phi g) mass.
End Vl1.
