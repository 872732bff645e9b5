(** * src/integrators/integrate_2d_vl.c: integrate_2d_vl()

    Same scope as Ctu2Model.v; cooling and first-order flux correction are not
    modelled.  integrate_emf3_corner() (lines 1529-1603) has the same body as in
    integrate_2d_ctu.c. *)
From Coq Require Import Reals ZArith List Bool.
From Verif Require Import GasModel IntegModel Ctu2Model.
Open Scope R_scope.

Section Vl2.
Variables (sc : scheme) (z : scratch2) (g : grid2).
Definition il := (is g - (nghost - 1))%Z.                              (* lines 134-135 *)
Definition iu := (ie g + (nghost - 1))%Z.
Definition jl := (js g - (nghost - 1))%Z.
Definition ju := (je g + (nghost - 1))%Z.
Definition ia := (is g - nghost)%Z.
Definition ib := (ie g + nghost)%Z.
Definition ja := (js g - nghost)%Z.
Definition jb := (je g + nghost)%Z.

(** lines 155-163 *)
Definition Uh0 := loop2 ja jb ia ib (U g) (z_Uh z).
Definition B1f0 := loop2 ja jb ia ib (B1i g) (z_B1f z).
Definition B2f0 := loop2 ja jb ia ib (B2i g) (z_B2f z).
(** Step 1, lines 173-218 *)
Definition W1 : Z -> Z -> prim1 * R :=
  loop2 ja jb ia ib (fun j i => (s_c2p sc (load1 (U g j i)) (cB1 (U g j i)), cB1 (U g j i))) (z_W1 z).
Definition F1 := loop2 ja jb il ib (fun j i =>
  let wl := W1 j (i - 1)%Z in let wr := W1 j i in
  s_flux sc (s_p2c sc (fst wl) (snd wl)) (s_p2c sc (fst wr) (snd wr)) (fst wl) (fst wr) (B1i g j i)) (z_F1 z).
(** Step 2, lines 228-273 *)
Definition W2 : Z -> Z -> prim1 * R :=
  loop2 ja jb ia ib (fun j i => (s_c2p sc (load2 (U g j i)) (cB2 (U g j i)), cB2 (U g j i))) (z_W2 z).
Definition F2 := loop2 jl jb ia ib (fun j i =>
  let wl := W2 (j - 1)%Z i in let wr := W2 j i in
  s_flux sc (s_p2c sc (fst wl) (snd wl)) (s_p2c sc (fst wr) (snd wr)) (fst wl) (fst wr) (B2i g j i)) (z_F2 z).
(** Step 4, lines 285-327 *)
Definition emf_cell (u : cons) : R := let w := s_cell sc u in pB1 w * pV2 w - pB2 w * pV1 w.
Definition cc0 := loop2 ja jb ia ib (fun j i => emf_cell (U g j i)) (z_cc z).
Definition emf0 := loop2 jl (ju + 1) il (iu + 1) (emf3_corner F1 F2 cc0) (z_emf z).
Definition B1f :=
  if s_mhd sc then loop2 jl ju il (iu + 1) (fun j i =>
    B1f0 j i - hq2 g * (emf0 (j + 1)%Z i - emf0 j i)) B1f0 else B1f0.
Definition B2f :=
  if s_mhd sc then loop2 jl (ju + 1) il iu (fun j i =>
    B2f0 j i + hq1 g * (emf0 j (i + 1)%Z - emf0 j i)) B2f0 else B2f0.
Definition Uh1 :=
  if s_mhd sc then loop2 jl ju il iu (fun j i =>
    set_B2 (set_B1 (Uh0 j i) (half * (B1f j i + B1f j (i + 1)%Z))) (half * (B2f j i + B2f (j + 1)%Z i))) Uh0
  else Uh0.
(** Step 5, lines 336-382 *)
Definition Uh2 := loop2 jl ju il iu (fun j i => upd1 (hq1 g) false (s_mhd sc) (Uh1 j i) (F1 j (i + 1)%Z) (F1 j i)) Uh1.
Definition Uh3 := loop2 jl ju il iu (fun j i => upd2 (hq2 g) (s_mhd sc) false (Uh2 j i) (F2 (j + 1)%Z i) (F2 j i)) Uh2.
(** Step 6a, lines 409-440 *)
Definition Uh4 :=
  match s_grav sc with
  | None => Uh3
  | Some phi => loop2 jl ju il iu (fun j i =>
      let u := Uh3 j i in let x1 := x1c g i in let x2 := x2c g j in
      let phic := phi x1 x2 (X3 g) in
      let phir := phi (x1 + half * dx1 g) x2 (X3 g) in
      let phil := phi (x1 - half * dx1 g) x2 (X3 g) in
      let u := set_M1 u (cM1 u - hdt g * cd (U g j i) * ((phir - phil) * dx1i g)) in
      let u := set_E u (cE u - hq1 g * (ud (F1 j i) * (phic - phil) + ud (F1 j (i + 1)%Z) * (phir - phic))) in
      let phir := phi x1 (x2 + half * dx2 g) (X3 g) in
      let phil := phi x1 (x2 - half * dx2 g) (X3 g) in
      let u := set_M2 u (cM2 u - hq2 g * (phir - phil) * cd (U g j i)) in
      set_E u (cE u - hq2 g * (ud (F2 j i) * (phic - phil) + ud (F2 (j + 1)%Z i) * (phir - phic)))) Uh3
  end.
(** Step 6b, lines 448-468 *)
Definition Uh :=
  match s_selfg sc with
  | None => Uh4
  | Some _ => loop2 jl ju il iu (fun j i =>
      let u := Uh4 j i in
      let phic := Phi g j i in
      let phir := half * (Phi g j i + Phi g j (i + 1)%Z) in
      let phil := half * (Phi g j i + Phi g j (i - 1)%Z) in
      let u := set_M1 u (cM1 u - hq1 g * (phir - phil) * cd (U g j i)) in
      let u := set_E u (cE u - hq1 g * (ud (F1 j i) * (phic - phil) + ud (F1 j (i + 1)%Z) * (phir - phic))) in
      let phir := half * (Phi g j i + Phi g (j + 1)%Z i) in
      let phil := half * (Phi g j i + Phi g (j - 1)%Z i) in
      let u := set_M2 u (cM2 u - hq2 g * (phir - phil) * cd (U g j i)) in
      set_E u (cE u - hq2 g * (ud (F2 j i) * (phic - phil) + ud (F2 (j + 1)%Z i) * (phir - phic)))) Uh4
  end.
(** Step 7, lines 583-617 *)
Definition Wh1 : Z -> Z -> prim1 * R :=
  loop2 (js g - 1) (je g + 1) il iu (fun j i => (s_c2p sc (load1 (Uh j i)) (cB1 (Uh j i)), cB1 (Uh j i))) (z_Wh1 z).
Definition lr1 := loop2 (js g - 1) (je g + 1) (is g) (ie g + 1) (fun j i => s_lr sc (dt g) (dx1 g) (Wh1 j) i) (z_lr1 z).
(** Step 8, lines 626-662 *)
Definition Wh2 : Z -> Z -> prim1 * R :=
  loop2 jl ju (is g - 1) (ie g + 1) (fun j i => (s_c2p sc (load2 (Uh j i)) (cB2 (Uh j i)), cB2 (Uh j i))) (z_Wh2 z).
Definition lr2 := loop2 (js g) (je g + 1) (is g - 1) (ie g + 1) (fun j i => s_lr sc (dt g) (dx2 g) (fun j => Wh2 j i) j) (z_lr2 z).
(** Step 10, lines 705-779 *)
Definition G1 := loop2 (js g - 1) (je g + 1) (is g) (ie g + 1) (fun j i =>
  let w := lr1 j i in let Bx := B1f j i in
  s_flux sc (s_p2c sc (fst w) Bx) (s_p2c sc (snd w) Bx) (fst w) (snd w) Bx) F1.
Definition G2 := loop2 (js g) (je g + 1) (is g - 1) (ie g + 1) (fun j i =>
  let w := lr2 j i in let Bx := B2f j i in
  s_flux sc (s_p2c sc (fst w) Bx) (s_p2c sc (snd w) Bx) (fst w) (snd w) Bx) F2.
(** Step 11, lines 796-842 *)
Definition cch := loop2 (js g - 1) (je g + 1) (is g - 1) (ie g + 1) (fun j i => emf_cell (Uh j i)) cc0.
Definition emf := loop2 jl (ju + 1) il (iu + 1) (emf3_corner G1 G2 cch) emf0.
Definition B1i' :=
  if s_mhd sc then loop2 (js g) (je g) (is g) (ie g + 1) (fun j i =>
    B1i g j i - q2 g * (emf (j + 1)%Z i - emf j i)) (B1i g) else B1i g.
Definition B2i' :=
  if s_mhd sc then loop2 (js g) (je g + 1) (is g) (ie g) (fun j i =>
    B2i g j i + q1 g * (emf j (i + 1)%Z - emf j i)) (B2i g) else B2i g.
Definition U11 :=
  if s_mhd sc then loop2 (js g) (je g) (is g) (ie g) (fun j i =>
    let u := set_B1 (U g j i) (half * (B1i' j i + B1i' j (i + 1)%Z)) in
    set_B2 u (half * (B2i' j i + B2i' (j + 1)%Z i))) (U g)
  else U g.
(** Step 12a, lines 955-986 *)
Definition U12a :=
  match s_grav sc with
  | None => U11
  | Some phi => loop2 (js g) (je g) (is g) (ie g) (fun j i =>
      let u := U11 j i in let x1 := x1c g i in let x2 := x2c g j in
      let phic := phi x1 x2 (X3 g) in
      let phir := phi (x1 + half * dx1 g) x2 (X3 g) in
      let phil := phi (x1 - half * dx1 g) x2 (X3 g) in
      let u := set_M1 u (cM1 u - dt g * cd (Uh j i) * ((phir - phil) * dx1i g)) in
      let u := set_E u (cE u - q1 g * (ud (G1 j i) * (phic - phil) + ud (G1 j (i + 1)%Z) * (phir - phic))) in
      let phir := phi x1 (x2 + half * dx2 g) (X3 g) in
      let phil := phi x1 (x2 - half * dx2 g) (X3 g) in
      let u := set_M2 u (cM2 u - q2 g * (phir - phil) * cd (Uh j i)) in
      set_E u (cE u - q2 g * (ud (G2 j i) * (phic - phil) + ud (G2 (j + 1)%Z i) * (phir - phic)))) U11
  end.
(** Step 12b, lines 997-1070 *)
Definition U12b1 :=
  match s_selfg sc with
  | None => U12a
  | Some (four_pi_G, mean_rho) => loop2 (js g) (je g) (is g) (ie g) (fun j i =>
      let u := U12a j i in
      let phic := Phi g j i in
      let phil := half * (Phi g j (i - 1)%Z + Phi g j i) in
      let phir := half * (Phi g j i + Phi g j (i + 1)%Z) in
      let gxl := (Phi g j (i - 1)%Z - Phi g j i) / dx1 g in
      let gxr := (Phi g j i - Phi g j (i + 1)%Z) / dx1 g in
      let gyl := / 4 * ((Phi g (j - 1)%Z (i - 1)%Z - Phi g (j + 1)%Z (i - 1)%Z)
                        + (Phi g (j - 1)%Z i - Phi g (j + 1)%Z i)) / dx2 g in
      let gyr := / 4 * ((Phi g (j - 1)%Z i - Phi g (j + 1)%Z i)
                        + (Phi g (j - 1)%Z (i + 1)%Z - Phi g (j + 1)%Z (i + 1)%Z)) / dx2 g in
      let flx_m1l := half * (gxl * gxl - gyl * gyl) / four_pi_G + mean_rho * phil in
      let flx_m1r := half * (gxr * gxr - gyr * gyr) / four_pi_G + mean_rho * phir in
      let flx_m2l := gxl * gyl / four_pi_G in
      let flx_m2r := gxr * gyr / four_pi_G in
      let u := set_M1 u (cM1 u - q1 g * (flx_m1r - flx_m1l)) in
      let u := set_M2 u (cM2 u - q1 g * (flx_m2r - flx_m2l)) in
      set_E u (cE u - q1 g * (ud (G1 j i) * (phic - phil) + ud (G1 j (i + 1)%Z) * (phir - phic)))) U12a
  end.
Definition U12b :=
  match s_selfg sc with
  | None => U12b1
  | Some (four_pi_G, mean_rho) => loop2 (js g) (je g) (is g) (ie g) (fun j i =>
      let u := U12b1 j i in
      let phic := Phi g j i in
      let phil := half * (Phi g (j - 1)%Z i + Phi g j i) in
      let phir := half * (Phi g j i + Phi g (j + 1)%Z i) in
      let gxl := / 4 * ((Phi g (j - 1)%Z (i - 1)%Z - Phi g (j - 1)%Z (i + 1)%Z)
                        + (Phi g j (i - 1)%Z - Phi g j (i + 1)%Z)) / dx1 g in
      let gxr := / 4 * ((Phi g j (i - 1)%Z - Phi g j (i + 1)%Z)
                        + (Phi g (j + 1)%Z (i - 1)%Z - Phi g (j + 1)%Z (i + 1)%Z)) / dx1 g in
      let gyl := (Phi g (j - 1)%Z i - Phi g j i) / dx2 g in
      let gyr := (Phi g j i - Phi g (j + 1)%Z i) / dx2 g in
      let flx_m1l := gyl * gxl / four_pi_G in
      let flx_m1r := gyr * gxr / four_pi_G in
      let flx_m2l := half * (gyl * gyl - gxl * gxl) / four_pi_G + mean_rho * phil in
      let flx_m2r := half * (gyr * gyr - gxr * gxr) / four_pi_G + mean_rho * phir in
      let u := set_M1 u (cM1 u - q2 g * (flx_m1r - flx_m1l)) in
      let u := set_M2 u (cM2 u - q2 g * (flx_m2r - flx_m2l)) in
      set_E u (cE u - q2 g * (ud (G2 j i) * (phic - phil) + ud (G2 (j + 1)%Z i) * (phir - phic)))) U12b1
  end.
Definition mass1 :=
  match s_selfg sc with None => x1Mass g
  | Some _ => loop2 (js g) (je g + 1) (is g) (ie g + 1) (fun j i => ud (G1 j i)) (x1Mass g) end.
Definition mass2 :=
  match s_selfg sc with None => x2Mass g
  | Some _ => loop2 (js g) (je g + 1) (is g) (ie g + 1) (fun j i => ud (G2 j i)) (x2Mass g) end.
(** Step 13, lines 1119-1177 *)
Definition U13a := loop2 (js g) (je g) (is g) (ie g) (fun j i =>
  upd1 (q1 g) false (s_mhd sc) (U12b j i) (G1 j (i + 1)%Z) (G1 j i)) U12b.
Definition U13 := loop2 (js g) (je g) (is g) (ie g) (fun j i =>
  upd2 (q2 g) (s_mhd sc) false (U13a j i) (G2 (j + 1)%Z i) (G2 j i)) U13a.
Definition B3i' :=
  if s_mhd sc then loop2 (js g) (je g) (is g) (ie g) (fun j i => cB3 (U13 j i)) (B3i g) else B3i g.
Definition integrate_2d_vl : grid2 :=
  Grid2 (is g) (ie g) (js g) (je g) (dt g) (dx1 g) (dx2 g) (MinX1 g) (MinX2 g) (X3 g)
    U13 B1i' B2i' B3i' (Phi g) mass1 mass2.
End Vl2.
