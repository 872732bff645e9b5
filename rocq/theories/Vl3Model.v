(** * src/integrators/integrate_3d_vl.c: integrate_3d_vl()

    Same scope as Ctu3Model.v; first-order flux correction is not modelled, and this
    integrator has no cooling.  The integrate_emf*_corner() functions have the same
    bodies as in integrate_3d_ctu.c but run over more zones.  Step 12b divides by dx1
    where the CTU code multiplies with dx1i; with real numbers that is the same. *)
From Coq Require Import Reals ZArith List Bool.
From Verif Require Import GasModel IntegModel Ctu3Model.
Open Scope R_scope.

Section Vl3.
Variables (sc : scheme) (z : scratch3) (g : grid3).
Definition il := (is g - (nghost - 1))%Z.                              (* lines 145-147 *)
Definition iu := (ie g + (nghost - 1))%Z.
Definition jl := (js g - (nghost - 1))%Z.
Definition ju := (je g + (nghost - 1))%Z.
Definition kl := (ks g - (nghost - 1))%Z.
Definition ku := (ke g + (nghost - 1))%Z.
Definition ia := (is g - nghost)%Z.
Definition ib := (ie g + nghost)%Z.
Definition ja := (js g - nghost)%Z.
Definition jb := (je g + nghost)%Z.
Definition ka := (ks g - nghost)%Z.
Definition kb := (ke g + nghost)%Z.

(** lines 166-177 *)
Definition Uh0 := loop3 ka kb ja jb ia ib (U g) (z_Uh z).
Definition B1f0 := loop3 ka kb ja jb ia ib (B1i g) (z_B1f z).
Definition B2f0 := loop3 ka kb ja jb ia ib (B2i g) (z_B2f z).
Definition B3f0 := loop3 ka kb ja jb ia ib (B3i g) (z_B3f z).
(** first-order flux between two zones, lines 215-233 *)
Definition donor (wl wr : prim1 * R) (Bx : R) : cons1 :=
  s_flux sc (s_p2c sc (fst wl) (snd wl)) (s_p2c sc (fst wr) (snd wr)) (fst wl) (fst wr) Bx.
(** Step 1, lines 187-235 *)
Definition W1 : Z -> Z -> Z -> prim1 * R :=
  loop3 ka kb ja jb ia ib (fun k j i => (s_c2p sc (load1 (U g k j i)) (cB1 (U g k j i)), cB1 (U g k j i))) (z_W1 z).
Definition F1 := loop3 ka kb ja jb il ib (fun k j i => donor (W1 k j (i - 1)%Z) (W1 k j i) (B1i g k j i)) (z_F1 z).
(** Step 2, lines 245-293 *)
Definition W2 : Z -> Z -> Z -> prim1 * R :=
  loop3 ka kb ja jb ia ib (fun k j i => (s_c2p sc (load2 (U g k j i)) (cB2 (U g k j i)), cB2 (U g k j i))) (z_W2 z).
Definition F2 := loop3 ka kb jl jb ia ib (fun k j i => donor (W2 k (j - 1)%Z i) (W2 k j i) (B2i g k j i)) (z_F2 z).
(** Step 3, lines 303-351 *)
Definition W3 : Z -> Z -> Z -> prim1 * R :=
  loop3 ka kb ja jb ia ib (fun k j i => (s_c2p sc (load3 (U g k j i)) (cB3 (U g k j i)), cB3 (U g k j i))) (z_W3 z).
Definition F3 := loop3 kl kb ja jb ia ib (fun k j i => donor (W3 (k - 1)%Z j i) (W3 k j i) (B3i g k j i)) (z_F3 z).
(** Step 4, lines 361-434 *)
Definition emf1_cell (u : cons) : R := let w := s_cell sc u in pB2 w * pV3 w - pB3 w * pV2 w.
Definition emf2_cell (u : cons) : R := let w := s_cell sc u in pB3 w * pV1 w - pB1 w * pV3 w.
Definition emf3_cell (u : cons) : R := let w := s_cell sc u in pB1 w * pV2 w - pB2 w * pV1 w.
Definition cc1_0 := loop3 ka kb ja jb ia ib (fun k j i => emf1_cell (U g k j i)) (z_cc1 z).
Definition cc2_0 := loop3 ka kb ja jb ia ib (fun k j i => emf2_cell (U g k j i)) (z_cc2 z).
Definition cc3_0 := loop3 ka kb ja jb ia ib (fun k j i => emf3_cell (U g k j i)) (z_cc3 z).
Definition emf1_0 := loop3 kl (ku + 1) jl (ju + 1) il iu (emf1_corner F2 F3 cc1_0) (z_emf1 z).
Definition emf2_0 := loop3 kl (ku + 1) jl ju il (iu + 1) (emf2_corner F1 F3 cc2_0) (z_emf2 z).
Definition emf3_0 := loop3 kl ku jl (ju + 1) il (iu + 1) (emf3_corner F1 F2 cc3_0) (z_emf3 z).
Definition B1f :=
  if s_mhd sc then loop3 kl ku jl ju il (iu + 1) (fun k j i =>
    B1f0 k j i + (hq3 g * (emf2_0 (k + 1)%Z j i - emf2_0 k j i) - hq2 g * (emf3_0 k (j + 1)%Z i - emf3_0 k j i))) B1f0
  else B1f0.
Definition B2f :=
  if s_mhd sc then loop3 kl ku jl (ju + 1) il iu (fun k j i =>
    B2f0 k j i + (hq1 g * (emf3_0 k j (i + 1)%Z - emf3_0 k j i) - hq3 g * (emf1_0 (k + 1)%Z j i - emf1_0 k j i))) B2f0
  else B2f0.
Definition B3f :=
  if s_mhd sc then loop3 kl (ku + 1) jl ju il iu (fun k j i =>
    B3f0 k j i + (hq2 g * (emf1_0 k (j + 1)%Z i - emf1_0 k j i) - hq1 g * (emf2_0 k j (i + 1)%Z - emf2_0 k j i))) B3f0
  else B3f0.
Definition Uh1 := if s_mhd sc then loop3 kl ku jl ju il iu (fun k j i => centre B1f B2f B3f k j i (Uh0 k j i)) Uh0 else Uh0.
(** Step 5, lines 443-512 *)
Definition Uh2 := loop3 kl ku jl ju il iu (fun k j i => upd1 (hq1 g) false false (Uh1 k j i) (F1 k j (i + 1)%Z) (F1 k j i)) Uh1.
Definition Uh3 := loop3 kl ku jl ju il iu (fun k j i => upd2 (hq2 g) false false (Uh2 k j i) (F2 k (j + 1)%Z i) (F2 k j i)) Uh2.
Definition Uh4 := loop3 kl ku jl ju il iu (fun k j i => upd3 (hq3 g) false false (Uh3 k j i) (F3 (k + 1)%Z j i) (F3 k j i)) Uh3.
(** The gravity sources of steps 6a, 6b and 12a, e.g. lines 638-657: m is what is
    subtracted from M1; a2, a3 the ratios dt/dx; d the density; c the potential at the
    centre and r1 ... l3 that at the faces. *)
Definition gsrc (a1 a2 a3 m d c r1 l1 r2 l2 r3 l3 : R) (A1 A2 A3 : Z -> Z -> Z -> cons1) (k j i : Z) (u : cons) : cons :=
  let u := set_M1 u (cM1 u - m) in
  let u := set_E u (cE u - work a1 c r1 l1 (A1 k j (i + 1)%Z) (A1 k j i)) in
  let u := set_M2 u (cM2 u - a2 * (r2 - l2) * d) in
  let u := set_E u (cE u - work a2 c r2 l2 (A2 k (j + 1)%Z i) (A2 k j i)) in
  let u := set_M3 u (cM3 u - a3 * (r3 - l3) * d) in
  set_E u (cE u - work a3 c r3 l3 (A3 (k + 1)%Z j i) (A3 k j i)).
(** Step 6a, lines 621-662 *)
Definition Uh5 :=
  match s_grav sc with
  | None => Uh4
  | Some phi => loop3 kl ku jl ju il iu (fun k j i =>
      let p := pot g phi k j i in let d := cd (U g k j i) in
      gsrc (hq1 g) (hq2 g) (hq3 g) (hdt g * d * ((p half 0 0 - p (- half) 0 0) * dx1i g)) d
        (p 0 0 0) (p half 0 0) (p (- half) 0 0) (p 0 half 0) (p 0 (- half) 0) (p 0 0 half) (p 0 0 (- half)) F1 F2 F3 k j i (Uh4 k j i)) Uh4
  end.
(** Step 6b, lines 670-700 *)
Definition Uh :=
  match s_selfg sc with
  | None => Uh5
  | Some _ => loop3 kl ku jl ju il iu (fun k j i =>
      let d := cd (U g k j i) in
      gsrc (hq1 g) (hq2 g) (hq3 g) (hq1 g * (ph1r g k j i - ph1l g k j i) * d) d
        (Phi g k j i) (ph1r g k j i) (ph1l g k j i) (ph2r g k j i) (ph2l g k j i) (ph3r g k j i) (ph3l g k j i) F1 F2 F3 k j i (Uh5 k j i)) Uh5
  end.
(** Step 7, lines 814-849 *)
Definition Wh1 : Z -> Z -> Z -> prim1 * R :=
  loop3 (ks g - 1) (ke g + 1) (js g - 1) (je g + 1) il iu (fun k j i => (s_c2p sc (load1 (Uh k j i)) (cB1 (Uh k j i)), cB1 (Uh k j i))) (z_Wh1 z).
Definition lr1 := loop3 (ks g - 1) (ke g + 1) (js g - 1) (je g + 1) (is g) (ie g + 1) (fun k j i => s_lr sc (dt g) (dx1 g) (Wh1 k j) i) (z_lr1 z).
(** Step 8, lines 858-896 *)
Definition Wh2 : Z -> Z -> Z -> prim1 * R :=
  loop3 (ks g - 1) (ke g + 1) jl ju (is g - 1) (ie g + 1) (fun k j i => (s_c2p sc (load2 (Uh k j i)) (cB2 (Uh k j i)), cB2 (Uh k j i))) (z_Wh2 z).
Definition lr2 := loop3 (ks g - 1) (ke g + 1) (js g) (je g + 1) (is g - 1) (ie g + 1) (fun k j i => s_lr sc (dt g) (dx2 g) (fun j => Wh2 k j i) j) (z_lr2 z).
(** Step 9, lines 905-940 *)
Definition Wh3 : Z -> Z -> Z -> prim1 * R :=
  loop3 kl ku (js g - 1) (je g + 1) (is g - 1) (ie g + 1) (fun k j i => (s_c2p sc (load3 (Uh k j i)) (cB3 (Uh k j i)), cB3 (Uh k j i))) (z_Wh3 z).
Definition lr3 := loop3 (ks g) (ke g + 1) (js g - 1) (je g + 1) (is g - 1) (ie g + 1) (fun k j i => s_lr sc (dt g) (dx3 g) (fun k => Wh3 k j i) k) (z_lr3 z).
(** Step 10, lines 1000-1144 *)
Definition fluxw (w : prim1 * prim1) (Bx : R) : cons1 :=
  s_flux sc (s_p2c sc (fst w) Bx) (s_p2c sc (snd w) Bx) (fst w) (snd w) Bx.
Definition G1 := loop3 (ks g - 1) (ke g + 1) (js g - 1) (je g + 1) (is g) (ie g + 1) (fun k j i => fluxw (lr1 k j i) (B1f k j i)) F1.
Definition G2 := loop3 (ks g - 1) (ke g + 1) (js g) (je g + 1) (is g - 1) (ie g + 1) (fun k j i => fluxw (lr2 k j i) (B2f k j i)) F2.
Definition G3 := loop3 (ks g) (ke g + 1) (js g - 1) (je g + 1) (is g - 1) (ie g + 1) (fun k j i => fluxw (lr3 k j i) (B3f k j i)) F3.
(** Step 11, lines 1160-1326 *)
Definition cc1_h := loop3 (ks g - 1) (ke g + 1) (js g - 1) (je g + 1) (is g - 1) (ie g + 1) (fun k j i => emf1_cell (Uh k j i)) cc1_0.
Definition cc2_h := loop3 (ks g - 1) (ke g + 1) (js g - 1) (je g + 1) (is g - 1) (ie g + 1) (fun k j i => emf2_cell (Uh k j i)) cc2_0.
Definition cc3_h := loop3 (ks g - 1) (ke g + 1) (js g - 1) (je g + 1) (is g - 1) (ie g + 1) (fun k j i => emf3_cell (Uh k j i)) cc3_0.
Definition emf1 := loop3 kl (ku + 1) jl (ju + 1) il iu (emf1_corner G2 G3 cc1_h) emf1_0.
Definition emf2 := loop3 kl (ku + 1) jl ju il (iu + 1) (emf2_corner G1 G3 cc2_h) emf2_0.
Definition emf3 := loop3 kl ku jl (ju + 1) il (iu + 1) (emf3_corner G1 G2 cc3_h) emf3_0.
Definition B1i' :=
  if s_mhd sc then loop3 (ks g) (ke g) (js g) (je g) (is g) (ie g + 1) (fun k j i =>
    B1i g k j i + (q3 g * (emf2 (k + 1)%Z j i - emf2 k j i) - q2 g * (emf3 k (j + 1)%Z i - emf3 k j i))) (B1i g) else B1i g.
Definition B2i' :=
  if s_mhd sc then loop3 (ks g) (ke g) (js g) (je g + 1) (is g) (ie g) (fun k j i =>
    B2i g k j i + (q1 g * (emf3 k j (i + 1)%Z - emf3 k j i) - q3 g * (emf1 (k + 1)%Z j i - emf1 k j i))) (B2i g) else B2i g.
Definition B3i' :=
  if s_mhd sc then loop3 (ks g) (ke g + 1) (js g) (je g) (is g) (ie g) (fun k j i =>
    B3i g k j i + (q2 g * (emf1 k (j + 1)%Z i - emf1 k j i) - q1 g * (emf2 k j (i + 1)%Z - emf2 k j i))) (B3i g) else B3i g.
Definition U11 :=
  if s_mhd sc then loop3 (ks g) (ke g) (js g) (je g) (is g) (ie g) (fun k j i => centre B1i' B2i' B3i' k j i (U g k j i)) (U g) else U g.
(** Step 12a, lines 1422-1463 *)
Definition U12a :=
  match s_grav sc with
  | None => U11
  | Some phi => loop3 (ks g) (ke g) (js g) (je g) (is g) (ie g) (fun k j i =>
      let p := pot g phi k j i in let d := cd (Uh k j i) in
      gsrc (q1 g) (q2 g) (q3 g) (dt g * d * ((p half 0 0 - p (- half) 0 0) * dx1i g)) d
        (p 0 0 0) (p half 0 0) (p (- half) 0 0) (p 0 half 0) (p 0 (- half) 0) (p 0 0 half) (p 0 0 (- half)) G1 G2 G3 k j i (U11 k j i)) U11
  end.
(** Step 12b, lines 1474-1605 *)
Definition U12b1 :=
  match s_selfg sc with
  | None => U12a
  | Some (a, b) => loop3 (ks g) (ke g) (js g) (je g) (is g) (ie g) (sg1 g a b G1 U12a) U12a
  end.
Definition U12b2 :=
  match s_selfg sc with
  | None => U12b1
  | Some (a, b) => loop3 (ks g) (ke g) (js g) (je g) (is g) (ie g) (sg2 g a b G2 U12b1) U12b1
  end.
Definition U12b :=
  match s_selfg sc with
  | None => U12b2
  | Some (a, b) => loop3 (ks g) (ke g) (js g) (je g) (is g) (ie g) (sg3 g a b G3 U12b2) U12b2
  end.
(** lines 1609-1617 *)
Definition mass1 :=
  match s_selfg sc with None => x1Mass g
  | Some _ => loop3 (ks g) (ke g + 1) (js g) (je g + 1) (is g) (ie g + 1) (fun k j i => ud (G1 k j i)) (x1Mass g) end.
Definition mass2 :=
  match s_selfg sc with None => x2Mass g
  | Some _ => loop3 (ks g) (ke g + 1) (js g) (je g + 1) (is g) (ie g + 1) (fun k j i => ud (G2 k j i)) (x2Mass g) end.
Definition mass3 :=
  match s_selfg sc with None => x3Mass g
  | Some _ => loop3 (ks g) (ke g + 1) (js g) (je g + 1) (is g) (ie g + 1) (fun k j i => ud (G3 k j i)) (x3Mass g) end.
(** Step 13, lines 1667-1736 *)
Definition U13a := loop3 (ks g) (ke g) (js g) (je g) (is g) (ie g) (fun k j i =>
  upd1 (q1 g) false false (U12b k j i) (G1 k j (i + 1)%Z) (G1 k j i)) U12b.
Definition U13b := loop3 (ks g) (ke g) (js g) (je g) (is g) (ie g) (fun k j i =>
  upd2 (q2 g) false false (U13a k j i) (G2 k (j + 1)%Z i) (G2 k j i)) U13a.
Definition U13 := loop3 (ks g) (ke g) (js g) (je g) (is g) (ie g) (fun k j i =>
  upd3 (q3 g) false false (U13b k j i) (G3 (k + 1)%Z j i) (G3 k j i)) U13b.
Definition integrate_3d_vl : grid3 :=
  Grid3 (is g) (ie g) (js g) (je g) (ks g) (ke g) (dt g) (dx1 g) (dx2 g) (dx3 g) (MinX1 g) (MinX2 g) (MinX3 g)
    U13 B1i' B2i' B3i' (Phi g) mass1 mass2 mass3.
End Vl3.
