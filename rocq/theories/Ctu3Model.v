(** * src/integrators/integrate_3d_ctu.c: integrate_3d_ctu(), integrate_emf1/2/3_corner()

    Modelled: Cartesian, with or without MHD, scalars, a static potential,
    self-gravity and cooling.  With an isothermal equation of state there is no
    energy; here it is carried along but nothing else depends on it.  Not modelled:
    particles, shearing box, cylindrical geometry, rotating frame, H-correction, the
    copies of fluxes kept for mesh refinement. *)
From Coq Require Import Reals ZArith List Bool.
From Verif Require Import GasModel IntegModel.
Open Scope R_scope.

(** The part of GridS used in 3D (src/athena.h). *)
Record grid3 := Grid3 {
  is : Z; ie : Z; js : Z; je : Z; ks : Z; ke : Z;
  dt : R; dx1 : R; dx2 : R; dx3 : R; MinX1 : R; MinX2 : R; MinX3 : R;
  U : Z -> Z -> Z -> cons; B1i : Z -> Z -> Z -> R; B2i : Z -> Z -> Z -> R; B3i : Z -> Z -> Z -> R;
  Phi : Z -> Z -> Z -> R; x1Mass : Z -> Z -> Z -> R; x2Mass : Z -> Z -> Z -> R; x3Mass : Z -> Z -> Z -> R }.

(** The static work arrays as left by earlier calls; the one-dimensional W and Wl/Wr
    are indexed by the line that is being swept as well.  (The last four are used by
    integrate_3d_vl.c: Uhalf, and W1d on entry to steps 7, 8 and 9.) *)
Record scratch3 := Scratch3 {
  z_W1 : Z -> Z -> Z -> prim1 * R; z_W2 : Z -> Z -> Z -> prim1 * R; z_W3 : Z -> Z -> Z -> prim1 * R;
  z_lr1 : Z -> Z -> Z -> prim1 * prim1; z_lr2 : Z -> Z -> Z -> prim1 * prim1; z_lr3 : Z -> Z -> Z -> prim1 * prim1;
  z_Ulr1 : Z -> Z -> Z -> cons1 * cons1; z_Ulr2 : Z -> Z -> Z -> cons1 * cons1; z_Ulr3 : Z -> Z -> Z -> cons1 * cons1;
  z_F1 : Z -> Z -> Z -> cons1; z_F2 : Z -> Z -> Z -> cons1; z_F3 : Z -> Z -> Z -> cons1;
  z_B1f : Z -> Z -> Z -> R; z_B2f : Z -> Z -> Z -> R; z_B3f : Z -> Z -> Z -> R;
  z_cc1 : Z -> Z -> Z -> R; z_cc2 : Z -> Z -> Z -> R; z_cc3 : Z -> Z -> Z -> R;
  z_emf1 : Z -> Z -> Z -> R; z_emf2 : Z -> Z -> Z -> R; z_emf3 : Z -> Z -> Z -> R;
  z_dh : Z -> Z -> Z -> R; z_ph : Z -> Z -> Z -> R; z_Uh : Z -> Z -> Z -> cons;
  z_Wh1 : Z -> Z -> Z -> prim1 * R; z_Wh2 : Z -> Z -> Z -> prim1 * R; z_Wh3 : Z -> Z -> Z -> prim1 * R }.

(** src/cc_pos.c:39-49 *)
Definition x1c (g : grid3) (i : Z) : R := MinX1 g + (IZR (i - is g) + half) * dx1 g.
Definition x2c (g : grid3) (j : Z) : R := MinX2 g + (IZR (j - js g) + half) * dx2 g.
Definition x3c (g : grid3) (k : Z) : R := MinX3 g + (IZR (k - ks g) + half) * dx3 g.
(** (StaticGravPot)((x1+a*dx1),(x2+b*dx2),(x3+c*dx3)) with x1, x2, x3 from cc_pos(i,j,k):
    the calls in the code have a, b, c among 0, 0.5, -0.5 and -1. *)
Definition pot (g : grid3) (phi : R -> R -> R -> R) (k j i : Z) (a b c : R) : R :=
  phi (x1c g i + a * dx1 g) (x2c g j + b * dx2 g) (x3c g k + c * dx3 g).

(** The upwinding in the integrate_emf*_corner() functions: a if m > 0, b if m < 0, else the mean. *)
Definition pick (m a b : R) : R := if Rlt_dec 0 m then a else if Rlt_dec m 0 then b else half * (a + b).
(** integrate_emf1_corner(), lines 3805-3851 (in integrate_3d_vl.c, 2298-2345): the
    electromotive force along x1 at the edge (k-1/2, j-1/2, i) from F2 = x2Flux, F3 = x3Flux. *)
Definition emf1_corner (F2 F3 : Z -> Z -> Z -> cons1) (cc : Z -> Z -> Z -> R) (k j i : Z) : R :=
  let k1 := (k - 1)%Z in let j1 := (j - 1)%Z in
  let de1_l3 := pick (ud (F2 k1 j i)) (ubz (F3 k j1 i) - cc k1 j1 i) (ubz (F3 k j i) - cc k1 j i) in
  let de1_r3 := pick (ud (F2 k j i)) (ubz (F3 k j1 i) - cc k j1 i) (ubz (F3 k j i) - cc k j i) in
  let de1_l2 := pick (ud (F3 k j1 i)) (- uby (F2 k1 j i) - cc k1 j1 i) (- uby (F2 k j i) - cc k j1 i) in
  let de1_r2 := pick (ud (F3 k j i)) (- uby (F2 k1 j i) - cc k1 j i) (- uby (F2 k j i) - cc k j i) in
  / 4 * (ubz (F3 k j i) + ubz (F3 k j1 i) - uby (F2 k j i) - uby (F2 k1 j i) + de1_l2 + de1_r2 + de1_l3 + de1_r3).
(** integrate_emf2_corner(), lines 3874-3920 (integrate_3d_vl.c, 2371-2418). *)
Definition emf2_corner (F1 F3 : Z -> Z -> Z -> cons1) (cc : Z -> Z -> Z -> R) (k j i : Z) : R :=
  let k1 := (k - 1)%Z in let i1 := (i - 1)%Z in
  let de2_l3 := pick (ud (F1 k1 j i)) (- uby (F3 k j i1) - cc k1 j i1) (- uby (F3 k j i) - cc k1 j i) in
  let de2_r3 := pick (ud (F1 k j i)) (- uby (F3 k j i1) - cc k j i1) (- uby (F3 k j i) - cc k j i) in
  let de2_l1 := pick (ud (F3 k j i1)) (ubz (F1 k1 j i) - cc k1 j i1) (ubz (F1 k j i) - cc k j i1) in
  let de2_r1 := pick (ud (F3 k j i)) (ubz (F1 k1 j i) - cc k1 j i) (ubz (F1 k j i) - cc k j i) in
  / 4 * (ubz (F1 k j i) + ubz (F1 k1 j i) - uby (F3 k j i) - uby (F3 k j i1) + de2_l1 + de2_r1 + de2_l3 + de2_r3).
(** integrate_emf3_corner(), lines 3944-3993 (integrate_3d_vl.c, 2444-2495). *)
Definition emf3_corner (F1 F2 : Z -> Z -> Z -> cons1) (cc : Z -> Z -> Z -> R) (k j i : Z) : R :=
  let j1 := (j - 1)%Z in let i1 := (i - 1)%Z in
  let de3_l2 := pick (ud (F1 k j1 i)) (ubz (F2 k j i1) - cc k j1 i1) (ubz (F2 k j i) - cc k j1 i) in
  let de3_r2 := pick (ud (F1 k j i)) (ubz (F2 k j i1) - cc k j i1) (ubz (F2 k j i) - cc k j i) in
  let de3_l1 := pick (ud (F2 k j i1)) (- uby (F1 k j1 i) - cc k j1 i1) (- uby (F1 k j i) - cc k j i1) in
  let de3_r1 := pick (ud (F2 k j i)) (- uby (F1 k j1 i) - cc k j1 i) (- uby (F1 k j i) - cc k j i) in
  / 4 * (ubz (F2 k j i1) + ubz (F2 k j i) - uby (F1 k j1 i) - uby (F1 k j i) + de3_l1 + de3_r1 + de3_l2 + de3_r2).

(** lines 284-297 (l2 from a = db1, b = db2; l3 from db3), 625-638, 824-837 *)
Definition limit_db (a b : R) : R :=
  if Rle_dec 0 a
  then let l := if Rlt_dec a (- b) then a else - b in if Rlt_dec 0 l then l else 0
  else let l := if Rlt_dec (- b) a then a else - b in if Rlt_dec l 0 then l else 0.
(** lines 1151-1158: mdb2 = min_mod(-db1,db2) with a = db1, b = db2; and 1160-1167,
    1191-1207, 1458-1474, 1494-1510, 1888-1904, 1924-1940 *)
Definition min_mod (a b : R) : R :=
  if Rlt_dec 0 a then (if Rlt_dec b 0 then (if Rlt_dec (- a) b then b else - a) else 0)
  else if Rlt_dec a 0 then (if Rlt_dec 0 b then (if Rlt_dec b (- a) then b else - a) else 0)
  else 0.

(** Steps 5a, 6b, 7a, lines 1042-1059, 1397-1408, 1786-1797: "(x,y,z) on RHS -> (z,x,y) on
    LHS"; with MHD b is added to Bz. *)
Definition corr_zxy (mhd : bool) (a b : R) (u r l : cons1) : cons1 :=
  Cons1 (ud u - a * (ud r - ud l)) (umx u - a * (umz r - umz l)) (umy u - a * (umx r - umx l))
        (umz u - a * (umy r - umy l)) (ue u - a * (ue r - ue l)) (uby u)
        (if mhd then ubz u + b else ubz u) (sub_s a (us u) (us r) (us l)).
(** Steps 5b, 6a, 7b, lines 1090-1101, 1356-1367, 1827-1838: "(x,y,z) on RHS -> (y,z,x) on
    LHS"; with MHD b is subtracted from By. *)
Definition corr_yzx (mhd : bool) (a b : R) (u r l : cons1) : cons1 :=
  Cons1 (ud u - a * (ud r - ud l)) (umx u - a * (umy r - umy l)) (umy u - a * (umz r - umz l))
        (umz u - a * (umx r - umx l)) (ue u - a * (ue r - ue l))
        (if mhd then uby u - b else uby u) (ubz u) (sub_s a (us u) (us r) (us l)).
(** Steps 5c, 6c, 7c, lines 1169-1175, 1476-1482, 1906-1912: the MHD source terms, with the
    cell's field (bx, by, bz) and transverse velocity in the order of the sweep. *)
Definition mhd_src (h db bx by_ bz vy vz my mz : R) (s : cons1) : cons1 :=
  Cons1 (ud s) (umx s + h * bx * db) (umy s + h * by_ * db) (umz s + h * bz * db)
        (ue s + h * (by_ * vy * (- my) + bz * vz * (- mz)))
        (uby s + h * vy * (- my)) (ubz s + h * vz * (- mz)) (us s).

Definition both {A B} (f : A -> B) (p : A * A) : B * B := (f (fst p), f (snd p)).
(** The energy source from the gradient of a potential with values c at the centre and
    r, l at the faces, with mass fluxes fr, fl there, e.g. lines 1247-1248. *)
Definition work (h c r l : R) (fr fl : cons1) : R := h * (ud fl * (c - l) + ud fr * (r - c)).

Section Ctu3.
Variables (sc : scheme) (z : scratch3) (g : grid3).
Definition il := (is g - 2)%Z.                                         (* lines 184-189 *)
Definition iu := (ie g + 2)%Z.
Definition jl := (js g - 2)%Z.
Definition ju := (je g + 2)%Z.
Definition kl := (ks g - 2)%Z.
Definition ku := (ke g + 2)%Z.
Definition q1 := dt g / dx1 g.                                         (* dtodx1 *)
Definition q2 := dt g / dx2 g.
Definition q3 := dt g / dx3 g.
Definition hq1 := half * q1.                                           (* q1 of the C code *)
Definition hq2 := half * q2.
Definition hq3 := half * q3.
Definition hdt := half * dt g.
Definition dx1i := 1 / dx1 g.
Definition dx2i := 1 / dx2 g.
Definition dx3i := 1 / dx3 g.
(** The differences of the normal fields over zone (k,j,i), e.g. lines 310-312. *)
Definition db1 (k j i : Z) : R := (B1i g k j (i + 1)%Z - B1i g k j i) * dx1i.
Definition db2 (k j i : Z) : R := (B2i g k (j + 1)%Z i - B2i g k j i) * dx2i.
Definition db3 (k j i : Z) : R := (B3i g (k + 1)%Z j i - B3i g k j i) * dx3i.
(** lines 299-303, 640-644, 839-843: the MHD sources of zone (k,j,i) on an interface state *)
Definition wsrc1 (k j i : Z) (w : prim1) : prim1 :=
  let u := U g k j i in
  let w := set_wby w (wby w + hdt * (cM2 u / cd u * limit_db (db1 k j i) (db2 k j i))) in
  set_wbz w (wbz w + hdt * (cM3 u / cd u * limit_db (db1 k j i) (db3 k j i))).
Definition wsrc2 (k j i : Z) (w : prim1) : prim1 :=
  let u := U g k j i in
  let w := set_wby w (wby w + hdt * (cM3 u / cd u * limit_db (db2 k j i) (db3 k j i))) in
  set_wbz w (wbz w + hdt * (cM1 u / cd u * limit_db (db2 k j i) (db1 k j i))).
Definition wsrc3 (k j i : Z) (w : prim1) : prim1 :=
  let u := U g k j i in
  let w := set_wby w (wby w + hdt * (cM1 u / cd u * limit_db (db3 k j i) (db1 k j i))) in
  set_wbz w (wbz w + hdt * (cM2 u / cd u * limit_db (db3 k j i) (db2 k j i))).

(** *** Step 1: x1-sweep, lines 215-559 *)
Definition W1 : Z -> Z -> Z -> prim1 * R :=
  loop3 kl ku jl ju (is g - nghost) (ie g + nghost)
    (fun k j i => (s_c2p sc (load1 (U g k j i)) (cB1 (U g k j i)), cB1 (U g k j i))) (z_W1 z).
Definition B1f0 := loop3 kl ku jl ju (is g - nghost) (ie g + nghost) (B1i g) (z_B1f z).
(** lines 261-271 *)
Definition lr1a := loop3 kl ku jl ju (il + 1) iu (fun k j i =>
  both (floor_w (s_dmin sc)) (s_lr sc (dt g) (dx1 g) (W1 k j) i)) (z_lr1 z).
(** lines 274-334 *)
Definition lr1b :=
  if s_mhd sc then loop3 kl ku jl ju (il + 1) iu (fun k j i =>
    (wsrc1 k j (i - 1) (fst (lr1a k j i)), wsrc1 k j i (snd (lr1a k j i)))) lr1a
  else lr1a.
(** lines 341-374 *)
Definition lr1c :=
  match s_grav sc with
  | None => lr1b
  | Some phi => loop3 kl ku jl ju (il + 1) iu (fun k j i =>
      let phicr := pot g phi k j i 0 0 0 in
      let phicl := pot g phi k j i (-1) 0 0 in
      let phifc := pot g phi k j i (- half) 0 0 in
      let gl := 2 * (phifc - phicl) * dx1i in
      let gr := 2 * (phicr - phifc) * dx1i in
      (set_wvx (fst (lr1b k j i)) (wvx (fst (lr1b k j i)) - hdt * gl),
       set_wvx (snd (lr1b k j i)) (wvx (snd (lr1b k j i)) - hdt * gr))) lr1b
  end.
(** lines 381-384 *)
Definition lr1d :=
  match s_selfg sc with
  | None => lr1c
  | Some _ => loop3 kl ku jl ju (il + 1) iu (fun k j i =>
      both (fun w => set_wvx w (wvx w - hq1 * (Phi g k j i - Phi g k j (i - 1)%Z))) (lr1c k j i)) lr1c
  end.
(** lines 392-400 *)
Definition lr1 := loop3 kl ku jl ju (il + 1) iu (fun k j i => both (cool_w sc (dt g)) (lr1d k j i)) lr1d.
(** lines 548-557 *)
Definition Ulr1 := loop3 kl ku jl ju (il + 1) iu (fun k j i => both (fun w => s_p2c sc w (B1i g k j i)) (lr1 k j i)) (z_Ulr1 z).
Definition F1 := loop3 kl ku jl ju (il + 1) iu (fun k j i =>
  s_flux sc (fst (Ulr1 k j i)) (snd (Ulr1 k j i)) (fst (lr1 k j i)) (snd (lr1 k j i)) (B1f0 k j i)) (z_F1 z).

(** *** Step 2: x2-sweep, lines 568-762 *)
Definition W2 : Z -> Z -> Z -> prim1 * R :=
  loop3 kl ku (js g - nghost) (je g + nghost) il iu
    (fun k j i => (s_c2p sc (load2 (U g k j i)) (cB2 (U g k j i)), cB2 (U g k j i))) (z_W2 z).
Definition B2f0 := loop3 kl ku (js g - nghost) (je g + nghost) il iu (B2i g) (z_B2f z).
Definition lr2a := loop3 kl ku (jl + 1) ju il iu (fun k j i =>
  both (floor_w (s_dmin sc)) (s_lr sc (dt g) (dx2 g) (fun j => W2 k j i) j)) (z_lr2 z).
(** lines 619-671 *)
Definition lr2b :=
  if s_mhd sc then loop3 kl ku (jl + 1) ju il iu (fun k j i =>
    (wsrc2 k (j - 1) i (fst (lr2a k j i)), wsrc2 k j i (snd (lr2a k j i)))) lr2a
  else lr2a.
(** lines 678-693 *)
Definition lr2c :=
  match s_grav sc with
  | None => lr2b
  | Some phi => loop3 kl ku (jl + 1) ju il iu (fun k j i =>
      let phicr := pot g phi k j i 0 0 0 in
      let phicl := pot g phi k j i 0 (-1) 0 in
      let phifc := pot g phi k j i 0 (- half) 0 in
      (set_wvx (fst (lr2b k j i)) (wvx (fst (lr2b k j i)) - q2 * (phifc - phicl)),
       set_wvx (snd (lr2b k j i)) (wvx (snd (lr2b k j i)) - q2 * (phicr - phifc)))) lr2b
  end.
(** lines 700-703 *)
Definition lr2d :=
  match s_selfg sc with
  | None => lr2c
  | Some _ => loop3 kl ku (jl + 1) ju il iu (fun k j i =>
      both (fun w => set_wvx w (wvx w - hq2 * (Phi g k j i - Phi g k (j - 1)%Z i))) (lr2c k j i)) lr2c
  end.
(** lines 711-719 *)
Definition lr2 := loop3 kl ku (jl + 1) ju il iu (fun k j i => both (cool_w sc (dt g)) (lr2d k j i)) lr2d.
(** lines 751-760 *)
Definition Ulr2 := loop3 kl ku (jl + 1) ju il iu (fun k j i => both (fun w => s_p2c sc w (B2i g k j i)) (lr2 k j i)) (z_Ulr2 z).
Definition F2 := loop3 kl ku (jl + 1) ju il iu (fun k j i =>
  s_flux sc (fst (Ulr2 k j i)) (snd (Ulr2 k j i)) (fst (lr2 k j i)) (snd (lr2 k j i)) (B2f0 k j i)) (z_F2 z).

(** *** Step 3: x3-sweep, lines 771-955 *)
Definition W3 : Z -> Z -> Z -> prim1 * R :=
  loop3 (ks g - nghost) (ke g + nghost) jl ju il iu
    (fun k j i => (s_c2p sc (load3 (U g k j i)) (cB3 (U g k j i)), cB3 (U g k j i))) (z_W3 z).
Definition B3f0 := loop3 (ks g - nghost) (ke g + nghost) jl ju il iu (B3i g) (z_B3f z).
Definition lr3a := loop3 (kl + 1) ku jl ju il iu (fun k j i =>
  both (floor_w (s_dmin sc)) (s_lr sc (dt g) (dx3 g) (fun k => W3 k j i) k)) (z_lr3 z).
(** lines 818-870 *)
Definition lr3b :=
  if s_mhd sc then loop3 (kl + 1) ku jl ju il iu (fun k j i =>
    (wsrc3 (k - 1) j i (fst (lr3a k j i)), wsrc3 k j i (snd (lr3a k j i)))) lr3a
  else lr3a.
(** lines 877-887 *)
Definition lr3c :=
  match s_grav sc with
  | None => lr3b
  | Some phi => loop3 (kl + 1) ku jl ju il iu (fun k j i =>
      let phicr := pot g phi k j i 0 0 0 in
      let phicl := pot g phi k j i 0 0 (-1) in
      let phifc := pot g phi k j i 0 0 (- half) in
      (set_wvx (fst (lr3b k j i)) (wvx (fst (lr3b k j i)) - q3 * (phifc - phicl)),
       set_wvx (snd (lr3b k j i)) (wvx (snd (lr3b k j i)) - q3 * (phicr - phifc)))) lr3b
  end.
(** lines 894-897 *)
Definition lr3d :=
  match s_selfg sc with
  | None => lr3c
  | Some _ => loop3 (kl + 1) ku jl ju il iu (fun k j i =>
      both (fun w => set_wvx w (wvx w - hq3 * (Phi g k j i - Phi g (k - 1)%Z j i))) (lr3c k j i)) lr3c
  end.
(** lines 905-913 *)
Definition lr3 := loop3 (kl + 1) ku jl ju il iu (fun k j i => both (cool_w sc (dt g)) (lr3d k j i)) lr3d.
(** lines 944-953 *)
Definition Ulr3 := loop3 (kl + 1) ku jl ju il iu (fun k j i => both (fun w => s_p2c sc w (B3i g k j i)) (lr3 k j i)) (z_Ulr3 z).
Definition F3 := loop3 (kl + 1) ku jl ju il iu (fun k j i =>
  s_flux sc (fst (Ulr3 k j i)) (snd (Ulr3 k j i)) (fst (lr3 k j i)) (snd (lr3 k j i)) (B3f0 k j i)) (z_F3 z).

(** *** Step 4: half step of the face-centred fields, lines 966-1026 *)
Definition cc1_0 := loop3 kl ku jl ju il iu (fun k j i => let u := U g k j i in (cB2 u * cM3 u - cB3 u * cM2 u) / cd u) (z_cc1 z).
Definition cc2_0 := loop3 kl ku jl ju il iu (fun k j i => let u := U g k j i in (cB3 u * cM1 u - cB1 u * cM3 u) / cd u) (z_cc2 z).
Definition cc3_0 := loop3 kl ku jl ju il iu (fun k j i => let u := U g k j i in (cB1 u * cM2 u - cB2 u * cM1 u) / cd u) (z_cc3 z).
Definition emf1_0 := loop3 (ks g - 1) (ke g + 2) (js g - 1) (je g + 2) (is g - 2) (ie g + 2) (emf1_corner F2 F3 cc1_0) (z_emf1 z).
Definition emf2_0 := loop3 (ks g - 1) (ke g + 2) (js g - 2) (je g + 2) (is g - 1) (ie g + 2) (emf2_corner F1 F3 cc2_0) (z_emf2 z).
Definition emf3_0 := loop3 (ks g - 2) (ke g + 2) (js g - 1) (je g + 2) (is g - 1) (ie g + 2) (emf3_corner F1 F2 cc3_0) (z_emf3 z).
(** lines 995 and 1009: together i runs to iu; 997 and 1013: j to ju; 1003 and 1023: k to ku *)
Definition B1f :=
  if s_mhd sc then loop3 (kl + 1) (ku - 1) (jl + 1) (ju - 1) (il + 1) iu (fun k j i =>
    B1f0 k j i + (hq3 * (emf2_0 (k + 1)%Z j i - emf2_0 k j i) - hq2 * (emf3_0 k (j + 1)%Z i - emf3_0 k j i))) B1f0
  else B1f0.
Definition B2f :=
  if s_mhd sc then loop3 (kl + 1) (ku - 1) (jl + 1) ju (il + 1) (iu - 1) (fun k j i =>
    B2f0 k j i + (hq1 * (emf3_0 k j (i + 1)%Z - emf3_0 k j i) - hq3 * (emf1_0 (k + 1)%Z j i - emf1_0 k j i))) B2f0
  else B2f0.
Definition B3f :=
  if s_mhd sc then loop3 (kl + 1) ku (jl + 1) (ju - 1) (il + 1) (iu - 1) (fun k j i =>
    B3f0 k j i + (hq2 * (emf1_0 k (j + 1)%Z i - emf1_0 k j i) - hq1 * (emf2_0 k j (i + 1)%Z - emf2_0 k j i))) B3f0
  else B3f0.

(** *** Step 5: x1-interface states, lines 1036-1339.  What zone (k,j,i) does to a state
    of one of its x1-faces: *)
(** 5a and 5b *)
Definition tr1 (k j i : Z) (s : cons1) : cons1 :=
  let m := s_mhd sc in let e := emf1_0 in
  let s := corr_zxy m hq2 (hq2 * half * ((e k (j + 1)%Z i - e k j i) + (e (k + 1)%Z (j + 1)%Z i - e (k + 1)%Z j i)))
             s (F2 k (j + 1)%Z i) (F2 k j i) in
  corr_yzx m hq3 (hq3 * half * ((e (k + 1)%Z j i - e k j i) + (e (k + 1)%Z (j + 1)%Z i - e k (j + 1)%Z i)))
             s (F3 (k + 1)%Z j i) (F3 k j i).
(** 5c *)
Definition ms1 (k j i : Z) : cons1 -> cons1 :=
  let u := U g k j i in let d := db1 k j i in
  mhd_src hdt d (cB1 u) (cB2 u) (cB3 u) (cM2 u / cd u) (cM3 u / cd u) (min_mod d (db3 k j i)) (min_mod d (db2 k j i)).
(** 5d, lines 1242-1257: potential c at the centre, r2, l2 and r3, l3 at the x2- and x3-faces *)
Definition gs1 (k j i : Z) (c r2 l2 r3 l3 : R) (s : cons1) : cons1 :=
  let s := set_umy s (umy s - hq2 * (r2 - l2) * cd (U g k j i)) in
  let s := set_ue s (ue s - work hq2 c r2 l2 (F2 k (j + 1)%Z i) (F2 k j i)) in
  let s := set_umz s (umz s - hq3 * (r3 - l3) * cd (U g k j i)) in
  set_ue s (ue s - work hq3 c r3 l3 (F3 (k + 1)%Z j i) (F3 k j i)).
Definition Ulr1a := loop3 (kl + 1) (ku - 1) (jl + 1) (ju - 1) (il + 1) iu (fun k j i =>
  (tr1 k j (i - 1) (fst (Ulr1 k j i)), tr1 k j i (snd (Ulr1 k j i)))) Ulr1.
Definition Ulr1b :=
  if s_mhd sc then loop3 (kl + 1) (ku - 1) (jl + 1) (ju - 1) (il + 1) iu (fun k j i =>
    (ms1 k j (i - 1) (fst (Ulr1a k j i)), ms1 k j i (snd (Ulr1a k j i)))) Ulr1a
  else Ulr1a.
(** lines 1229-1287 *)
Definition Ulr1c :=
  match s_grav sc with
  | None => Ulr1b
  | Some phi => loop3 (kl + 1) (ku - 1) (jl + 1) (ju - 1) (il + 1) iu (fun k j i =>
      let p := pot g phi k j i in
      (gs1 k j (i - 1) (p (-1) 0 0) (p (-1) half 0) (p (-1) (- half) 0) (p (-1) 0 half) (p (-1) 0 (- half)) (fst (Ulr1b k j i)),
       gs1 k j i (p 0 0 0) (p 0 half 0) (p 0 (- half) 0) (p 0 0 half) (p 0 0 (- half)) (snd (Ulr1b k j i)))) Ulr1b
  end.
(** The mean potential at the faces of zone (k,j,i) as used for self-gravity. *)
Definition ph1r (k j i : Z) := half * (Phi g k j i + Phi g k j (i + 1)%Z).
Definition ph1l (k j i : Z) := half * (Phi g k j i + Phi g k j (i - 1)%Z).
Definition ph2r (k j i : Z) := half * (Phi g k j i + Phi g k (j + 1)%Z i).
Definition ph2l (k j i : Z) := half * (Phi g k j i + Phi g k (j - 1)%Z i).
Definition ph3r (k j i : Z) := half * (Phi g k j i + Phi g (k + 1)%Z j i).
Definition ph3l (k j i : Z) := half * (Phi g k j i + Phi g (k - 1)%Z j i).
(** lines 1295-1339 *)
Definition Ulr1d :=
  match s_selfg sc with
  | None => Ulr1c
  | Some _ => loop3 (kl + 1) (ku - 1) (jl + 1) (ju - 1) (il + 1) iu (fun k j i =>
      let s k j i := gs1 k j i (Phi g k j i) (ph2r k j i) (ph2l k j i) (ph3r k j i) (ph3l k j i) in
      (s k j (i - 1)%Z (fst (Ulr1c k j i)), s k j i (snd (Ulr1c k j i)))) Ulr1c
  end.

(** *** Step 6: x2-interface states, lines 1350-1663 *)
Definition tr2 (k j i : Z) (s : cons1) : cons1 :=
  let m := s_mhd sc in let e := emf2_0 in
  let s := corr_yzx m hq1 (hq1 * half * ((e k j (i + 1)%Z - e k j i) + (e (k + 1)%Z j (i + 1)%Z - e (k + 1)%Z j i)))
             s (F1 k j (i + 1)%Z) (F1 k j i) in
  corr_zxy m hq3 (hq3 * half * ((e (k + 1)%Z j i - e k j i) + (e (k + 1)%Z j (i + 1)%Z - e k j (i + 1)%Z)))
             s (F3 (k + 1)%Z j i) (F3 k j i).
Definition ms2 (k j i : Z) : cons1 -> cons1 :=
  let u := U g k j i in let d := db2 k j i in
  mhd_src hdt d (cB2 u) (cB3 u) (cB1 u) (cM3 u / cd u) (cM1 u / cd u) (min_mod d (db1 k j i)) (min_mod d (db3 k j i)).
(** m: what is subtracted from Mz, for the x1-gradient; lines 1546-1573 and 1628-1640 *)
Definition gs2 (k j i : Z) (m c r1 l1 r3 l3 : R) (s : cons1) : cons1 :=
  let s := set_umz s (umz s - m) in
  let s := set_ue s (ue s - work hq1 c r1 l1 (F1 k j (i + 1)%Z) (F1 k j i)) in
  let s := set_umy s (umy s - hq3 * (r3 - l3) * cd (U g k j i)) in
  set_ue s (ue s - work hq3 c r3 l3 (F3 (k + 1)%Z j i) (F3 k j i)).
Definition Ulr2a := loop3 (kl + 1) (ku - 1) (jl + 1) ju (il + 1) (iu - 1) (fun k j i =>
  (tr2 k (j - 1) i (fst (Ulr2 k j i)), tr2 k j i (snd (Ulr2 k j i)))) Ulr2.
Definition Ulr2b :=
  if s_mhd sc then loop3 (kl + 1) (ku - 1) (jl + 1) ju (il + 1) (iu - 1) (fun k j i =>
    (ms2 k (j - 1) i (fst (Ulr2a k j i)), ms2 k j i (snd (Ulr2a k j i)))) Ulr2a
  else Ulr2a.
(** lines 1532-1612 *)
Definition Ulr2c :=
  match s_grav sc with
  | None => Ulr2b
  | Some phi => loop3 (kl + 1) (ku - 1) (jl + 1) ju (il + 1) (iu - 1) (fun k j i =>
      let p := pot g phi k j i in let j1 := (j - 1)%Z in
      (gs2 k j1 i (hdt * cd (U g k j1 i) * ((p half (-1) 0 - p (- half) (-1) 0) / dx1 g))
           (p 0 (-1) 0) (p half (-1) 0) (p (- half) (-1) 0) (p 0 (-1) half) (p 0 (-1) (- half)) (fst (Ulr2b k j i)),
       gs2 k j i (hdt * cd (U g k j i) * ((p half 0 0 - p (- half) 0 0) / dx1 g))
           (p 0 0 0) (p half 0 0) (p (- half) 0 0) (p 0 0 half) (p 0 0 (- half)) (snd (Ulr2b k j i)))) Ulr2b
  end.
(** lines 1620-1663 *)
Definition Ulr2d :=
  match s_selfg sc with
  | None => Ulr2c
  | Some _ => loop3 (kl + 1) (ku - 1) (jl + 1) ju (il + 1) (iu - 1) (fun k j i =>
      let s k j i := gs2 k j i (hq1 * (ph1r k j i - ph1l k j i) * cd (U g k j i))
                         (Phi g k j i) (ph1r k j i) (ph1l k j i) (ph3r k j i) (ph3l k j i) in
      (s k (j - 1)%Z i (fst (Ulr2c k j i)), s k j i (snd (Ulr2c k j i)))) Ulr2c
  end.

(** *** Step 7: x3-interface states, lines 1779-2099 *)
Definition tr3 (k j i : Z) (s : cons1) : cons1 :=
  let m := s_mhd sc in let e := emf3_0 in
  let s := corr_zxy m hq1 (hq1 * half * ((e k j (i + 1)%Z - e k j i) + (e k (j + 1)%Z (i + 1)%Z - e k (j + 1)%Z i)))
             s (F1 k j (i + 1)%Z) (F1 k j i) in
  corr_yzx m hq2 (hq2 * half * ((e k (j + 1)%Z i - e k j i) + (e k (j + 1)%Z (i + 1)%Z - e k j (i + 1)%Z)))
             s (F2 k (j + 1)%Z i) (F2 k j i).
Definition ms3 (k j i : Z) : cons1 -> cons1 :=
  let u := U g k j i in let d := db3 k j i in
  mhd_src hdt d (cB3 u) (cB1 u) (cB2 u) (cM1 u / cd u) (cM2 u / cd u) (min_mod d (db2 k j i)) (min_mod d (db1 k j i)).
(** m: what is subtracted from My, for the x1-gradient; lines 1976-2006 and 2063-2075 *)
Definition gs3 (k j i : Z) (m c r1 l1 r2 l2 : R) (s : cons1) : cons1 :=
  let s := set_umy s (umy s - m) in
  let s := set_ue s (ue s - work hq1 c r1 l1 (F1 k j (i + 1)%Z) (F1 k j i)) in
  let s := set_umz s (umz s - hq2 * (r2 - l2) * cd (U g k j i)) in
  set_ue s (ue s - work hq2 c r2 l2 (F2 k (j + 1)%Z i) (F2 k j i)).
Definition Ulr3a := loop3 (kl + 1) ku (jl + 1) (ju - 1) (il + 1) (iu - 1) (fun k j i =>
  (tr3 (k - 1) j i (fst (Ulr3 k j i)), tr3 k j i (snd (Ulr3 k j i)))) Ulr3.
Definition Ulr3b :=
  if s_mhd sc then loop3 (kl + 1) ku (jl + 1) (ju - 1) (il + 1) (iu - 1) (fun k j i =>
    (ms3 (k - 1) j i (fst (Ulr3a k j i)), ms3 k j i (snd (Ulr3a k j i)))) Ulr3a
  else Ulr3a.
(** lines 1962-2047 *)
Definition Ulr3c :=
  match s_grav sc with
  | None => Ulr3b
  | Some phi => loop3 (kl + 1) ku (jl + 1) (ju - 1) (il + 1) (iu - 1) (fun k j i =>
      let p := pot g phi k j i in let k1 := (k - 1)%Z in
      (gs3 k1 j i (hdt * cd (U g k1 j i) * ((p half 0 (-1) - p (- half) 0 (-1)) / dx1 g))
           (p 0 0 (-1)) (p half 0 (-1)) (p (- half) 0 (-1)) (p 0 half (-1)) (p 0 (- half) (-1)) (fst (Ulr3b k j i)),
       gs3 k j i (hdt * cd (U g k j i) * ((p half 0 0 - p (- half) 0 0) / dx1 g))
           (p 0 0 0) (p half 0 0) (p (- half) 0 0) (p 0 half 0) (p 0 (- half) 0) (snd (Ulr3b k j i)))) Ulr3b
  end.
(** lines 2055-2099 *)
Definition Ulr3d :=
  match s_selfg sc with
  | None => Ulr3c
  | Some _ => loop3 (kl + 1) ku (jl + 1) (ju - 1) (il + 1) (iu - 1) (fun k j i =>
      let s k j i := gs3 k j i (hq1 * (ph1r k j i - ph1l k j i) * cd (U g k j i))
                         (Phi g k j i) (ph1r k j i) (ph1l k j i) (ph2r k j i) (ph2l k j i) in
      (s (k - 1)%Z j i (fst (Ulr3c k j i)), s k j i (snd (Ulr3c k j i)))) Ulr3c
  end.
(** Step 7e, lines 2211-2238 *)
Definition Ulr1e := loop3 (kl + 1) (ku - 1) (jl + 1) (ju - 1) (il + 1) (iu - 1) (fun k j i => both (floor_u (s_dmin sc)) (Ulr1d k j i)) Ulr1d.
Definition Ulr2e := loop3 (kl + 1) (ku - 1) (jl + 1) (ju - 1) (il + 1) (iu - 1) (fun k j i => both (floor_u (s_dmin sc)) (Ulr2d k j i)) Ulr2d.
Definition Ulr3e := loop3 (kl + 1) (ku - 1) (jl + 1) (ju - 1) (il + 1) (iu - 1) (fun k j i => both (floor_u (s_dmin sc)) (Ulr3d k j i)) Ulr3d.

(** *** Step 8: cell-centred values at the half step, lines 2245-2435 *)
Definition needs_dhalf : bool :=
  s_mhd sc || match s_grav sc with None => false | _ => true end || match s_cool sc with None => false | _ => true end.
Definition dhalf :=
  if needs_dhalf then loop3 (kl + 1) (ku - 1) (jl + 1) (ju - 1) (il + 1) (iu - 1) (fun k j i =>
    floor_x (s_dmin sc) (cd (U g k j i) - hq1 * (ud (F1 k j (i + 1)%Z) - ud (F1 k j i))
                                        - hq2 * (ud (F2 k (j + 1)%Z i) - ud (F2 k j i))
                                        - hq3 * (ud (F3 (k + 1)%Z j i) - ud (F3 k j i)))) (z_dh z)
  else z_dh z.
Definition M1h (k j i : Z) : R :=
  let u := U g k j i in
  let m := cM1 u - hq1 * (umx (F1 k j (i + 1)%Z) - umx (F1 k j i)) - hq2 * (umz (F2 k (j + 1)%Z i) - umz (F2 k j i))
                 - hq3 * (umy (F3 (k + 1)%Z j i) - umy (F3 k j i)) in
  let m := match s_grav sc with
           | None => m
           | Some phi => m - hdt * cd u * ((pot g phi k j i half 0 0 - pot g phi k j i (- half) 0 0) * dx1i)
           end in
  match s_selfg sc with
  | None => m
  | Some _ => m - hq1 * (ph1r k j i - ph1l k j i) * cd u
  end.
Definition M2h (k j i : Z) : R :=
  let u := U g k j i in
  let m := cM2 u - hq1 * (umy (F1 k j (i + 1)%Z) - umy (F1 k j i)) - hq2 * (umx (F2 k (j + 1)%Z i) - umx (F2 k j i))
                 - hq3 * (umz (F3 (k + 1)%Z j i) - umz (F3 k j i)) in
  let m := match s_grav sc with
           | None => m
           | Some phi => m - hq2 * (pot g phi k j i 0 half 0 - pot g phi k j i 0 (- half) 0) * cd u
           end in
  match s_selfg sc with
  | None => m
  | Some _ => m - hq2 * (ph2r k j i - ph2l k j i) * cd u
  end.
Definition M3h (k j i : Z) : R :=
  let u := U g k j i in
  let m := cM3 u - hq1 * (umz (F1 k j (i + 1)%Z) - umz (F1 k j i)) - hq2 * (umy (F2 k (j + 1)%Z i) - umy (F2 k j i))
                 - hq3 * (umx (F3 (k + 1)%Z j i) - umx (F3 k j i)) in
  let m := match s_grav sc with
           | None => m
           | Some phi => m - hq3 * (pot g phi k j i 0 0 half - pot g phi k j i 0 0 (- half)) * cd u
           end in
  match s_selfg sc with
  | None => m
  | Some _ => m - hq3 * (ph3r k j i - ph3l k j i) * cd u
  end.
Definition B1ch (k j i : Z) : R := half * (B1f k j i + B1f k j (i + 1)%Z).
Definition B2ch (k j i : Z) : R := half * (B2f k j i + B2f k (j + 1)%Z i).
Definition B3ch (k j i : Z) : R := half * (B3f k j i + B3f (k + 1)%Z j i).
Definition phalf :=
  match s_mhd sc, s_cool sc with
  | false, None => z_ph z
  | _, _ => loop3 (kl + 1) (ku - 1) (jl + 1) (ju - 1) (il + 1) (iu - 1) (fun k j i =>
      let Eh := cE (U g k j i) - hq1 * (ue (F1 k j (i + 1)%Z) - ue (F1 k j i)) - hq2 * (ue (F2 k (j + 1)%Z i) - ue (F2 k j i))
                               - hq3 * (ue (F3 (k + 1)%Z j i) - ue (F3 k j i)) in
      let p := Eh - half * (M1h k j i * M1h k j i + M2h k j i * M2h k j i + M3h k j i * M3h k j i) / dhalf k j i in
      let p := if s_mhd sc then p - half * (B1ch k j i * B1ch k j i + B2ch k j i * B2ch k j i + B3ch k j i * B3ch k j i) else p in
      p * s_gm1 sc) (z_ph z)
  end.
Definition cc1_h := loop3 (kl + 1) (ku - 1) (jl + 1) (ju - 1) (il + 1) (iu - 1) (fun k j i =>
  (B2ch k j i * M3h k j i - B3ch k j i * M2h k j i) / dhalf k j i) cc1_0.
Definition cc2_h := loop3 (kl + 1) (ku - 1) (jl + 1) (ju - 1) (il + 1) (iu - 1) (fun k j i =>
  (B3ch k j i * M1h k j i - B1ch k j i * M3h k j i) / dhalf k j i) cc2_0.
Definition cc3_h := loop3 (kl + 1) (ku - 1) (jl + 1) (ju - 1) (il + 1) (iu - 1) (fun k j i =>
  (B1ch k j i * M2h k j i - B2ch k j i * M1h k j i) / dhalf k j i) cc3_0.

(** *** Step 9: fluxes of the corrected states, lines 2504-2591 *)
Definition again (p : cons1 * cons1) (Bx : R) : cons1 :=
  s_flux sc (fst p) (snd p) (s_c2p sc (fst p) Bx) (s_c2p sc (snd p) Bx) Bx.
Definition G1 := loop3 (ks g - 1) (ke g + 1) (js g - 1) (je g + 1) (is g) (ie g + 1) (fun k j i => again (Ulr1e k j i) (B1f k j i)) F1.
Definition G2 := loop3 (ks g - 1) (ke g + 1) (js g) (je g + 1) (is g - 1) (ie g + 1) (fun k j i => again (Ulr2e k j i) (B2f k j i)) F2.
Definition G3 := loop3 (ks g) (ke g + 1) (js g - 1) (je g + 1) (is g - 1) (ie g + 1) (fun k j i => again (Ulr3e k j i) (B3f k j i)) F3.

(** *** Step 10: constrained transport, lines 2600-2731 *)
Definition emf1 := loop3 (ks g - 1) (ke g + 2) (js g - 1) (je g + 2) (is g - 2) (ie g + 2) (emf1_corner G2 G3 cc1_h) emf1_0.
Definition emf2 := loop3 (ks g - 1) (ke g + 2) (js g - 2) (je g + 2) (is g - 1) (ie g + 2) (emf2_corner G1 G3 cc2_h) emf2_0.
Definition emf3 := loop3 (ks g - 2) (ke g + 2) (js g - 1) (je g + 2) (is g - 1) (ie g + 2) (emf3_corner G1 G2 cc3_h) emf3_0.
Definition B1i' :=
  if s_mhd sc then loop3 (ks g) (ke g) (js g) (je g) (is g) (ie g + 1) (fun k j i =>
    B1i g k j i + (q3 * (emf2 (k + 1)%Z j i - emf2 k j i) - q2 * (emf3 k (j + 1)%Z i - emf3 k j i))) (B1i g) else B1i g.
Definition B2i' :=
  if s_mhd sc then loop3 (ks g) (ke g) (js g) (je g + 1) (is g) (ie g) (fun k j i =>
    B2i g k j i + (q1 * (emf3 k j (i + 1)%Z - emf3 k j i) - q3 * (emf1 (k + 1)%Z j i - emf1 k j i))) (B2i g) else B2i g.
Definition B3i' :=
  if s_mhd sc then loop3 (ks g) (ke g + 1) (js g) (je g) (is g) (ie g) (fun k j i =>
    B3i g k j i + (q2 * (emf1 k (j + 1)%Z i - emf1 k j i) - q1 * (emf2 k j (i + 1)%Z - emf2 k j i))) (B3i g) else B3i g.

(** *** Step 11: source terms *)
(** lines 2963-3007 *)
Definition U11a :=
  match s_grav sc with
  | None => U g
  | Some phi => loop3 (ks g) (ke g) (js g) (je g) (is g) (ie g) (fun k j i =>
      let u := U g k j i in let p := pot g phi k j i in let d := dhalf k j i in
      let u := set_M1 u (cM1 u - dt g * d * ((p half 0 0 - p (- half) 0 0) * dx1i)) in
      let u := set_E u (cE u - work q1 (p 0 0 0) (p half 0 0) (p (- half) 0 0) (G1 k j (i + 1)%Z) (G1 k j i)) in
      let u := set_M2 u (cM2 u - q2 * (p 0 half 0 - p 0 (- half) 0) * d) in
      let u := set_E u (cE u - work q2 (p 0 0 0) (p 0 half 0) (p 0 (- half) 0) (G2 k (j + 1)%Z i) (G2 k j i)) in
      let u := set_M3 u (cM3 u - q3 * (p 0 0 half - p 0 0 (- half)) * d) in
      set_E u (cE u - work q3 (p 0 0 0) (p 0 0 half) (p 0 0 (- half)) (G3 (k + 1)%Z j i) (G3 k j i))) (U g)
  end.
End Ctu3.

(** *** Step 11b (integrate_3d_ctu.c lines 3018-3149; integrate_3d_vl.c 1474-1605).
    The components of the gravitational acceleration at the lower x1-, x2- and x3-face of
    zone (k,j,i) (gxl, gyl, gzl; the values with r are those of the next zone). *)
Section SelfGravity.
Variable (g : grid3).
Definition g11 (k j i : Z) : R := (Phi g k j (i - 1)%Z - Phi g k j i) * dx1i g.
Definition g12 (k j i : Z) : R := / 4 * ((Phi g k (j - 1)%Z (i - 1)%Z - Phi g k (j + 1)%Z (i - 1)%Z)
                                         + (Phi g k (j - 1)%Z i - Phi g k (j + 1)%Z i)) * dx2i g.
Definition g13 (k j i : Z) : R := / 4 * ((Phi g (k - 1)%Z j (i - 1)%Z - Phi g (k + 1)%Z j (i - 1)%Z)
                                         + (Phi g (k - 1)%Z j i - Phi g (k + 1)%Z j i)) * dx3i g.
Definition g21 (k j i : Z) : R := / 4 * ((Phi g k (j - 1)%Z (i - 1)%Z - Phi g k (j - 1)%Z (i + 1)%Z)
                                         + (Phi g k j (i - 1)%Z - Phi g k j (i + 1)%Z)) * dx1i g.
Definition g22 (k j i : Z) : R := (Phi g k (j - 1)%Z i - Phi g k j i) * dx2i g.
Definition g23 (k j i : Z) : R := / 4 * ((Phi g (k - 1)%Z (j - 1)%Z i - Phi g (k + 1)%Z (j - 1)%Z i)
                                         + (Phi g (k - 1)%Z j i - Phi g (k + 1)%Z j i)) * dx3i g.
Definition g31 (k j i : Z) : R := / 4 * ((Phi g (k - 1)%Z j (i - 1)%Z - Phi g (k - 1)%Z j (i + 1)%Z)
                                         + (Phi g k j (i - 1)%Z - Phi g k j (i + 1)%Z)) * dx1i g.
Definition g32 (k j i : Z) : R := / 4 * ((Phi g (k - 1)%Z (j - 1)%Z i - Phi g (k - 1)%Z (j + 1)%Z i)
                                         + (Phi g k (j - 1)%Z i - Phi g k (j + 1)%Z i)) * dx2i g.
Definition g33 (k j i : Z) : R := (Phi g (k - 1)%Z j i - Phi g k j i) * dx3i g.
(** flx_m1l ... of the three loops *)
Definition diag (a b n t s phi : R) : R := half * (n * n - t * t - s * s) / a + b * phi.
(** d/dx1 terms, lines 3018-3059 *)
Definition sg1 (a b : R) (F : Z -> Z -> Z -> cons1) (old : Z -> Z -> Z -> cons) (k j i : Z) : cons :=
  let u := old k j i in let i1 := (i + 1)%Z in
  let phic := Phi g k j i in
  let phil := half * (Phi g k j (i - 1)%Z + Phi g k j i) in
  let phir := half * (Phi g k j i + Phi g k j i1) in
  let gxl := g11 k j i in let gxr := g11 k j i1 in let gyl := g12 k j i in let gyr := g12 k j i1 in
  let gzl := g13 k j i in let gzr := g13 k j i1 in
  let u := set_M1 u (cM1 u - q1 g * (diag a b gxr gyr gzr phir - diag a b gxl gyl gzl phil)) in
  let u := set_M2 u (cM2 u - q1 g * (gxr * gyr / a - gxl * gyl / a)) in
  let u := set_M3 u (cM3 u - q1 g * (gxr * gzr / a - gxl * gzl / a)) in
  set_E u (cE u - work (q1 g) phic phir phil (F k j i1) (F k j i)).
(** d/dx2 terms, lines 3063-3104 *)
Definition sg2 (a b : R) (F : Z -> Z -> Z -> cons1) (old : Z -> Z -> Z -> cons) (k j i : Z) : cons :=
  let u := old k j i in let j1 := (j + 1)%Z in
  let phic := Phi g k j i in
  let phil := half * (Phi g k (j - 1)%Z i + Phi g k j i) in
  let phir := half * (Phi g k j i + Phi g k j1 i) in
  let gxl := g21 k j i in let gxr := g21 k j1 i in let gyl := g22 k j i in let gyr := g22 k j1 i in
  let gzl := g23 k j i in let gzr := g23 k j1 i in
  let u := set_M1 u (cM1 u - q2 g * (gyr * gxr / a - gyl * gxl / a)) in
  let u := set_M2 u (cM2 u - q2 g * (diag a b gyr gxr gzr phir - diag a b gyl gxl gzl phil)) in
  let u := set_M3 u (cM3 u - q2 g * (gyr * gzr / a - gyl * gzl / a)) in
  set_E u (cE u - work (q2 g) phic phir phil (F k j1 i) (F k j i)).
(** d/dx3 terms, lines 3108-3149 *)
Definition sg3 (a b : R) (F : Z -> Z -> Z -> cons1) (old : Z -> Z -> Z -> cons) (k j i : Z) : cons :=
  let u := old k j i in let k1 := (k + 1)%Z in
  let phic := Phi g k j i in
  let phil := half * (Phi g (k - 1)%Z j i + Phi g k j i) in
  let phir := half * (Phi g k j i + Phi g k1 j i) in
  let gxl := g31 k j i in let gxr := g31 k1 j i in let gyl := g32 k j i in let gyr := g32 k1 j i in
  let gzl := g33 k j i in let gzr := g33 k1 j i in
  let u := set_M1 u (cM1 u - q3 g * (gzr * gxr / a - gzl * gxl / a)) in
  let u := set_M2 u (cM2 u - q3 g * (gzr * gyr / a - gzl * gyl / a)) in
  let u := set_M3 u (cM3 u - q3 g * (diag a b gzr gxr gyr phir - diag a b gzl gxl gyl phil)) in
  set_E u (cE u - work (q3 g) phic phir phil (F k1 j i) (F k j i)).
End SelfGravity.

Section Ctu3b.
Variables (sc : scheme) (z : scratch3) (g : grid3).
Definition U11b1 :=
  match s_selfg sc with
  | None => U11a sc z g
  | Some (a, b) => loop3 (ks g) (ke g) (js g) (je g) (is g) (ie g) (sg1 g a b (G1 sc z g) (U11a sc z g)) (U11a sc z g)
  end.
Definition U11b2 :=
  match s_selfg sc with
  | None => U11b1
  | Some (a, b) => loop3 (ks g) (ke g) (js g) (je g) (is g) (ie g) (sg2 g a b (G2 sc z g) U11b1) U11b1
  end.
Definition U11b :=
  match s_selfg sc with
  | None => U11b2
  | Some (a, b) => loop3 (ks g) (ke g) (js g) (je g) (is g) (ie g) (sg3 g a b (G3 sc z g) U11b2) U11b2
  end.
(** lines 3153-3161 *)
Definition mass1 :=
  match s_selfg sc with None => x1Mass g
  | Some _ => loop3 (ks g) (ke g + 1) (js g) (je g + 1) (is g) (ie g + 1) (fun k j i => ud (G1 sc z g k j i)) (x1Mass g) end.
Definition mass2 :=
  match s_selfg sc with None => x2Mass g
  | Some _ => loop3 (ks g) (ke g + 1) (js g) (je g + 1) (is g) (ie g + 1) (fun k j i => ud (G2 sc z g k j i)) (x2Mass g) end.
Definition mass3 :=
  match s_selfg sc with None => x3Mass g
  | Some _ => loop3 (ks g) (ke g + 1) (js g) (je g + 1) (is g) (ie g + 1) (fun k j i => ud (G3 sc z g k j i)) (x3Mass g) end.
(** lines 3169-3178 *)
Definition U11c :=
  match s_cool sc with
  | None => U11b
  | Some f => loop3 (ks g) (ke g) (js g) (je g) (is g) (ie g) (fun k j i =>
      set_E (U11b k j i) (cE (U11b k j i) - dt g * f (dhalf sc z g k j i) (phalf sc z g k j i) (dt g))) U11b
  end.

(** *** Step 12, lines 3206-3293 *)
Definition U12a := loop3 (ks g) (ke g) (js g) (je g) (is g) (ie g) (fun k j i =>
  upd1 (q1 g) false false (U11c k j i) (G1 sc z g k j (i + 1)%Z) (G1 sc z g k j i)) U11c.
Definition U12b := loop3 (ks g) (ke g) (js g) (je g) (is g) (ie g) (fun k j i =>
  upd2 (q2 g) false false (U12a k j i) (G2 sc z g k (j + 1)%Z i) (G2 sc z g k j i)) U12a.
Definition U12c := loop3 (ks g) (ke g) (js g) (je g) (is g) (ie g) (fun k j i =>
  upd3 (q3 g) false false (U12b k j i) (G3 sc z g (k + 1)%Z j i) (G3 sc z g k j i)) U12b.
Definition centre (b1 b2 b3 : Z -> Z -> Z -> R) (k j i : Z) (u : cons) : cons :=
  let u := set_B1 u (half * (b1 k j i + b1 k j (i + 1)%Z)) in
  let u := set_B2 u (half * (b2 k j i + b2 k (j + 1)%Z i)) in
  set_B3 u (half * (b3 k j i + b3 (k + 1)%Z j i)).
Definition U12 :=
  if s_mhd sc then loop3 (ks g) (ke g) (js g) (je g) (is g) (ie g) (fun k j i =>
    centre (B1i' sc z g) (B2i' sc z g) (B3i' sc z g) k j i (U12c k j i)) U12c
  else U12c.
Definition integrate_3d_ctu : grid3 :=
  Grid3 (is g) (ie g) (js g) (je g) (ks g) (ke g) (dt g) (dx1 g) (dx2 g) (dx3 g) (MinX1 g) (MinX2 g) (MinX3 g)
    U12 (B1i' sc z g) (B2i' sc z g) (B3i' sc z g) (Phi g) mass1 mass2 mass3.
End Ctu3b.
