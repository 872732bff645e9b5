(** * src/integrators/integrate_2d_ctu.c: integrate_2d_ctu(), integrate_emf3_corner()

    Modelled: Cartesian, with or without MHD, scalars, a static potential,
    self-gravity and cooling.  With an isothermal equation of state there is no
    energy; here it is carried along but nothing else depends on it.  Not modelled: particles, shearing box, cylindrical
    geometry, H-correction, the copies of fluxes kept for mesh refinement. *)
From Coq Require Import Reals ZArith List Bool.
From Verif Require Import GasModel IntegModel.
Open Scope R_scope.

(** The part of GridS used in 2D (src/athena.h); X3 is the x3-coordinate of the plane. *)
Record grid2 := Grid2 {
  is : Z; ie : Z; js : Z; je : Z; dt : R; dx1 : R; dx2 : R; MinX1 : R; MinX2 : R; X3 : R;
  U : Z -> Z -> cons; B1i : Z -> Z -> R; B2i : Z -> Z -> R; B3i : Z -> Z -> R;
  Phi : Z -> Z -> R; x1Mass : Z -> Z -> R; x2Mass : Z -> Z -> R }.

(** The static work arrays as left by earlier calls; the one-dimensional W and Wl/Wr
    are indexed by the row or column that is being swept as well.  (The last three
    are used by integrate_2d_vl.c: Uhalf, and W1d on entry to steps 7 and 8.) *)
Record scratch2 := Scratch2 {
  z_W1 : Z -> Z -> prim1 * R; z_W2 : Z -> Z -> prim1 * R;
  z_lr1 : Z -> Z -> prim1 * prim1; z_lr2 : Z -> Z -> prim1 * prim1;
  z_Ulr1 : Z -> Z -> cons1 * cons1; z_Ulr2 : Z -> Z -> cons1 * cons1;
  z_F1 : Z -> Z -> cons1; z_F2 : Z -> Z -> cons1;
  z_B1f : Z -> Z -> R; z_B2f : Z -> Z -> R; z_cc : Z -> Z -> R; z_emf : Z -> Z -> R;
  z_dh : Z -> Z -> R; z_ph : Z -> Z -> R; z_Uh : Z -> Z -> cons;
  z_Wh1 : Z -> Z -> prim1 * R; z_Wh2 : Z -> Z -> prim1 * R }.

(** src/cc_pos.c:39-49 *)
Definition x1c (g : grid2) (i : Z) : R := MinX1 g + (IZR (i - is g) + half) * dx1 g.
Definition x2c (g : grid2) (j : Z) : R := MinX2 g + (IZR (j - js g) + half) * dx2 g.

(** integrate_emf3_corner(), lines 2293-2347: the electromotive force at the corner
    (j-1/2, i-1/2), from the face fluxes F1 = x1Flux, F2 = x2Flux and the
    cell-centred values; upwinded by the sign of the mass flux. *)
Definition emf3_corner (F1 F2 : Z -> Z -> cons1) (cc : Z -> Z -> R) (j i : Z) : R :=
  let pick (m a b : R) : R := if Rlt_dec 0 m then a else if Rlt_dec m 0 then b else half * (a + b) in
  let emf_l2 := - uby (F1 (j - 1)%Z i)
    + pick (ud (F1 (j - 1)%Z i)) (ubz (F2 j (i - 1)%Z) - cc (j - 1)%Z (i - 1)%Z) (ubz (F2 j i) - cc (j - 1)%Z i) in
  let emf_r2 := - uby (F1 j i)
    + pick (ud (F1 j i)) (ubz (F2 j (i - 1)%Z) - cc j (i - 1)%Z) (ubz (F2 j i) - cc j i) in
  let emf_l1 := ubz (F2 j (i - 1)%Z)
    + pick (ud (F2 j (i - 1)%Z)) (- uby (F1 (j - 1)%Z i) - cc (j - 1)%Z (i - 1)%Z) (- uby (F1 j i) - cc j (i - 1)%Z) in
  let emf_r1 := ubz (F2 j i)
    + pick (ud (F2 j i)) (- uby (F1 (j - 1)%Z i) - cc (j - 1)%Z i) (- uby (F1 j i) - cc j i) in
  / 4 * (emf_l1 + emf_r1 + emf_l2 + emf_r2).

(** Step 5a, lines 712-746: an x1-interface state corrected with the x2-fluxes r (upper) and l (lower). *)
Definition corr1 (mhd : bool) (a : R) (u r l : cons1) : cons1 :=
  Cons1 (ud u - a * (ud r - ud l)) (umx u - a * (umz r - umz l)) (umy u - a * (umx r - umx l))
        (umz u - a * (umy r - umy l)) (ue u - a * (ue r - ue l)) (uby u)
        (if mhd then ubz u - a * (uby r - uby l) else ubz u) (sub_s a (us u) (us r) (us l)).
(** Step 6a, lines 890-915: an x2-interface state corrected with the x1-fluxes. *)
Definition corr2 (mhd : bool) (a : R) (u r l : cons1) : cons1 :=
  Cons1 (ud u - a * (ud r - ud l)) (umx u - a * (umy r - umy l)) (umy u - a * (umz r - umz l))
        (umz u - a * (umx r - umx l)) (ue u - a * (ue r - ue l))
        (if mhd then uby u - a * (ubz r - ubz l) else uby u) (ubz u) (sub_s a (us u) (us r) (us l)).
(** Step 5c, lines 761-773: the MHD source terms on an x1-interface state, from cell u with difference db of B1i. *)
Definition mhd1 (a db : R) (u : cons) (s : cons1) : cons1 :=
  let V3 := cM3 u / cd u in
  Cons1 (ud s) (umx s + a * cB1 u * db) (umy s + a * cB2 u * db) (umz s + a * cB3 u * db)
        (ue s + a * cB3 u * V3 * db) (uby s) (ubz s + a * V3 * db) (us s).
(** Step 6c, lines 932-943. *)
Definition mhd2 (a db : R) (u : cons) (s : cons1) : cons1 :=
  let V3 := cM3 u / cd u in
  Cons1 (ud s) (umx s + a * cB2 u * db) (umy s + a * cB3 u * db) (umz s + a * cB1 u * db)
        (ue s + a * cB3 u * V3 * db) (uby s + a * V3 * db) (ubz s) (us s).

Definition both {A B} (f : A -> B) (p : A * A) : B * B := (f (fst p), f (snd p)).

Section Ctu2.
Variables (sc : scheme) (z : scratch2) (g : grid2).
Definition il := (is g - 2)%Z.                                         (* lines 172-175 *)
Definition iu := (ie g + 2)%Z.
Definition jl := (js g - 2)%Z.
Definition ju := (je g + 2)%Z.
Definition q1 := dt g / dx1 g.                                         (* dtodx1 *)
Definition q2 := dt g / dx2 g.
Definition hq1 := half * q1.                                           (* hdtodx1 *)
Definition hq2 := half * q2.
Definition hdt := half * dt g.
Definition dx1i := 1 / dx1 g.
Definition dx2i := 1 / dx2 g.

(** *** Step 1: x1-sweep, lines 194-505 *)
Definition W1 : Z -> Z -> prim1 * R :=
  loop2 jl ju (is g - nghost) (ie g + nghost)
    (fun j i => (s_c2p sc (load1 (U g j i)) (cB1 (U g j i)), cB1 (U g j i))) (z_W1 z).
Definition B1f0 := loop2 jl ju (is g - nghost) (ie g + nghost) (B1i g) (z_B1f z).  (* line 208 *)
(** lines 239-249 *)
Definition lr1a := loop2 jl ju (il + 1) iu (fun j i =>
  both (floor_w (s_dmin sc)) (s_lr sc (dt g) (dx1 g) (W1 j) i)) (z_lr1 z).
(** lines 252-266 *)
Definition lr1b :=
  if s_mhd sc then loop2 jl ju (il + 1) iu (fun j i =>
    let srcl := cM2 (U g j (i - 1)%Z) / cd (U g j (i - 1)%Z) * (B1i g j i - B1i g j (i - 1)%Z) * dx1i in
    let srcr := cM2 (U g j i) / cd (U g j i) * (B1i g j (i + 1)%Z - B1i g j i) * dx1i in
    (set_wby (fst (lr1a j i)) (wby (fst (lr1a j i)) + hdt * srcl),
     set_wby (snd (lr1a j i)) (wby (snd (lr1a j i)) + hdt * srcr))) lr1a
  else lr1a.
(** lines 274-307 *)
Definition lr1c :=
  match s_grav sc with
  | None => lr1b
  | Some phi => loop2 jl ju (il + 1) iu (fun j i =>
      let x1 := x1c g i in let x2 := x2c g j in
      let phicr := phi x1 x2 (X3 g) in
      let phicl := phi (x1 - dx1 g) x2 (X3 g) in
      let phifc := phi (x1 - half * dx1 g) x2 (X3 g) in
      let gl := 2 * (phifc - phicl) * dx1i in
      let gr := 2 * (phicr - phifc) * dx1i in
      (set_wvx (fst (lr1b j i)) (wvx (fst (lr1b j i)) - hdt * gl),
       set_wvx (snd (lr1b j i)) (wvx (snd (lr1b j i)) - hdt * gr))) lr1b
  end.
(** lines 313-318 *)
Definition lr1d :=
  match s_selfg sc with
  | None => lr1c
  | Some _ => loop2 jl ju (il + 1) iu (fun j i =>
      both (fun w => set_wvx w (wvx w - hq1 * (Phi g j i - Phi g j (i - 1)%Z))) (lr1c j i)) lr1c
  end.
(** lines 325-333 *)
Definition lr1 := loop2 jl ju (il + 1) iu (fun j i => both (cool_w sc (dt g)) (lr1d j i)) lr1d.
(** lines 496-504 *)
Definition Ulr1 := loop2 jl ju (il + 1) iu (fun j i => both (fun w => s_p2c sc w (B1i g j i)) (lr1 j i)) (z_Ulr1 z).
Definition F1 := loop2 jl ju (il + 1) iu (fun j i =>
  s_flux sc (fst (Ulr1 j i)) (snd (Ulr1 j i)) (fst (lr1 j i)) (snd (lr1 j i)) (B1f0 j i)) (z_F1 z).

(** *** Step 2: x2-sweep, lines 514-656 *)
Definition W2 : Z -> Z -> prim1 * R :=
  loop2 (js g - nghost) (je g + nghost) il iu
    (fun j i => (s_c2p sc (load2 (U g j i)) (cB2 (U g j i)), cB2 (U g j i))) (z_W2 z).
Definition B2f0 := loop2 (js g - nghost) (je g + nghost) il iu (B2i g) (z_B2f z).  (* line 534 *)
Definition lr2a := loop2 (jl + 1) ju il iu (fun j i =>
  both (floor_w (s_dmin sc)) (s_lr sc (dt g) (dx2 g) (fun j => W2 j i) j)) (z_lr2 z).
(** lines 562-570 *)
Definition lr2b :=
  if s_mhd sc then loop2 (jl + 1) ju il iu (fun j i =>
    let srcl := cM1 (U g (j - 1)%Z i) / cd (U g (j - 1)%Z i) * (B2i g j i - B2i g (j - 1)%Z i) * dx2i in
    let srcr := cM1 (U g j i) / cd (U g j i) * (B2i g (j + 1)%Z i - B2i g j i) * dx2i in
    (set_wbz (fst (lr2a j i)) (wbz (fst (lr2a j i)) + hdt * srcl),
     set_wbz (snd (lr2a j i)) (wbz (snd (lr2a j i)) + hdt * srcr))) lr2a
  else lr2a.
(** lines 577-592 *)
Definition lr2c :=
  match s_grav sc with
  | None => lr2b
  | Some phi => loop2 (jl + 1) ju il iu (fun j i =>
      let x1 := x1c g i in let x2 := x2c g j in
      let phicr := phi x1 x2 (X3 g) in
      let phicl := phi x1 (x2 - dx2 g) (X3 g) in
      let phifc := phi x1 (x2 - half * dx2 g) (X3 g) in
      (set_wvx (fst (lr2b j i)) (wvx (fst (lr2b j i)) - q2 * (phifc - phicl)),
       set_wvx (snd (lr2b j i)) (wvx (snd (lr2b j i)) - q2 * (phicr - phifc)))) lr2b
  end.
(** lines 598-603 *)
Definition lr2d :=
  match s_selfg sc with
  | None => lr2c
  | Some _ => loop2 (jl + 1) ju il iu (fun j i =>
      both (fun w => set_wvx w (wvx w - hq2 * (Phi g j i - Phi g (j - 1)%Z i))) (lr2c j i)) lr2c
  end.
(** lines 610-618 *)
Definition lr2 := loop2 (jl + 1) ju il iu (fun j i => both (cool_w sc (dt g)) (lr2d j i)) lr2d.
(** lines 648-655 *)
Definition Ulr2 := loop2 (jl + 1) ju il iu (fun j i => both (fun w => s_p2c sc w (B2i g j i)) (lr2 j i)) (z_Ulr2 z).
Definition F2 := loop2 (jl + 1) ju il iu (fun j i =>
  s_flux sc (fst (Ulr2 j i)) (snd (Ulr2 j i)) (fst (lr2 j i)) (snd (lr2 j i)) (B2f0 j i)) (z_F2 z).

(** *** Step 4: half step of the face-centred fields, lines 668-697 *)
Definition cc0 := loop2 jl ju il iu (fun j i =>
  let u := U g j i in (cB1 u * cM2 u - cB2 u * cM1 u) / cd u) (z_cc z).
Definition emf0 := loop2 (js g - 1) (je g + 2) (is g - 1) (ie g + 2) (emf3_corner F1 F2 cc0) (z_emf z).
(** lines 687 and 693: together i runs to iu; 688 and 696: together j runs to ju *)
Definition B1f :=
  if s_mhd sc then loop2 (jl + 1) (ju - 1) (il + 1) iu (fun j i =>
    B1f0 j i - hq2 * (emf0 (j + 1)%Z i - emf0 j i)) B1f0 else B1f0.
Definition B2f :=
  if s_mhd sc then loop2 (jl + 1) ju (il + 1) (iu - 1) (fun j i =>
    B2f0 j i + hq1 * (emf0 j (i + 1)%Z - emf0 j i)) B2f0 else B2f0.

(** *** Step 5: x1-interface states, lines 707-875 *)
Definition Ulr1a := loop2 (jl + 1) (ju - 1) (il + 1) iu (fun j i =>
  (corr1 (s_mhd sc) hq2 (fst (Ulr1 j i)) (F2 (j + 1)%Z (i - 1)%Z) (F2 j (i - 1)%Z),
   corr1 (s_mhd sc) hq2 (snd (Ulr1 j i)) (F2 (j + 1)%Z i) (F2 j i))) Ulr1.
Definition Ulr1b :=
  if s_mhd sc then loop2 (jl + 1) (ju - 1) (il + 1) iu (fun j i =>
    (mhd1 hq1 (B1i g j i - B1i g j (i - 1)%Z) (U g j (i - 1)%Z) (fst (Ulr1a j i)),
     mhd1 hq1 (B1i g j (i + 1)%Z - B1i g j i) (U g j i) (snd (Ulr1a j i)))) Ulr1a
  else Ulr1a.
(** one cell's momentum and energy source from the x2-gradient of a potential:
    values at the centre and the upper and lower faces, lines 815-823 *)
Definition src_y (c r l : R) (d : R) (fr fl : cons1) (s : cons1) : cons1 :=
  let s := set_umy s (umy s - hq2 * (r - l) * d) in
  set_ue s (ue s - hq2 * (ud fl * (c - l) + ud fr * (r - c))).
Definition Ulr1c :=
  match s_grav sc with
  | None => Ulr1b
  | Some phi => loop2 (jl + 1) (ju - 1) (il + 1) iu (fun j i =>
      let x1 := x1c g i in let x2 := x2c g j in
      (src_y (phi (x1 - dx1 g) x2 (X3 g)) (phi (x1 - dx1 g) (x2 + half * dx2 g) (X3 g))
             (phi (x1 - dx1 g) (x2 - half * dx2 g) (X3 g)) (cd (U g j (i - 1)%Z))
             (F2 (j + 1)%Z (i - 1)%Z) (F2 j (i - 1)%Z) (fst (Ulr1b j i)),
       src_y (phi x1 x2 (X3 g)) (phi x1 (x2 + half * dx2 g) (X3 g)) (phi x1 (x2 - half * dx2 g) (X3 g))
             (cd (U g j i)) (F2 (j + 1)%Z i) (F2 j i) (snd (Ulr1b j i)))) Ulr1b
  end.
Definition Ulr1d :=
  match s_selfg sc with
  | None => Ulr1c
  | Some _ => loop2 (jl + 1) (ju - 1) (il + 1) iu (fun j i =>
      let i1 := (i - 1)%Z in
      (src_y (Phi g j i1) (half * (Phi g j i1 + Phi g (j + 1)%Z i1)) (half * (Phi g j i1 + Phi g (j - 1)%Z i1))
             (cd (U g j i1)) (F2 (j + 1)%Z i1) (F2 j i1) (fst (Ulr1c j i)),
       src_y (Phi g j i) (half * (Phi g j i + Phi g (j + 1)%Z i)) (half * (Phi g j i + Phi g (j - 1)%Z i))
             (cd (U g j i)) (F2 (j + 1)%Z i) (F2 j i) (snd (Ulr1c j i)))) Ulr1c
  end.

(** *** Step 6: x2-interface states, lines 885-1065 *)
Definition Ulr2a := loop2 (jl + 1) ju (il + 1) (iu - 1) (fun j i =>
  (corr2 (s_mhd sc) hq1 (fst (Ulr2 j i)) (F1 (j - 1)%Z (i + 1)%Z) (F1 (j - 1)%Z i),
   corr2 (s_mhd sc) hq1 (snd (Ulr2 j i)) (F1 j (i + 1)%Z) (F1 j i))) Ulr2.
Definition Ulr2b :=
  if s_mhd sc then loop2 (jl + 1) ju (il + 1) (iu - 1) (fun j i =>
    (mhd2 hq2 (B2i g j i - B2i g (j - 1)%Z i) (U g (j - 1)%Z i) (fst (Ulr2a j i)),
     mhd2 hq2 (B2i g (j + 1)%Z i - B2i g j i) (U g j i) (snd (Ulr2a j i)))) Ulr2a
  else Ulr2a.
(** lines 982-1001: the momentum term is hdt*d*g with g = (phir-phil)*dx1i *)
Definition src_x (c r l : R) (d : R) (fr fl : cons1) (s : cons1) : cons1 :=
  let s := set_umz s (umz s - hdt * d * ((r - l) * dx1i)) in
  set_ue s (ue s - hq1 * (ud fl * (c - l) + ud fr * (r - c))).
Definition Ulr2c :=
  match s_grav sc with
  | None => Ulr2b
  | Some phi => loop2 (jl + 1) ju (il + 1) (iu - 1) (fun j i =>
      let x1 := x1c g i in let x2 := x2c g j in
      (src_x (phi x1 (x2 - dx2 g) (X3 g)) (phi (x1 + half * dx1 g) (x2 - dx2 g) (X3 g))
             (phi (x1 - half * dx1 g) (x2 - dx2 g) (X3 g)) (cd (U g (j - 1)%Z i))
             (F1 (j - 1)%Z (i + 1)%Z) (F1 (j - 1)%Z i) (fst (Ulr2b j i)),
       src_x (phi x1 x2 (X3 g)) (phi (x1 + half * dx1 g) x2 (X3 g)) (phi (x1 - half * dx1 g) x2 (X3 g))
             (cd (U g j i)) (F1 j (i + 1)%Z) (F1 j i) (snd (Ulr2b j i)))) Ulr2b
  end.
(** lines 1041-1065: here the momentum term is hdtodx1*(phir-phil)*d *)
Definition src_xs (c r l : R) (d : R) (fr fl : cons1) (s : cons1) : cons1 :=
  let s := set_umz s (umz s - hq1 * (r - l) * d) in
  set_ue s (ue s - hq1 * (ud fl * (c - l) + ud fr * (r - c))).
Definition Ulr2d :=
  match s_selfg sc with
  | None => Ulr2c
  | Some _ => loop2 (jl + 1) ju (il + 1) (iu - 1) (fun j i =>
      let j1 := (j - 1)%Z in
      (src_xs (Phi g j1 i) (half * (Phi g j1 i + Phi g j1 (i + 1)%Z)) (half * (Phi g j1 i + Phi g j1 (i - 1)%Z))
              (cd (U g j1 i)) (F1 j1 (i + 1)%Z) (F1 j1 i) (fst (Ulr2c j i)),
       src_xs (Phi g j i) (half * (Phi g j i + Phi g j (i + 1)%Z)) (half * (Phi g j i + Phi g j (i - 1)%Z))
              (cd (U g j i)) (F1 j (i + 1)%Z) (F1 j i) (snd (Ulr2c j i)))) Ulr2c
  end.
(** Step 6e, lines 1169-1187 *)
Definition Ulr1e := loop2 (jl + 1) (ju - 1) (il + 1) (iu - 1) (fun j i => both (floor_u (s_dmin sc)) (Ulr1d j i)) Ulr1d.
Definition Ulr2e := loop2 (jl + 1) (ju - 1) (il + 1) (iu - 1) (fun j i => both (floor_u (s_dmin sc)) (Ulr2d j i)) Ulr2d.

(** *** Step 8: cell-centred values at the half step, lines 1196-1371 *)
Definition needs_dhalf : bool :=
  s_mhd sc || match s_grav sc with None => false | _ => true end || match s_cool sc with None => false | _ => true end.
Definition dhalf :=
  if needs_dhalf then loop2 (jl + 1) (ju - 1) (il + 1) (iu - 1) (fun j i =>
    floor_x (s_dmin sc) (cd (U g j i) - hq1 * (ud (F1 j (i + 1)%Z) - ud (F1 j i))
                                      - hq2 * (ud (F2 (j + 1)%Z i) - ud (F2 j i)))) (z_dh z)
  else z_dh z.
Definition M1h (j i : Z) : R :=
  let u := U g j i in
  let m := cM1 u - hq1 * (umx (F1 j (i + 1)%Z) - umx (F1 j i)) - hq2 * (umz (F2 (j + 1)%Z i) - umz (F2 j i)) in
  let m := match s_grav sc with
           | None => m
           | Some phi => m - hdt * cd u * ((phi (x1c g i + half * dx1 g) (x2c g j) (X3 g)
                                            - phi (x1c g i - half * dx1 g) (x2c g j) (X3 g)) * dx1i)
           end in
  match s_selfg sc with
  | None => m
  | Some _ => m - hq1 * (half * (Phi g j i + Phi g j (i + 1)%Z) - half * (Phi g j i + Phi g j (i - 1)%Z)) * cd u
  end.
Definition M2h (j i : Z) : R :=
  let u := U g j i in
  let m := cM2 u - hq1 * (umy (F1 j (i + 1)%Z) - umy (F1 j i)) - hq2 * (umx (F2 (j + 1)%Z i) - umx (F2 j i)) in
  let m := match s_grav sc with
           | None => m
           | Some phi => m - hq2 * (phi (x1c g i) (x2c g j + half * dx2 g) (X3 g)
                                    - phi (x1c g i) (x2c g j - half * dx2 g) (X3 g)) * cd u
           end in
  match s_selfg sc with
  | None => m
  | Some _ => m - hq2 * (half * (Phi g j i + Phi g (j + 1)%Z i) - half * (Phi g j i + Phi g (j - 1)%Z i)) * cd u
  end.
Definition M3h (j i : Z) : R :=
  cM3 (U g j i) - hq1 * (umz (F1 j (i + 1)%Z) - umz (F1 j i)) - hq2 * (umy (F2 (j + 1)%Z i) - umy (F2 j i)).
Definition B1ch (j i : Z) : R := half * (B1f j i + B1f j (i + 1)%Z).
Definition B2ch (j i : Z) : R := half * (B2f j i + B2f (j + 1)%Z i).
Definition B3ch (j i : Z) : R :=
  cB3 (U g j i) - hq1 * (ubz (F1 j (i + 1)%Z) - ubz (F1 j i)) - hq2 * (uby (F2 (j + 1)%Z i) - uby (F2 j i)).
Definition phalf :=
  match s_mhd sc, s_cool sc with
  | false, None => z_ph z
  | _, _ => loop2 (jl + 1) (ju - 1) (il + 1) (iu - 1) (fun j i =>
      let Eh := cE (U g j i) - hq1 * (ue (F1 j (i + 1)%Z) - ue (F1 j i)) - hq2 * (ue (F2 (j + 1)%Z i) - ue (F2 j i)) in
      let p := Eh - half * (M1h j i * M1h j i + M2h j i * M2h j i + M3h j i * M3h j i) / dhalf j i in
      let p := if s_mhd sc then p - half * (B1ch j i * B1ch j i + B2ch j i * B2ch j i + B3ch j i * B3ch j i) else p in
      p * s_gm1 sc) (z_ph z)
  end.
Definition cch := loop2 (jl + 1) (ju - 1) (il + 1) (iu - 1) (fun j i =>
  (B1ch j i * M2h j i - B2ch j i * M1h j i) / dhalf j i) cc0.

(** *** Step 9: fluxes of the corrected states, lines 1421-1460 *)
Definition G1 := loop2 (js g - 1) (je g + 1) (is g) (ie g + 1) (fun j i =>
  let p := Ulr1e j i in let Bx := B1f j i in
  s_flux sc (fst p) (snd p) (s_c2p sc (fst p) Bx) (s_c2p sc (snd p) Bx) Bx) F1.
Definition G2 := loop2 (js g) (je g + 1) (is g - 1) (ie g + 1) (fun j i =>
  let p := Ulr2e j i in let Bx := B2f j i in
  s_flux sc (fst p) (snd p) (s_c2p sc (fst p) Bx) (s_c2p sc (snd p) Bx) Bx) F2.

(** *** Step 10: constrained transport, lines 1469-1490 *)
Definition emf := loop2 (js g - 1) (je g + 2) (is g - 1) (ie g + 2) (emf3_corner G1 G2 cch) emf0.
Definition B1i' :=
  if s_mhd sc then loop2 (js g) (je g) (is g) (ie g + 1) (fun j i =>
    B1i g j i - q2 * (emf (j + 1)%Z i - emf j i)) (B1i g) else B1i g.
Definition B2i' :=
  if s_mhd sc then loop2 (js g) (je g + 1) (is g) (ie g) (fun j i =>
    B2i g j i + q1 * (emf j (i + 1)%Z - emf j i)) (B2i g) else B2i g.

(** *** Step 11: source terms *)
(** lines 1738-1776 *)
Definition U11a :=
  match s_grav sc with
  | None => U g
  | Some phi => loop2 (js g) (je g) (is g) (ie g) (fun j i =>
      let u := U g j i in let x1 := x1c g i in let x2 := x2c g j in
      let phic := phi x1 x2 (X3 g) in
      let phir := phi (x1 + half * dx1 g) x2 (X3 g) in
      let phil := phi (x1 - half * dx1 g) x2 (X3 g) in
      let u := set_M1 u (cM1 u - dt g * dhalf j i * ((phir - phil) * dx1i)) in
      let u := set_E u (cE u - q1 * (ud (G1 j i) * (phic - phil) + ud (G1 j (i + 1)%Z) * (phir - phic))) in
      let phir := phi x1 (x2 + half * dx2 g) (X3 g) in
      let phil := phi x1 (x2 - half * dx2 g) (X3 g) in
      let u := set_M2 u (cM2 u - q2 * dhalf j i * (phir - phil)) in
      set_E u (cE u - q2 * (ud (G2 j i) * (phic - phil) + ud (G2 (j + 1)%Z i) * (phir - phic)))) (U g)
  end.
(** lines 1785-1861 *)
Definition U11b1 :=
  match s_selfg sc with
  | None => U11a
  | Some (four_pi_G, mean_rho) => loop2 (js g) (je g) (is g) (ie g) (fun j i =>
      let u := U11a j i in
      let phic := Phi g j i in
      let phil := half * (Phi g j (i - 1)%Z + Phi g j i) in
      let phir := half * (Phi g j i + Phi g j (i + 1)%Z) in
      let gxl := (Phi g j (i - 1)%Z - Phi g j i) / dx1 g in
      let gxr := (Phi g j i - Phi g j (i + 1)%Z) / dx1 g in
      let gyl := / 4 * ((Phi g (j - 1)%Z (i - 1)%Z - Phi g (j + 1)%Z (i - 1)%Z)
                        + (Phi g (j - 1)%Z i - Phi g (j + 1)%Z i)) / dx2 g in
      let gyr := / 4 * ((Phi g (j - 1)%Z i - Phi g (j + 1)%Z i)
                        + (Phi g (j - 1)%Z (i + 1)%Z - Phi g (j + 1)%Z (i + 1)%Z)) / dx2 g in
      let flux_m1l := half * (gxl * gxl - gyl * gyl) / four_pi_G + mean_rho * phil in
      let flux_m1r := half * (gxr * gxr - gyr * gyr) / four_pi_G + mean_rho * phir in
      let flux_m2l := gxl * gyl / four_pi_G in
      let flux_m2r := gxr * gyr / four_pi_G in
      let u := set_M1 u (cM1 u - q1 * (flux_m1r - flux_m1l)) in
      let u := set_M2 u (cM2 u - q1 * (flux_m2r - flux_m2l)) in
      set_E u (cE u - q1 * (ud (G1 j i) * (phic - phil) + ud (G1 j (i + 1)%Z) * (phir - phic)))) U11a
  end.
Definition U11b :=
  match s_selfg sc with
  | None => U11b1
  | Some (four_pi_G, mean_rho) => loop2 (js g) (je g) (is g) (ie g) (fun j i =>
      let u := U11b1 j i in
      let phic := Phi g j i in
      let phil := half * (Phi g (j - 1)%Z i + Phi g j i) in
      let phir := half * (Phi g j i + Phi g (j + 1)%Z i) in
      let gxl := / 4 * ((Phi g (j - 1)%Z (i - 1)%Z - Phi g (j - 1)%Z (i + 1)%Z)
                        + (Phi g j (i - 1)%Z - Phi g j (i + 1)%Z)) / dx1 g in
      let gxr := / 4 * ((Phi g j (i - 1)%Z - Phi g j (i + 1)%Z)
                        + (Phi g (j + 1)%Z (i - 1)%Z - Phi g (j + 1)%Z (i + 1)%Z)) / dx1 g in
      let gyl := (Phi g (j - 1)%Z i - Phi g j i) / dx2 g in
      let gyr := (Phi g j i - Phi g (j + 1)%Z i) / dx2 g in
      let flux_m1l := gyl * gxl / four_pi_G in
      let flux_m1r := gyr * gxr / four_pi_G in
      let flux_m2l := half * (gyl * gyl - gxl * gxl) / four_pi_G + mean_rho * phil in
      let flux_m2r := half * (gyr * gyr - gxr * gxr) / four_pi_G + mean_rho * phir in
      let u := set_M1 u (cM1 u - q2 * (flux_m1r - flux_m1l)) in
      let u := set_M2 u (cM2 u - q2 * (flux_m2r - flux_m2l)) in
      set_E u (cE u - q2 * (ud (G2 j i) * (phic - phil) + ud (G2 (j + 1)%Z i) * (phir - phic)))) U11b1
  end.
Definition mass1 :=
  match s_selfg sc with None => x1Mass g
  | Some _ => loop2 (js g) (je g + 1) (is g) (ie g + 1) (fun j i => ud (G1 j i)) (x1Mass g) end.
Definition mass2 :=
  match s_selfg sc with None => x2Mass g
  | Some _ => loop2 (js g) (je g + 1) (is g) (ie g + 1) (fun j i => ud (G2 j i)) (x2Mass g) end.
(** lines 1868-1875 *)
Definition U11c :=
  match s_cool sc with
  | None => U11b
  | Some f => loop2 (js g) (je g) (is g) (ie g) (fun j i =>
      set_E (U11b j i) (cE (U11b j i) - dt g * f (dhalf j i) (phalf j i) (dt g))) U11b
  end.

(** *** Step 12, lines 1901-1969 *)
Definition U12a := loop2 (js g) (je g) (is g) (ie g) (fun j i =>
  upd1 q1 (s_mhd sc) (s_mhd sc) (U11c j i) (G1 j (i + 1)%Z) (G1 j i)) U11c.
Definition U12b := loop2 (js g) (je g) (is g) (ie g) (fun j i =>
  upd2 q2 (s_mhd sc) (s_mhd sc) (U12a j i) (G2 (j + 1)%Z i) (G2 j i)) U12a.
Definition U12 :=
  if s_mhd sc then loop2 (js g) (je g) (is g) (ie g) (fun j i =>
    let u := set_B1 (U12b j i) (half * (B1i' j i + B1i' j (i + 1)%Z)) in
    set_B2 u (half * (B2i' j i + B2i' (j + 1)%Z i))) U12b
  else U12b.
Definition B3i' :=
  if s_mhd sc then loop2 (js g) (je g) (is g) (ie g) (fun j i => cB3 (U12 j i)) (B3i g) else B3i g.
Definition integrate_2d_ctu : grid2 :=
  Grid2 (is g) (ie g) (js g) (je g) (dt g) (dx1 g) (dx2 g) (MinX1 g) (MinX2 g) (X3 g)
    U12 B1i' B2i' B3i' (Phi g) mass1 mass2.
End Ctu2.
