(** * Binning of particles to the grid and the particle list: src/particles/output_particle.c

    Over the reals.  The particle array is a list of particles with their density dpar (the part of parsub used here).  The
    exchange of ghost zones that ends particle_to_grid is a parameter: it is the subject of C100.  Conversion to float and
    the numbers of the header other than the count are left out. *)
From Coq Require Import ZArith Bool Reals List.
From Verif Require Import CStr MeshModel PosModel GasModel IntegModel PartModel.
Import ListNotations.
Open Scope R_scope.

Section Bin.
(** Interpolation scheme, cells and limits of the Grid, and the mass of a kind: grproperty[].m with FEEDBACK, 1 without. *)
Variables (m : interp) (Nx : axis -> Z) (pG : pgrid) (L : plim) (drho : Z -> R).

(** output_particle.c:85-93 *)
Definition bin_clear (Coup : cells gpc) : cells gpc :=
  loop3 (l_lo L X3) (l_up L X3) (l_lo L X2) (l_up L X2) (l_lo L X1) (l_up L X1)
    (fun k j i => let q := Coup k j i in Gpc 0 (V3 0 0 0) (gcs q) (fb q) (FBstiff q) (Eloss q)) Coup.
(** output_particle.c:119-122 *)
Definition bin_add (w dr : R) (v : v3) (q : gpc) : gpc :=
  Gpc (gd q + w * dr) (V3 (q1 (gv q) + w * dr * q1 v) (q2 (gv q) + w * dr * q2 v) (q3 (gv q) + w * dr * q3 v)) (gcs q) (fb q) (FBstiff q) (Eloss q).
(** output_particle.c:104-126 *)
Definition bin_one (W : weights) (dr : R) (v : v3) (Coup : cells gpc) : cells gpc :=
  let '(weight, is, js, ks) := W in
  let n0 := (ncell m - 1)%Z in
  let k1 := Z.max ks (l_lo L X3) in let k2 := Z.min (ks + n0) (l_up L X3) in
  let j1 := Z.max js (l_lo L X2) in let j2 := Z.min (js + n0) (l_up L X2) in
  let i1 := Z.max is (l_lo L X1) in let i2 := Z.min (is + n0) (l_up L X1) in
  loop3 k1 k2 j1 j2 i1 i2 (fun k j i => bin_add (weight (k - k1)%Z (j - j1)%Z (i - i1)%Z) dr v (Coup k j i)) Coup.
(** output_particle.c:96-129; [sel] is par_prop. *)
Fixpoint bin_all (sel : grain -> R -> bool) (ps : list (grain * R)) (Coup : cells gpc) : res (cells gpc) :=
  match ps with
  | [] => Ok Coup
  | (g, d) :: ps =>
      if sel g d then
        W <- getweight m pG (g_x g) (cell1_of Nx pG) junk;;
        bin_all sel ps (bin_one W (drho (g_type g)) (g_v g) Coup)
      else bin_all sel ps Coup
  end.
(** output_particle.c:63-135; [exch] is exchange_gpcouple(pD,0). *)
Definition particle_to_grid (exch : cells gpc -> res (cells gpc)) (sel : grain -> R -> bool) (ps : list (grain * R)) (Coup : cells gpc) : res (cells gpc) :=
  C <- bin_all sel ps (bin_clear Coup);; exch C.

(** output_particle.c:297-331; [b] is the component. *)
Definition expr_Vpar (b : v3 -> R) (Coup : cells gpc) (i j k : Z) : R :=
  if Rlt_dec 0 (gd (Coup k j i)) then b (gv (Coup k j i)) / gd (Coup k j i) else 0.

(** output_particle.c:271-278 *)
Definition property_all (g : grain) (d : R) : bool := true.
(** output_particle.c:176-190: the density at each particle; getvalues leaves dpar unset if no cell is in reach. *)
Fixpoint set_dpar (iso : option R) (Coup : cells gpc) (ps : list (grain * R)) : res (list (grain * R)) :=
  match ps with
  | [] => Ok []
  | (g, _) :: ps =>
      W <- getweight m pG (g_x g) (cell1_of Nx pG) junk;;
      V <- lift (getvalues iso L m Coup W);;
      r <- set_dpar iso Coup ps;; Ok ((g, v_rho V) :: r)
  end.
(** A record of the file: x, v, dpar, property, my_id. *)
Record lisrec := Lis { li_x : v3; li_v : v3; li_d : R; li_type : Z; li_id : Z }.
(** output_particle.c:193-196 *)
Definition nout_of (sel : grain -> R -> bool) (ps : list (grain * R)) : Z :=
  fold_left (fun n p => if sel (fst p) (snd p) then (n + 1)%Z else n) ps 0%Z.
(** output_particle.c:234-263 *)
Fixpoint write_all (sel : grain -> R -> bool) (ps : list (grain * R)) : list lisrec :=
  match ps with
  | [] => []
  | (g, d) :: ps => if sel g d then Lis (g_x g) (g_v g) d (g_type g) (g_id g) :: write_all sel ps else write_all sel ps
  end.
(** output_particle.c:141-269: the count and the records. *)
Definition dump_particle_binary (iso : option R) (exch : cells gpc -> res (cells gpc)) (sel : grain -> R -> bool) (ps : list (grain * R)) (Coup : cells gpc)
  : res (Z * list lisrec) :=
  C <- particle_to_grid exch property_all ps Coup;;
  ps <- set_dpar iso C ps;;
  Ok (nout_of sel ps, write_all sel ps).
End Bin.
