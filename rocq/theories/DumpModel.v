(** * Table and binary dumps of all variables: src/dump_tab.c, src/dump_binary.c

    A table is its column header (number and name of every column, in order) and its rows; the text
    of a row is modelled with [pr x] for what the format of the block prints for a real number after
    the blank put in front of it.  A binary file is its bytes; [i4] and [r8] are the bytes of an int and a Real.
    Not modelled: the comment lines in front of the column header but for the sizes, opening of the
    file and its name (C10, C11), failure of malloc. *)
From Coq Require Import String Ascii NArith ZArith Reals Bool Arith List.
From Verif Require Import CStr MeshModel PosModel GasModel VtkModel.
Import ListNotations.
Open Scope Z_scope.

(** il .. ku: dump_tab.c:91-113, 342-364, dump_binary.c:55-72; [wg] is WRITE_GHOST_CELLS. *)
Definition ghosts (wg : bool) (Nx : axis -> Z) (a : axis) : bool := wg && match a with X1 => true | _ => 1 <? Nx a end.
Definition dump_lo (wg : bool) (nghost : Z) (Nx s : axis -> Z) (a : axis) : Z := if ghosts wg Nx a then s a - nghost else s a.
Definition dump_hi (wg : bool) (nghost : Z) (Nx e : axis -> Z) (a : axis) : Z := if ghosts wg Nx a then e a + nghost else e a.

(** ** dump_tab_cons, dump_tab_prim *)
(** A number of a row: a zone index or a real number. *)
Inductive entry := Zone (n : Z) | Num (x : R).
(** fprintf(pfile," [%d]=name",col_cnt); col_cnt++; *)
Definition col (name : str) (h : Z * list (Z * str)) : Z * list (Z * str) := let '(col_cnt, l) := h in (col_cnt + 1, l ++ [(col_cnt, name)]).
Definition col_if (b : bool) (name : str) (h : Z * list (Z * str)) : Z * list (Z * str) := if b then col name h else h.
(** dump_tab.c:119-130, 370-381: the lines "# Nx1 = .." and "# x1-size = .." *)
Definition tab_sizes (Nx lo hi : axis -> Z) (dx : axis -> R) : list (axis * Z * R) :=
  flat_map (fun a => if 1 <? Nx a then [(a, hi a - lo a + 1, (IZR (hi a - lo a + 1) * dx a)%R)] else []) [X1; X2; X3].
(** dump_tab.c:134-216 (conserved), 385-465 (primitive; line 400 writes x1 without asking for Nx[0] > 1). *)
Definition tab_header (c : vcfg) (Nx : axis -> Z) : list (Z * str) :=
  let p := vc_prim c in
  let h := (1, []) in
  let h := col (S_ "i-zone") h in
  let h := col_if (2 <? Nx X2) (S_ "j-zone") h in
  let h := col_if (3 <? Nx X3) (S_ "k-zone") h in
  let h := col_if (p || (1 <? Nx X1)) (S_ "x1") h in
  let h := col_if (2 <? Nx X2) (S_ "x2") h in
  let h := col_if (3 <? Nx X3) (S_ "x3") h in
  let h := col (S_ "d") h in
  let h := col (if p then S_ "V1" else S_ "M1") h in
  let h := col (if p then S_ "V2" else S_ "M2") h in
  let h := col (if p then S_ "V3" else S_ "M3") h in
  let h := col_if (vc_adb c) (if p then S_ "P" else S_ "E") h in
  let h := col_if (vc_mhd c) (S_ "B1c") h in
  let h := col_if (vc_mhd c) (S_ "B2c") h in
  let h := col_if (vc_mhd c) (S_ "B3c") h in
  let h := col_if (vc_selfg c) (S_ "Phi") h in
  let h := col_if (vc_par c) (S_ "dpar") h in
  let h := col_if (vc_par c) (if p then S_ "V1par" else S_ "M1par") h in
  let h := col_if (vc_par c) (if p then S_ "V2par" else S_ "M2par") h in
  let h := col_if (vc_par c) (if p then S_ "V3par" else S_ "M3par") h in
  snd (fold_left (fun h n => col (S_ "s" ++ dec_N (N.of_nat n)) h) (seq 0 (vc_ns c)) h).
(** dump_tab.c:223-263, 472-512: the numbers of the row of cell (k,j,i). *)
Definition tab_row (c : vcfg) (pG : pgrid) (Nx : axis -> Z) (G : vgrid) (k j i : Z) : list entry :=
  let '(x1, x2, x3) := cc_pos pG i j k in
  let U := vg_U G k j i in
  let W := vg_W G k j i in
  let p := vc_prim c in
  (if 1 <? Nx X1 then [Zone i] else []) ++
  (if 1 <? Nx X2 then [Zone j] else []) ++
  (if 1 <? Nx X3 then [Zone k] else []) ++
  (if 1 <? Nx X1 then [Num x1] else []) ++
  (if 1 <? Nx X2 then [Num x2] else []) ++
  (if 1 <? Nx X3 then [Num x3] else []) ++
  (if p then [Num (pd W); Num (pV1 W); Num (pV2 W); Num (pV3 W)] else [Num (cd U); Num (cM1 U); Num (cM2 U); Num (cM3 U)]) ++
  (if vc_adb c then [Num (if p then pP W else cE U)] else []) ++
  (if vc_mhd c then if p then [Num (pB1 W); Num (pB2 W); Num (pB3 W)] else [Num (cB1 U); Num (cB2 U); Num (cB3 U)] else []) ++
  (if vc_selfg c then [Num (vg_Phi G k j i)] else []) ++
  (if vc_par c then
    let '(gd, (v1, v2, v3)) := vg_par G k j i in
    if p then
      let d1 := if Rlt_dec 0 gd then (1 / gd)%R else 0%R in
      [Num gd; Num (v1 * d1); Num (v2 * d1); Num (v3 * d1)]%R
    else [Num gd; Num v1; Num v2; Num v3]
   else []) ++
  map (fun n => Num (nth n (if p then pr W else cs U) 0%R)) (seq 0 (vc_ns c)).
Definition tab_rows (c : vcfg) (pG : pgrid) (Nx lo hi : axis -> Z) (G : vgrid) : list (list entry) :=
  flat_map (fun k => flat_map (fun j => map (fun i => tab_row c pG Nx G k j i) (zr (lo X1) (hi X1))) (zr (lo X2) (hi X2))) (zr (lo X3) (hi X3)).
(** zone_fmt, dump_tab.c:97-115, 348-366: "%wd" with w = (int)(2+log10(nmax)). *)
Definition log10 (x : R) : R := (ln x / ln 10)%R.
Definition tab_nmax (wg : bool) (nghost : Z) (Nx : axis -> Z) : Z :=
  let nmax := if Nx X2 <? Nx X1 then Nx X1 else Nx X2 in
  let nmax := if nmax <? Nx X3 then Nx X3 else nmax in
  if wg then nmax + 2 * nghost else nmax.
Definition zone_width (nmax : Z) : res Z := c_int (2 + log10 (IZR nmax)).
Definition SP : ascii := " "%char.
Definition pad (w : Z) (s : str) : str := repeat SP (Z.to_nat w - length s) ++ s.
Definition entry_text (pr : R -> str) (w : Z) (e : entry) : str := match e with Zone n => pad w (dec_Z n) | Num x => SP :: pr x end.
Definition row_text (pr : R -> str) (w : Z) (row : list entry) : str := flat_map (entry_text pr w) row ++ [LF].

(** ** dump_binary *)
(** ConsS and PrimS seen as arrays of Real (athena.h:64-98); the address of the structure plus n is member n. *)
Definition cons_words (c : vcfg) (U : cons) : list R :=
  [cd U; cM1 U; cM2 U; cM3 U] ++ (if vc_adb c then [cE U] else []) ++ (if vc_mhd c then [cB1 U; cB2 U; cB3 U] else []) ++ map (fun n => nth n (cs U) 0%R) (seq 0 (vc_ns c)).
Definition prim_words (c : vcfg) (W : prim) : list R :=
  [pd W; pV1 W; pV2 W; pV3 W] ++ (if vc_adb c then [pP W] else []) ++ (if vc_mhd c then [pB1 W; pB2 W; pB3 W] else []) ++ map (fun n => nth n (pr W) 0%R) (seq 0 (vc_ns c)).
(** defs.h.in:164-178 *)
Definition NVAR (c : vcfg) : nat := ((if vc_adb c then 5 else 4) + (if vc_mhd c then 3 else 0) + vc_ns c)%nat.
(** Rows of one variable: for k, for j { for i datax[i] = ..; fwrite } *)
Definition bin_var (r8 : R -> str) (lo hi : axis -> Z) (f : Z -> Z -> Z -> R) : str :=
  flat_map (fun k => flat_map (fun j => flat_map (fun i => r8 (f k j i)) (zr (lo X1) (hi X1))) (zr (lo X2) (hi X2))) (zr (lo X3) (hi X3)).
(** dump_binary.c:74-76, 112-256.  [particles]: PARTICLES; [vc_par]: PARTICLES and out_pargrid;
    [eos]: the pair (Gamma_1, 0), (0, Iso_csound) or (0, 0) of lines 140-149. *)
Definition bin_dump (i4 : Z -> str) (r8 : R -> str) (coordsys : Z) (particles : bool) (eos : R * R) (time dt : R)
    (c : vcfg) (pG : pgrid) (lo hi : axis -> Z) (G : vgrid) : str :=
  i4 coordsys ++
  flat_map i4 [hi X1 - lo X1 + 1; hi X2 - lo X2 + 1; hi X3 - lo X3 + 1; Z.of_nat (NVAR c); Z.of_nat (vc_ns c);
               if vc_selfg c then 1 else 0; if particles then 1 else 0] ++
  flat_map r8 [fst eos; snd eos] ++
  flat_map r8 [time; dt] ++
  flat_map (fun i => r8 (fst (fst (cc_pos pG i (lo X2) (lo X3))))) (zr (lo X1) (hi X1)) ++
  flat_map (fun j => r8 (snd (fst (cc_pos pG (lo X1) j (lo X3))))) (zr (lo X2) (hi X2)) ++
  flat_map (fun k => r8 (snd (cc_pos pG (lo X1) (lo X2) k))) (zr (lo X3) (hi X3)) ++
  flat_map (fun n => bin_var r8 lo hi (fun k j i => nth n (if vc_prim c then prim_words c (vg_W G k j i) else cons_words c (vg_U G k j i)) 0%R)) (seq 0 (NVAR c)) ++
  (if vc_selfg c then bin_var r8 lo hi (vg_Phi G) else []) ++
  (if vc_par c then
    bin_var r8 lo hi (fun k j i => fst (vg_par G k j i)) ++
    bin_var r8 lo hi (fun k j i => fst (fst (snd (vg_par G k j i)))) ++
    bin_var r8 lo hi (fun k j i => snd (fst (snd (vg_par G k j i)))) ++
    bin_var r8 lo hi (fun k j i => snd (snd (vg_par G k j i)))
   else []).
