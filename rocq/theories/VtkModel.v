(** * VTK dumps and the tool that joins them
    src/dump_vtk.c and vis/vtk/join_vtk.c.

    A file is its header, as the values a reader gets from it, and the bytes that follow the
    CELL_DATA line.  Numbers of the header printed with "%d" are integers; [e6 x] is the value
    read with "%le" from what "%e" prints for [x] (seven significant digits).  [enc x] are the four
    bytes written for [(float)x] after [ath_bswap].  The comment line is an argument: it shows
    time, level and Domain, which are equal for all Grids of a Domain.
    Compiled without WRITE_GHOST_CELLS; the tool is compiled as its line 13 says, with assertions.
    Not modelled: failure of malloc and fopen, overflow of [int], messages on the terminal,
    parsing of the command line of the tool (it is given the list of input files). *)
From Coq Require Import String Ascii NArith ZArith Reals Bool Arith Lia List.
From Verif Require Import CStr MeshModel PosModel GasModel.
Import ListNotations.
Open Scope Z_scope.

Record vfile := VF { v_comment : str; v_dims : axis -> Z; v_origin : axis -> R; v_spacing : axis -> R; v_cells : Z; v_body : str }.

(** ** dump_vtk *)
(** The data of one Grid that can be written: conserved variables, their image under
    [Cons_to_Prim] (dump_vtk.c:84), potential, binned particles (density and velocity). *)
Record vgrid := VG { vg_U : Z -> Z -> Z -> cons; vg_W : Z -> Z -> Z -> prim; vg_Phi : Z -> Z -> Z -> R; vg_par : Z -> Z -> Z -> R * (R * R * R) }.
(** Configuration: BAROTROPIC unset, MHD, SELF_GRAVITY, PARTICLES with out_pargrid, NSCALARS;
    [vc_prim]: the output block asks for "prim" and not for "cons". *)
Record vcfg := VC { vc_adb : bool; vc_mhd : bool; vc_selfg : bool; vc_par : bool; vc_ns : nat; vc_prim : bool }.
(** One data set: VECTORS or SCALARS, its name, and the numbers written for a cell. *)
Record fld := Fld { f_vec : bool; f_name : str; f_val : Z -> Z -> Z -> list R }.
(** The data sets in the order of dump_vtk.c:155-318. *)
Definition vtk_fields (c : vcfg) (G : vgrid) : list fld :=
  let p := vc_prim c in
  [Fld false (S_ "density") (fun k j i => [if p then pd (vg_W G k j i) else cd (vg_U G k j i)]);
   Fld true (if p then S_ "velocity" else S_ "momentum")
     (fun k j i => if p then [pV1 (vg_W G k j i); pV2 (vg_W G k j i); pV3 (vg_W G k j i)] else [cM1 (vg_U G k j i); cM2 (vg_U G k j i); cM3 (vg_U G k j i)])] ++
  (if vc_adb c then [Fld false (if p then S_ "pressure" else S_ "total_energy") (fun k j i => [if p then pP (vg_W G k j i) else cE (vg_U G k j i)])] else []) ++
  (if vc_mhd c then [Fld true (S_ "cell_centered_B") (fun k j i => [cB1 (vg_U G k j i); cB2 (vg_U G k j i); cB3 (vg_U G k j i)])] else []) ++
  (if vc_selfg c then [Fld false (S_ "gravitational_potential") (fun k j i => [vg_Phi G k j i])] else []) ++
  (if vc_par c then
    [Fld false (S_ "particle_density") (fun k j i => [fst (vg_par G k j i)]);
     Fld true (S_ "particle_momentum") (fun k j i => let '(v1, v2, v3) := snd (vg_par G k j i) in [v1; v2; v3])] else []) ++
  map (fun n => Fld false ((if p then S_ "specific_scalar[" else S_ "scalar[") ++ dec_N (N.of_nat n) ++ S_ "]")
    (fun k j i => [nth n (if p then pr (vg_W G k j i) else cs (vg_U G k j i)) 0%R])) (seq 0 (vc_ns c)).
(** The text before the data; every data set but the first begins a new line
    (dump_vtk.c:157-158, 177-179, 203-208, ...). *)
Definition fld_text (f : fld) : str :=
  (if f_vec f then S_ "VECTORS " else S_ "SCALARS ") ++ f_name f ++ S_ " float" ++ [LF] ++ (if f_vec f then [] else S_ "LOOKUP_TABLE default" ++ [LF]).
Definition zr (l u : Z) : list Z := map (fun n => l + Z.of_nat n) (seq 0 (Z.to_nat (u - l + 1))).
(** The triple loop writing the rows (dump_vtk.c:159-171 and the same below).  The temporary row
    [data] of [3*ndata0] numbers is left out. *)
Definition fld_data (enc : R -> str) (s e : axis -> Z) (f : fld) : str :=
  flat_map (fun k => flat_map (fun j => flat_map (fun i => flat_map enc (f_val f k j i)) (zr (s X1) (e X1))) (zr (s X2) (e X2))) (zr (s X3) (e X3)).
Definition fld_bytes (enc : R -> str) (s e : axis -> Z) (f : fld) : str := fld_text f ++ fld_data enc s e f.
(** The bytes after the header. *)
Definition vtk_body (enc : R -> str) (s e : axis -> Z) (fs : list fld) : str :=
  match fs with
  | [] => []
  | f :: fs' => fld_bytes enc s e f ++ flat_map (fun g => LF :: fld_bytes enc s e g) fs'
  end.
(** DIMENSIONS (dump_vtk.c:140-148). *)
Definition vtk_dims (Nx s e : axis -> Z) (a : axis) : Z :=
  match a with
  | X1 => e X1 - s X1 + 2
  | X2 => if Nx X2 =? 1 then 1 else e X2 - s X2 + 2
  | X3 => if Nx X2 =? 1 then 1 else if Nx X3 =? 1 then 1 else e X3 - s X3 + 2
  end.
(** The file of one Grid (dump_vtk.c:57-327): [Nx], [s], [e] are its sizes and first and last active indices. *)
Definition dump_vtk (e6 : R -> R) (enc : R -> str) (comment : str) (c : vcfg) (pg : pgrid) (Nx s e : axis -> Z) (G : vgrid) : vfile :=
  let '(x1, x2, x3) := fc_pos pg (s X1) (s X2) (s X3) in
  VF comment (vtk_dims Nx s e) (fun a => e6 (match a with X1 => x1 | X2 => x2 | X3 => x3 end)) (fun a => e6 (p_dx pg a))
    ((e X1 - s X1 + 1) * (e X2 - s X2 + 1) * (e X3 - s X3 + 1)) (vtk_body enc s e (vtk_fields c G)).

(** ** join_vtk *)
(** [VTK_Domain] (join_vtk.c:53-61): the file, the number of cells along each axis. *)
Record vdom := VD { vd_file : vfile; vd_N : axis -> Z }.
(** init_domain_1d (join_vtk.c:220-292): corners to cells, check of CELL_DATA. *)
Definition init_domain (f : vfile) : res vdom :=
  let N := fun a => if 1 <? v_dims f a then v_dims f a - 1 else v_dims f a in
  if v_cells f =? N X1 * N X2 * N X3 then Ok (VD f N) else Fatal.
Fixpoint init_domains (fs : list vfile) : res (list vdom) :=
  match fs with
  | [] => Ok []
  | f :: fs' => d <- init_domain f;; ds <- init_domains fs';; Ok (d :: ds)
  end.
(** Counting strictly larger origins along the sorted list (join_vtk.c:333-342, 359-367). *)
Definition vorigin (a : axis) (d : vdom) : R := v_origin (vd_file d) a.
Fixpoint count_up (a : axis) (o : R) (n : nat) (l : list vdom) : nat :=
  match l with
  | [] => n
  | d :: l' => if Rlt_dec o (vorigin a d) then count_up a (vorigin a d) (S n) l' else count_up a o n l'
  end.
Definition count_distinct (a : axis) (l : list vdom) : res nat :=
  match l with [] => UB | d :: l' => Ok (count_up a (vorigin a d) 1 l') end.
(** The [n] consecutive groups of [len] elements. *)
Definition groups (n len : nat) (l : list vdom) : list (list vdom) := map (fun i => firstn len (skipn (i * len) l)) (seq 0 n).
(** sort_domain_1d (join_vtk.c:324-404); [qs a] is [qsort] with [compare_ox], [compare_oy] or
    [compare_oz].  Returns the sorted list and NGrid_x, NGrid_y, NGrid_z. *)
Definition sort_domain_1d (qs : axis -> list vdom -> list vdom) (l : list vdom) : res (list vdom * nat * nat * nat) :=
  let l := qs X3 l in
  zcount <- count_distinct X3 l;;
  if negb (length l mod zcount =? 0)%nat then Fatal else
  let xy_cnt := (length l / zcount)%nat in
  let gs := map (qs X2) (groups zcount xy_cnt l) in
  ycount <- count_distinct X2 (hd [] gs);;
  if negb (xy_cnt mod ycount =? 0)%nat then Fatal else
  let xcount := (xy_cnt / ycount)%nat in
  let l := concat (map (qs X1) (groups (ycount * zcount) xcount (concat gs))) in
  Ok (l, xcount, ycount, zcount).

(** ** Reading *)
(** White space is skipped from position [p]; a "%s" conversion takes the bytes up to the next white
    space, and fails at the end of the file. *)
Fixpoint span_space (l : str) : nat := match l with c :: l' => if isspace c then S (span_space l') else O | [] => O end.
Fixpoint span_word (l : str) : nat := match l with c :: l' => if isspace c then O else S (span_word l') | [] => O end.
Definition scan_s (b : str) (p : nat) : res (option (str * nat)) :=
  let p := (p + span_space (skipn p b))%nat in
  let n := span_word (skipn p b) in
  if (n =? 0)%nat then Ok None else if (128 <=? n)%nat then UB else Ok (Some (firstn n (skipn p b), (p + n)%nat)).
(** fscanf(fp,"%s %s %s\n",...): [None] is EOF.  When only one or two words are found the other
    buffers keep what they had, which is not modelled ([UB]). *)
Definition scan3 (b : str) (p : nat) : res (option (str * str * str * nat)) :=
  x <- scan_s b p;;
  match x with
  | None => Ok None
  | Some (t, p) =>
    y <- scan_s b p;; z <- (match y with None => UB | Some (v, p) => z <- scan_s b p;; Ok (v, z) end);;
    match z with
    | (v, Some (w, p)) => Ok (Some (t, v, w, (p + span_space (skipn p b))%nat))
    | _ => UB
    end
  end.
(** fscanf(fp,"%s %s\n",...). *)
Definition scan2 (b : str) (p : nat) : res (str * str * nat) :=
  x <- scan_s b p;;
  match x with
  | None => UB
  | Some (t, p) => y <- scan_s b p;; match y with None => UB | Some (v, p) => Ok (t, v, (p + span_space (skipn p b))%nat) end
  end.
(** Going back over the white space to the character after the last word, which must be a newline
    (join_vtk.c:613-617).  The argument is the position in front of which the next byte is read. *)
Fixpoint back (b : str) (p : nat) : res nat :=
  match p with
  | O => Fatal
  | S q =>
    match nth_error b q with
    | None => UB
    | Some c => if isspace c then back b q else
      match nth_error b p with Some c' => if Ascii.eqb c' LF then Ok (S p) else Fatal | None => Fatal end
    end
  end.
(** One field header in one file (join_vtk.c:574-619).  [want]: what the first file says, or [None]
    when this is the first file.  The result [None] is the end of the file. *)
Definition read_head (want : option (str * str * str)) (b : str) (p : nat) : res (option (str * str * str * nat)) :=
  h <- scan3 b p;;
  match h with
  | None => Ok None
  | Some (t, v, w, p) =>
    let good := match want with
      | None => str_eqb w (S_ "float")
      | Some (t0, v0, w0) => str_eqb t0 t && str_eqb v0 v && str_eqb w0 w
      end in
    if negb good then Fatal else
    p <- (if str_eqb t (S_ "SCALARS") then
            q <- scan2 b p;; let '(t', f', p) := q in
            if str_eqb t' (S_ "LOOKUP_TABLE") && str_eqb f' (S_ "default") then Ok p else Fatal
          else Ok p);;
    p <- back b p;;
    Ok (Some (t, v, w, p))
  end.
(** The position kept for each file. *)
Definition posn := nat -> nat.
Definition setp (P : posn) (n v : nat) : posn := fun m => if (m =? n)%nat then v else P m.
Definition body_of (ds : list vdom) (n : nat) : str := match nth_error ds n with Some d => v_body (vd_file d) | None => [] end.
(** The headers of files number 1, 2, ... in [k][j][i] order (join_vtk.c:565-623); [None]: one of them ended early. *)
Fixpoint read_heads (want : str * str * str) (ds : list vdom) (ns : list nat) (P : posn) : res (option posn) :=
  match ns with
  | [] => Ok (Some P)
  | n :: ns' =>
    h <- read_head (Some want) (body_of ds n) (P n);;
    match h with None => Ok None | Some (_, p) => read_heads want ds ns' (setp P n p) end
  end.
Fixpoint loop {St} (n : nat) (f : nat -> St -> res St) (k : nat) (s : St) : res St :=
  match n with O => Ok s | S n' => s <- f k s;; loop n' f (S k) s end.
Definition vN (ds : list vdom) (n : nat) (a : axis) : nat := match nth_error ds n with Some d => Z.to_nat (vd_N d a) | None => O end.
(** fread of [4*w] bytes, fwrite of the same (join_vtk.c:436-439, 491-494). *)
Definition copy_cell (w : nat) (ds : list vdom) (n : nat) (st : posn * str) : res (posn * str) :=
  let (P, out) := st in
  let x := firstn (4 * w) (skipn (P n) (body_of ds n)) in
  if (length x =? 4 * w)%nat then Ok (setp P n (P n + 4 * w)%nat, out ++ x) else Fatal.
(** read_write_scalar ([w = 1]) and read_write_vector ([w = 3]) (join_vtk.c:410-511). *)
Definition read_write (w : nat) (ds : list vdom) (nx ny nz : nat) (st : posn * str) : res (posn * str) :=
  loop nz (fun kg => loop (vN ds (kg * ny * nx) X3) (fun _ => loop ny (fun jg => loop (vN ds (jg * nx) X2) (fun _ =>
    loop nx (fun ig => loop (vN ds ig X1) (fun _ => copy_cell w ds ((kg * ny + jg) * nx + ig)) 0%nat) 0%nat) 0%nat) 0%nat) 0%nat) 0%nat st.
(** The while loop (join_vtk.c:564-639); every round reads at least one byte of the first file, so
    [fuel] larger than its length is enough. *)
Fixpoint join_loop (fuel : nat) (ds : list vdom) (nx ny nz : nat) (P : posn) (out : str) : res str :=
  match fuel with
  | O => UB
  | S fuel' =>
    h <- read_head None (body_of ds 0) (P 0%nat);;
    match h with
    | None => Ok out
    | Some (t, v, w, p) =>
      r <- read_heads (t, v, w) ds (seq 1 (length ds - 1)) (setp P 0 p);;
      match r with
      | None => Ok out
      | Some P =>
        let out := out ++ t ++ [chSP] ++ v ++ [chSP] ++ w ++ [LF] in
        if str_eqb t (S_ "SCALARS") then
          st <- read_write 1 ds nx ny nz (P, out ++ S_ "LOOKUP_TABLE default" ++ [LF]);; join_loop fuel' ds nx ny nz (fst st) (snd st)
        else if str_eqb t (S_ "VECTORS") then
          st <- read_write 3 ds nx ny nz (P, out);; join_loop fuel' ds nx ny nz (fst st) (snd st)
        else Fatal
      end
    end
  end.
(** write_joined_vtk (join_vtk.c:517-642). *)
Definition sum_N (ds : list vdom) (a : axis) (ns : list nat) : Z := fold_right Z.add 0 (map (fun n => match nth_error ds n with Some d => vd_N d a | None => 0 end) ns).
Definition write_joined_vtk (e6 : R -> R) (ds : list vdom) (nx ny nz : nat) : res vfile :=
  match ds with
  | [] => UB
  | d0 :: _ =>
    let nt := fun a => match a with
      | X1 => sum_N ds X1 (seq 0 nx)
      | X2 => sum_N ds X2 (map (fun j => (j * nx)%nat) (seq 0 ny))
      | X3 => sum_N ds X3 (map (fun k => (k * ny * nx)%nat) (seq 0 nz))
      end in
    let dx := v_spacing (vd_file d0) in
    let np := fun a => if (1 <=? nt a) && (if Rlt_dec 0 (dx a) then true else false) then nt a + 1 else nt a in
    b <- join_loop (S (length (v_body (vd_file d0)))) ds nx ny nz (fun _ => O) [];;
    Ok (VF (v_comment (vd_file d0)) np (fun a => e6 (v_origin (vd_file d0) a)) (fun a => e6 (dx a)) (nt X1 * nt X2 * nt X3) b)
  end.
(** main (join_vtk.c:75-190): at least two input files. *)
Definition join_vtk (e6 : R -> R) (qs : axis -> list vdom -> list vdom) (fs : list vfile) : res vfile :=
  if (length fs <? 2)%nat then Fatal else
  ds <- init_domains fs;;
  s <- sort_domain_1d qs ds;;
  let '(ds, nx, ny, nz) := s in
  write_joined_vtk e6 ds nx ny nz.
