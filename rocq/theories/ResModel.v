(** Restart files: src/restart.c, dump_restart and restart_grids.

    A file is the list of its bytes.  fwrite never fails here (the code ignores its result for the
    arrays, and exits on an error for the first three scalars); malloc never fails.  A variable of a C
    type is a value together with the codec of that type, its memory image.  The members of the array of
    structures U[k][j][i] are kept as one array per member. *)
From Coq Require Import String Ascii NArith ZArith Bool Arith Lia List.
From Verif Require Import CStr ParModel UtilModel.
Import ListNotations.
Open Scope Z_scope.

(** The memory image of a C type: sizeof, the bytes of a value, the value of bytes, and what a variable
    holds after an fread that found fewer bytes than it asked for (indeterminate in C: any function of
    the old value and the bytes found). *)
Record codec (A : Type) := Codec {
  c_size : nat; c_enc : A -> str; c_dec : str -> A; c_short : A -> str -> A }.
Arguments c_size {A}. Arguments c_enc {A}. Arguments c_dec {A}. Arguments c_short {A}.

(** Preprocessor symbols that change the file: MHD, BAROTROPIC, NSCALARS, PARTICLES, FEEDBACK,
    MPI_PARALLEL, STS. *)
Record rcfg := RCfg { r_mhd : bool; r_baro : bool; r_nscal : Z; r_part : bool; r_feed : bool;
                      r_mpi : bool; r_sts : bool }.

(** The types Real, int, long and short, and the formulas of src/restart.c:257-308 for the field at the
    centre of a cell from the fields on its two faces: the mean, or the weighted forms of cylindrical
    and spherical coordinates (a function of the index of the cell along the direction). *)
Record mach (R : Type) := Mach {
  cR : codec R; cI : codec Z; cL : codec Z; cS : codec Z;
  cc1 : Z -> R -> R -> R; cc2 : Z -> R -> R -> R; cc3 : Z -> R -> R -> R }.
Arguments cR {R}. Arguments cI {R}. Arguments cL {R}. Arguments cS {R}.
Arguments cc1 {R}. Arguments cc2 {R}. Arguments cc3 {R}.

(** Members of ConsS and the face-centred fields (src/athena.h) *)
Inductive fld := FD | FM1 | FM2 | FM3 | FE | FB1c | FB2c | FB3c | FS (n : Z) | FB1i | FB2i | FB3i.
Definition fld_eqb (a b : fld) : bool :=
  match a, b with
  | FD, FD | FM1, FM1 | FM2, FM2 | FM3, FM3 | FE, FE | FB1c, FB1c | FB2c, FB2c | FB3c, FB3c
  | FB1i, FB1i | FB2i, FB2i | FB3i, FB3i => true
  | FS n, FS m => n =? m
  | _, _ => false
  end.
Definition arrays (R : Type) := fld -> Z -> Z -> Z -> R.
Definition updf {R} (u : arrays R) (f : fld) (k j i : Z) (v : R) : arrays R :=
  fun f' k' j' i' => if fld_eqb f' f && (k' =? k) && (j' =? j) && (i' =? i) then v else u f' k' j' i'.

(** Real members of GrainS *)
Inductive pfld := X1 | X2 | X3 | V1 | V2 | V3.
(** src/athena.h GrainS: position and velocity, property, my_id, init_id, pos *)
Record part (R : Type) := Part { p_r : pfld -> R; p_prop : Z; p_id : Z; p_init : Z; p_pos : Z }.
Arguments Part {R}. Arguments p_r {R}. Arguments p_prop {R}. Arguments p_id {R}. Arguments p_init {R}. Arguments p_pos {R}.
Definition pfld_eqb (a b : pfld) : bool :=
  match a, b with X1, X1 | X2, X2 | X3, X3 | V1, V1 | V2, V2 | V3, V3 => true | _, _ => false end.
Definition set_pr {R} (f : pfld) (v : R) (p : part R) : part R :=
  Part (fun f' => if pfld_eqb f' f then v else p_r p f') (p_prop p) (p_id p) (p_init p) (p_pos p).
(** src/restart.c:425-426: property is read and pos is set to 1 *)
Definition set_prop {R} (v : Z) (p : part R) : part R := Part (p_r p) v (p_id p) (p_init p) 1.
Definition set_id {R} (v : Z) (p : part R) : part R := Part (p_r p) (p_prop p) v (p_init p) (p_pos p).
Definition set_init {R} (v : Z) (p : part R) : part R := Part (p_r p) (p_prop p) (p_id p) v (p_pos p).

(** The members of GridS that matter here; arrsize is the allocated length of the particle array. *)
Record grid (R : Type) := Grid {
  g_is : Z; g_ie : Z; g_js : Z; g_je : Z; g_ks : Z; g_ke : Z;
  g_time : R; g_dt : R; g_u : arrays R; g_np : Z; g_arr : Z; g_part : Z -> part R }.
Arguments Grid {R}. Arguments g_is {R}. Arguments g_ie {R}. Arguments g_js {R}. Arguments g_je {R}.
Arguments g_ks {R}. Arguments g_ke {R}. Arguments g_time {R}. Arguments g_dt {R}. Arguments g_u {R}.
Arguments g_np {R}. Arguments g_arr {R}. Arguments g_part {R}.

(** Real members of Grain_Property and the arrays of the same length tstop0 and grrhoa
    (src/particles/particle.h) *)
Inductive tfld := TM | TRad | TRho | TTs | TRa.
Definition tfld_eqb (a b : tfld) : bool :=
  match a, b with TM, TM | TRad, TRad | TRho, TRho | TTs, TTs | TRa, TRa => true | _, _ => false end.
(** Global variables: npartypes, the allocated length of the per-type arrays (src/particles/
    init_particle.c:103-110), those arrays, alamcoeff; N_STS and nu_STS. *)
Record glob (R : Type) := Glob {
  t_n : Z; t_alloc : Z; t_r : tfld -> Z -> R; t_integ : Z -> Z; t_num : Z -> Z; t_alam : R;
  n_sts : Z; nu_sts : R }.
Arguments Glob {R}. Arguments t_n {R}. Arguments t_alloc {R}. Arguments t_r {R}. Arguments t_integ {R}.
Arguments t_num {R}. Arguments t_alam {R}. Arguments n_sts {R}. Arguments nu_sts {R}.

(** MeshS: nstep, time, dt, diff_dt; Domain[nl][nd].Grid for nl < NLevels, nd < DomainsPerLevel[nl]
    ([None] for NULL: the Grid belongs to another processor). *)
Record mesh (R : Type) := Mesh {
  m_nstep : Z; m_time : R; m_dt : R; m_diff : R; m_dom : list (list (option (grid R))) }.
Arguments Mesh {R}. Arguments m_nstep {R}. Arguments m_time {R}. Arguments m_dt {R}. Arguments m_diff {R}. Arguments m_dom {R}.

(** if (ie > is) ib=1; ...  (src/restart.c:207-209 and 687-689): the flags are set to 0 once, at the top
    of the function, and are not reset from one Grid to the next. *)
Record wide := Wide { w1 : bool; w2 : bool; w3 : bool }.
Definition widen {R} (g : grid R) (b : wide) : wide :=
  Wide (if g_ie g >? g_is g then true else w1 b) (if g_je g >? g_js g then true else w2 b)
       (if g_ke g >? g_ks g then true else w3 b).
Definition b2z (b : bool) : Z := if b then 1 else 0.

(** * Writing *)

(** The file so far and the part of a buffer in use, buf[0..nbuf-1] *)
Notation wst A := (str * list A)%type.
(** bufsize = 262144 / sizeof(Real)   (src/restart.c:503, 509, 514, 519) *)
Definition bufsize {A} (C : codec A) : N := (262144 / N.of_nat (c_size C))%N.
(** buf[nbuf++] = x *)
Definition store {A} (C : codec A) (x : A) (w : wst A) : res (wst A) :=
  if (N.of_nat (length (snd w)) <? bufsize C)%N then Ok (fst w, snd w ++ [x]) else UB.
(** fwrite(buf,sizeof(Real),nbuf,fp); nbuf = 0 *)
Definition dump_buf {A} (C : codec A) (w : wst A) : wst A := (fst w ++ flat_map (c_enc C) (snd w), []).
(** if ((nbuf+n) > bufsize) { ... } *)
Definition spill {A} (C : codec A) (n : N) (w : wst A) : wst A :=
  if (bufsize C <? N.of_nat (length (snd w)) + n)%N then dump_buf C w else w.
(** if (nbuf > 0) { ... } *)
Definition flush {A} (C : codec A) (w : wst A) : wst A := if (0 <? length (snd w))%nat then dump_buf C w else w.
(** buf[nbuf++] = x; if ((nbuf+1) > bufsize) { ... } *)
Definition put {A} (C : codec A) (x : A) (w : wst A) : res (wst A) := w <- store C x w;; Ok (spill C 1 w).
(** fprintf(fp,...) of a line: a newline, the label, a newline *)
Definition heading (lab : str) (file : str) : str := file ++ LF :: lab ++ [LF].
(** fwrite(&x,sizeof(x),1,fp) *)
Definition fwrite1 {A} (C : codec A) (x : A) (file : str) : str := file ++ c_enc C x.

(** src/restart.c:589-604: the heading, the values over ks..ke, js..je, is..ie through the buffer, and the
    flush.  The same text for every variable (606-769), with [ke], [je] or [ie] one larger for the
    face-centred fields. *)
Definition write_fld {R} (M : mach R) (lab : str) (f : fld) (ks ke js je is_ ie : Z) (u : arrays R)
    (w : wst R) : res (wst R) :=
  w <- fori ks (ke + 1) (fun k w => fori js (je + 1) (fun j w => fori is_ (ie + 1) (fun i w =>
         w <- w;; put (cR M) (u f k j i) w) w) w) (Ok (heading lab (fst w), snd w));;
  Ok (flush (cR M) w).

(** src/restart.c:822-834 and the like: one member of every particle with pos == 1, through a buffer.
    Starts from the contents [b] of the buffer. *)
Definition write_part {R A} (C : codec A) (lab : str) (get : part R -> A) (g : grid R) (w : wst A)
    : res (wst A) :=
  w <- fori 0 (g_np g) (fun p w => w <- w;;
         if p_pos (g_part g p) =? 1 then put C (get (g_part g p)) w else Ok w)
       (Ok (heading lab (fst w), snd w));;
  Ok (flush C w).
(** the same for the int and long members, whose buffers were flushed by the section that used them last
    (nibuf = nlbuf = 0) *)
Definition write_partZ {R} (C : codec Z) (lab : str) (get : part R -> Z) (g : grid R) (w : wst R)
    : res (wst R) :=
  v <- write_part C lab get g (fst w, []);; Ok (fst v, snd w).

(** np, the number of particles written (src/restart.c:776-778) *)
Definition count_part {R} (g : grid R) : Z :=
  fori 0 (g_np g) (fun p np => if p_pos (g_part g p) =? 1 then np + 1 else np) 0.

(** src/restart.c:775-818: the number of particles and the table of types *)
Definition write_types {R} (M : mach R) (c : rcfg) (t : glob R) (g : grid R) (w : wst R) : res (wst R) :=
  let nprop := if r_feed c then 5%N else 4%N in
  let file := heading (S_ "PARTICLE LIST") (fst w) in
  let file := fwrite1 (cL M) (count_part g) file in
  let file := fwrite1 (cI M) (t_n t) file in
  w <- fori 0 (t_n t) (fun i w => w <- w;;
         w <- (if r_feed c then store (cR M) (t_r t TM i) w else Ok w);;
         w <- store (cR M) (t_r t TRad i) w;;
         w <- store (cR M) (t_r t TRho i) w;;
         w <- store (cR M) (t_r t TTs i) w;;
         w <- store (cR M) (t_r t TRa i) w;;
         Ok (spill (cR M) nprop w)) (Ok (file, snd w));;
  let w := flush (cR M) w in
  let file := fwrite1 (cR M) (t_alam t) (fst w) in
  v <- fori 0 (t_n t) (fun i v => v <- v;; put (cS M) (t_integ t i) v) (Ok (file, []));;
  Ok (fst (flush (cS M) v), snd w).

(** src/restart.c:772-965, #ifdef PARTICLES *)
Definition write_parts {R} (M : mach R) (c : rcfg) (t : glob R) (g : grid R) (w : wst R) : res (wst R) :=
  w <- write_types M c t g w;;
  w <- write_part (cR M) (S_ "PARTICLE X1") (fun p => p_r p X1) g w;;
  w <- write_part (cR M) (S_ "PARTICLE X2") (fun p => p_r p X2) g w;;
  w <- write_part (cR M) (S_ "PARTICLE X3") (fun p => p_r p X3) g w;;
  w <- write_part (cR M) (S_ "PARTICLE V1") (fun p => p_r p V1) g w;;
  w <- write_part (cR M) (S_ "PARTICLE V2") (fun p => p_r p V2) g w;;
  w <- write_part (cR M) (S_ "PARTICLE V3") (fun p => p_r p V3) g w;;
  w <- write_partZ (cI M) (S_ "PARTICLE PROPERTY") p_prop g w;;
  w <- write_partZ (cL M) (S_ "PARTICLE MY_ID") p_id g w;;
  if r_mpi c then write_partZ (cI M) (S_ "PARTICLE INIT_ID") p_init g w else Ok w.

(** "SCALAR %d" into scalarstr[16]: no overflow for NSCALARS <= 10^8, which the theorems assume *)
Definition scalar_label (n : Z) : str := S_ "SCALAR " ++ dec_Z n.

(** src/restart.c:691-747, #ifdef MHD *)
Definition write_field {R} (M : mach R) (g : grid R) (b : wide) (w : wst R) : res (wst R) :=
  w <- write_fld M (S_ "1-FIELD") FB1i (g_ks g) (g_ke g) (g_js g) (g_je g) (g_is g) (g_ie g + b2z (w1 b)) (g_u g) w;;
  w <- write_fld M (S_ "2-FIELD") FB2i (g_ks g) (g_ke g) (g_js g) (g_je g + b2z (w2 b)) (g_is g) (g_ie g) (g_u g) w;;
  write_fld M (S_ "3-FIELD") FB3i (g_ks g) (g_ke g + b2z (w3 b)) (g_js g) (g_je g) (g_is g) (g_ie g) (g_u g) w.

(** src/restart.c:578-967: one Grid; returns the flags ib, jb, kb as well *)
Definition write_grid {R} (M : mach R) (c : rcfg) (t : glob R) (g : grid R) (b : wide) (w : wst R)
    : res (wide * wst R) :=
  let cells lab f w := write_fld M lab f (g_ks g) (g_ke g) (g_js g) (g_je g) (g_is g) (g_ie g) (g_u g) w in
  w <- cells (S_ "DENSITY") FD w;;
  w <- cells (S_ "1-MOMENTUM") FM1 w;;
  w <- cells (S_ "2-MOMENTUM") FM2 w;;
  w <- cells (S_ "3-MOMENTUM") FM3 w;;
  w <- (if r_baro c then Ok w else cells (S_ "ENERGY") FE w);;
  let b := if r_mhd c then widen g b else b in
  w <- (if r_mhd c then write_field M g b w else Ok w);;
  w <- fori 0 (r_nscal c) (fun n w => w <- w;; cells (scalar_label n) (FS n) w) (Ok w);;
  w <- (if r_part c then write_parts M c t g w else Ok w);;
  Ok (b, w).

(** src/restart.c:576-578, 967-968: the loops over levels and Domains *)
Definition write_domain {R} (M : mach R) (c : rcfg) (t : glob R) (o : option (grid R))
    (s : res (wide * wst R)) : res (wide * wst R) :=
  '(b, w) <- s;; match o with Some g => write_grid M c t g b w | None => Ok (b, w) end.

(** src/restart.c:548-572: from N_STEP to the line before the loop over Domains *)
Definition write_head {R} (M : mach R) (c : rcfg) (t : glob R) (m : mesh R) (file : str) : str :=
  let file := file ++ S_ "N_STEP" ++ [LF] in
  let file := fwrite1 (cI M) (m_nstep m) file in
  let file := heading (S_ "TIME") file in
  let file := fwrite1 (cR M) (m_time m) file in
  let file := heading (S_ "TIME_STEP") file in
  let file := fwrite1 (cR M) (m_dt m) file in
  if r_sts c then
    let file := fwrite1 (cR M) (m_diff m) file in
    let file := fwrite1 (cI M) (n_sts t) file in
    fwrite1 (cR M) (nu_sts t) file
  else file.

(** src/restart.c:541-542: par_setd("time","time","%e",...), par_seti("time","nstep","%d",...); [txt] is
    the text of the time in the format %e *)
Definition set_times {R} (s : pstate) (m : mesh R) (txt : str) : res pstate :=
  s <- par_setd s (S_ "time") (S_ "time") txt (Some (S_ "Current Simulation Time"));;
  Ok (par_seti s (S_ "time") (S_ "nstep") (m_nstep m) (Some (S_ "Current Simulation Time Step"))).

(** src/restart.c:481-980 dump_restart: the bytes of the file and the parameters afterwards.  [user] is
    what problem_write_restart writes. *)
Definition dump_restart {R} (M : mach R) (c : rcfg) (s : pstate) (txt : str) (t : glob R) (m : mesh R)
    (user : str) : res (str * pstate) :=
  s <- set_times s m txt;;
  let file := write_head M c t m (par_dump2 s) in
  '(_, w) <- fold_left (fun st lev => fold_left (fun st o => write_domain M c t o st) lev st) (m_dom m)
       (Ok (Wide false false false, (file, [])));;
  Ok (heading (S_ "USER_DATA") (fst w) ++ user, s).

(** * Reading *)

(** The line buffer (without its NUL) and what is left of the file *)
Notation rst := (str * str)%type.
(** fgets(line,MAXLEN,fp) whose result is ignored: at the end of the file the buffer is unchanged *)
Definition get_line (s : rst) : rst := match fgets (snd s) with Some (l, r) => (l, r) | None => s end.
(** fgets twice, and strncmp(line,lab,strlen(lab)) != 0 is fatal *)
Definition label (lab : str) (s : rst) : res rst :=
  let s := get_line (get_line s) in if prefixb lab (fst s) then Ok s else Fatal.
(** fread(&x,sizeof(x),1,fp) whose result is ignored; [old] is the value of x before *)
Definition fread {A} (C : codec A) (old : A) (s : rst) : A * rst :=
  if (c_size C <=? length (snd s))%nat then (c_dec C (firstn (c_size C) (snd s)), (fst s, skipn (c_size C) (snd s)))
  else (c_short C old (snd s), (fst s, [])).

(** src/restart.c:132-142 and the like *)
Definition read_fld {R} (M : mach R) (lab : str) (f : fld) (ks ke js je is_ ie : Z) (us : arrays R * rst)
    : res (arrays R * rst) :=
  s <- label lab (snd us);;
  Ok (fori ks (ke + 1) (fun k us => fori js (je + 1) (fun j us => fori is_ (ie + 1) (fun i us =>
        let '(u, s) := us in let '(x, s) := fread (cR M) (u f k j i) s in (updf u f k j i x, s)) us) us)
      (fst us, s)).

(** The loops of src/restart.c:257-308 that set the field at the centres: [v] gives the value *)
Definition set_cells {R} (f : fld) (g : grid R) (v : arrays R -> Z -> Z -> Z -> R) (u : arrays R) : arrays R :=
  fori (g_ks g) (g_ke g + 1) (fun k u => fori (g_js g) (g_je g + 1) (fun j u =>
    fori (g_is g) (g_ie g + 1) (fun i u => updf u f k j i (v u k j i)) u) u) u.
(** src/restart.c:207-309, #ifdef MHD *)
Definition read_field {R} (M : mach R) (g : grid R) (b : wide) (us : arrays R * rst) : res (arrays R * rst) :=
  us <- read_fld M (S_ "1-FIELD") FB1i (g_ks g) (g_ke g) (g_js g) (g_je g) (g_is g) (g_ie g + b2z (w1 b)) us;;
  us <- read_fld M (S_ "2-FIELD") FB2i (g_ks g) (g_ke g) (g_js g) (g_je g + b2z (w2 b)) (g_is g) (g_ie g) us;;
  us <- read_fld M (S_ "3-FIELD") FB3i (g_ks g) (g_ke g + b2z (w3 b)) (g_js g) (g_je g) (g_is g) (g_ie g) us;;
  let u := fst us in
  let u := set_cells FB1c g (fun u k j i =>
    if w1 b then cc1 M i (u FB1i k j i) (u FB1i k j (i + 1)) else u FB1i k j i) u in
  let u := set_cells FB2c g (fun u k j i =>
    if w2 b then cc2 M j (u FB2i k j i) (u FB2i k (j + 1) i) else u FB2i k j i) u in
  let u := set_cells FB3c g (fun u k j i =>
    if w3 b then cc3 M k (u FB3i k j i) (u FB3i (k + 1) j i) else u FB3i k j i) u in
  Ok (u, snd us).

(** Storing in the array of particles and in the per-type arrays, with the bounds of their allocation *)
Definition upd_part {R} (g : grid R) (p : Z) (h : part R -> part R) : res (grid R) :=
  if (0 <=? p) && (p <? g_arr g) then
    Ok (Grid (g_is g) (g_ie g) (g_js g) (g_je g) (g_ks g) (g_ke g) (g_time g) (g_dt g) (g_u g) (g_np g) (g_arr g)
             (upd (g_part g) p (h (g_part g p))))
  else UB.
Definition set_np {R} (np arr : Z) (g : grid R) : grid R :=
  Grid (g_is g) (g_ie g) (g_js g) (g_je g) (g_ks g) (g_ke g) (g_time g) (g_dt g) (g_u g) np arr (g_part g).
Definition set_u {R} (u : arrays R) (g : grid R) : grid R :=
  Grid (g_is g) (g_ie g) (g_js g) (g_je g) (g_ks g) (g_ke g) (g_time g) (g_dt g) u (g_np g) (g_arr g) (g_part g).
Definition set_clock {R} (time dt : R) (g : grid R) : grid R :=
  Grid (g_is g) (g_ie g) (g_js g) (g_je g) (g_ks g) (g_ke g) time dt (g_u g) (g_np g) (g_arr g) (g_part g).
Definition in_types {R} (t : glob R) (i : Z) : bool := (0 <=? i) && (i <? t_alloc t).
Definition upd_t {R} (t : glob R) (f : tfld) (i : Z) (v : R) : res (glob R) :=
  if in_types t i then
    Ok (Glob (t_n t) (t_alloc t) (fun f' i' => if tfld_eqb f' f && (i' =? i) then v else t_r t f' i')
             (t_integ t) (t_num t) (t_alam t) (n_sts t) (nu_sts t))
  else UB.
Definition upd_integ {R} (t : glob R) (i v : Z) : res (glob R) :=
  if in_types t i then
    Ok (Glob (t_n t) (t_alloc t) (t_r t) (upd (t_integ t) i v) (t_num t) (t_alam t) (n_sts t) (nu_sts t))
  else UB.
Definition upd_num {R} (t : glob R) (i v : Z) : res (glob R) :=
  if in_types t i then
    Ok (Glob (t_n t) (t_alloc t) (t_r t) (t_integ t) (upd (t_num t) i v) (t_alam t) (n_sts t) (nu_sts t))
  else UB.
Definition set_tn {R} (n : Z) (t : glob R) : glob R :=
  Glob n (t_alloc t) (t_r t) (t_integ t) (t_num t) (t_alam t) (n_sts t) (nu_sts t).
Definition set_alam {R} (a : R) (t : glob R) : glob R :=
  Glob (t_n t) (t_alloc t) (t_r t) (t_integ t) (t_num t) a (n_sts t) (nu_sts t).

(** src/particles/init_particle.c:195-216 particle_realloc (the conversion of 1.2*arrsize to long is
    taken as 6*arrsize/5; only its being non-negative is used) *)
Definition particle_realloc {R} (n : Z) (g : grid R) : grid R :=
  set_np (g_np g) (Z.max (6 * g_arr g / 5) n) g.

(** fread(&(grproperty[i].rad),...) and the like *)
Definition read_t {R} (M : mach R) (f : tfld) (i : Z) (ts : glob R * rst) : res (glob R * rst) :=
  let '(x, s) := fread (cR M) (t_r (fst ts) f i) (snd ts) in
  t <- upd_t (fst ts) f i x;; Ok (t, s).
(** src/restart.c:334-356 *)
Definition read_types {R} (M : mach R) (c : rcfg) (st : grid R * glob R * rst) : res (grid R * glob R * rst) :=
  let '(g, t, s) := st in
  s <- label (S_ "PARTICLE LIST") s;;
  let '(np, s) := fread (cL M) (g_np g) s in
  let g := set_np np (g_arr g) g in
  let g := if np >? g_arr g - 2 then particle_realloc (np + 2) g else g in
  let '(n, s) := fread (cI M) (t_n t) s in
  let t := set_tn n t in
  '(t, s) <- fori 0 n (fun i ts => ts <- ts;;
      ts <- (if r_feed c then read_t M TM i ts else Ok ts);;
      ts <- read_t M TRad i ts;;
      ts <- read_t M TRho i ts;;
      ts <- read_t M TTs i ts;;
      read_t M TRa i ts) (Ok (t, s));;
  let '(a, s) := fread (cR M) (t_alam t) s in
  let t := set_alam a t in
  '(t, s) <- fori 0 n (fun i ts => '(t, s) <- ts;;
      let '(x, s) := fread (cS M) (t_integ t i) s in t <- upd_integ t i x;; Ok (t, s)) (Ok (t, s));;
  Ok (g, t, s).

(** src/restart.c:360-366 and the like: one member of every particle *)
Definition read_part {R A} (C : codec A) (lab : str) (get : part R -> A) (set : A -> part R -> part R)
    (gs : grid R * rst) : res (grid R * rst) :=
  s <- label lab (snd gs);;
  fori 0 (g_np (fst gs)) (fun p gs => '(g, s) <- gs;;
    let '(x, s) := fread C (get (g_part g p)) s in g <- upd_part g p (set x);; Ok (g, s)) (Ok (fst gs, s)).

(** src/restart.c:453-456: count the particles of each type *)
Definition count_types {R} (g : grid R) (t : glob R) : res (glob R) :=
  t <- fori 0 (t_n t) (fun i t => t <- t;; upd_num t i 0) (Ok t);;
  fori 0 (g_np g) (fun p t => t <- t;;
    upd_num t (p_prop (g_part g p)) (t_num t (p_prop (g_part g p)) + 1)) (Ok t).

(** src/restart.c:331-458, #ifdef PARTICLES *)
Definition read_parts {R} (M : mach R) (c : rcfg) (st : grid R * glob R * rst) : res (grid R * glob R * rst) :=
  '(g, t, s) <- read_types M c st;;
  gs <- read_part (cR M) (S_ "PARTICLE X1") (fun p => p_r p X1) (set_pr X1) (g, s);;
  gs <- read_part (cR M) (S_ "PARTICLE X2") (fun p => p_r p X2) (set_pr X2) gs;;
  gs <- read_part (cR M) (S_ "PARTICLE X3") (fun p => p_r p X3) (set_pr X3) gs;;
  gs <- read_part (cR M) (S_ "PARTICLE V1") (fun p => p_r p V1) (set_pr V1) gs;;
  gs <- read_part (cR M) (S_ "PARTICLE V2") (fun p => p_r p V2) (set_pr V2) gs;;
  gs <- read_part (cR M) (S_ "PARTICLE V3") (fun p => p_r p V3) (set_pr V3) gs;;
  gs <- read_part (cI M) (S_ "PARTICLE PROPERTY") p_prop set_prop gs;;
  gs <- read_part (cL M) (S_ "PARTICLE MY_ID") p_id set_id gs;;
  gs <- (if r_mpi c then read_part (cI M) (S_ "PARTICLE INIT_ID") p_init set_init gs else Ok gs);;
  let '(g, s) := gs in
  t <- count_types g t;;
  Ok (g, t, s).

(** src/restart.c:117-458: one Grid *)
Definition read_grid {R} (M : mach R) (c : rcfg) (m : mesh R) (g : grid R) (b : wide) (ts : glob R * rst)
    : res (grid R * wide * (glob R * rst)) :=
  let '(t, s) := ts in
  let g := set_clock (m_time m) (m_dt m) g in
  let cells lab f us := read_fld M lab f (g_ks g) (g_ke g) (g_js g) (g_je g) (g_is g) (g_ie g) us in
  us <- cells (S_ "DENSITY") FD (g_u g, s);;
  us <- cells (S_ "1-MOMENTUM") FM1 us;;
  us <- cells (S_ "2-MOMENTUM") FM2 us;;
  us <- cells (S_ "3-MOMENTUM") FM3 us;;
  us <- (if r_baro c then Ok us else cells (S_ "ENERGY") FE us);;
  let b := if r_mhd c then widen g b else b in
  us <- (if r_mhd c then read_field M g b us else Ok us);;
  us <- fori 0 (r_nscal c) (fun n us => us <- us;; cells (firstn 8 (scalar_label n)) (FS n) us) (Ok us);;
  let '(u, s) := us in
  let g := set_u u g in
  '(g, t, s) <- (if r_part c then read_parts M c (g, t, s) else Ok (g, t, s));;
  Ok (g, b, (t, s)).

(** src/restart.c:114-117, 460-461: the loops over levels and Domains, which store each Grid back *)
Definition read_domain {R} (M : mach R) (c : rcfg) (m : mesh R) (o : option (grid R))
    (st : wide * (glob R * rst)) : res (option (grid R) * (wide * (glob R * rst))) :=
  match o with
  | None => Ok (None, st)
  | Some g => '(g, b, ts) <- read_grid M c m g (fst st) (snd st);; Ok (Some g, (b, ts))
  end.
Fixpoint map_st {X Y S} (f : X -> S -> res (Y * S)) (l : list X) (s : S) : res (list Y * S) :=
  match l with
  | [] => Ok ([], s)
  | x :: l' => '(y, s) <- f x s;; '(ys, s) <- map_st f l' s;; Ok (y :: ys, s)
  end.

(** src/restart.c:84-110: nstep, time, dt *)
Definition read_head {R} (M : mach R) (c : rcfg) (m : mesh R) (t : glob R) (s : rst)
    : res (mesh R * glob R * rst) :=
  let s := get_line s in
  if negb (prefixb (S_ "N_STEP") (fst s)) then Fatal else
  let '(n, s) := fread (cI M) (m_nstep m) s in
  s <- label (S_ "TIME") s;;
  let '(ti, s) := fread (cR M) (m_time m) s in
  s <- label (S_ "TIME_STEP") s;;
  let '(dt, s) := fread (cR M) (m_dt m) s in
  if r_sts c then
    let '(df, s) := fread (cR M) (m_diff m) s in
    let '(ns, s) := fread (cI M) (n_sts t) s in
    let '(nu, s) := fread (cR M) (nu_sts t) s in
    Ok (Mesh n ti dt df (m_dom m),
        Glob (t_n t) (t_alloc t) (t_r t) (t_integ t) (t_num t) (t_alam t) ns nu, s)
  else Ok (Mesh n ti dt (m_diff m) (m_dom m), t, s).

(** What running restart_grids comes to: it returns, or it goes round the loop of src/restart.c:80-82 for
    ever, which happens when the end of the file is reached first. *)
Inductive run (A : Type) := Returns (r : res A) | Loops.
Arguments Returns {A}. Arguments Loops {A}.
(** src/restart.c:80-82: do{ fgets(line,MAXLEN,fp); }while(strncmp(line,"<par_end>",9) != 0).  The line
    buffer is not initialised: an empty file makes strncmp read it.  [fuel] bounds the iterations that
    find a line; each uses up a byte at least, and running out of fuel is reported as [UB]. *)
Fixpoint skip_par (fuel : nat) (file : str) : run rst :=
  match fgets file with
  | None => Loops
  | Some (l, r) =>
      if prefixb PAR_END l then Returns (Ok (l, r))
      else match fuel with O => Returns UB | S n => skip_par n r end
  end.
(** src/restart.c:56-474 restart_grids, for a file that can be opened ([None]: it cannot).  Returns the
    mesh, the global variables and what is left of the file for problem_read_restart. *)
Definition restart_grids {R} (M : mach R) (c : rcfg) (file : option str) (m : mesh R) (t : glob R)
    : run (mesh R * glob R * str) :=
  match file with
  | None => Returns Fatal
  | Some file =>
  match file with [] => Returns UB | _ =>
  match skip_par (length file) file with
  | Loops => Loops
  | Returns r => Returns (
      s <- r;;
      '(m, t, s) <- read_head M c m t s;;
      '(doms, (_, (t, s))) <- map_st (map_st (read_domain M c m)) (m_dom m) (Wide false false false, (t, s));;
      s <- label (S_ "USER_DATA") s;;
      Ok (Mesh (m_nstep m) (m_time m) (m_dt m) (m_diff m) doms, t, snd s))
  end end end.
