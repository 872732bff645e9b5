(** * Images and tables of one variable: src/output_pgm.c, src/output_ppm.c, src/output_tab.c

    [data j i] with 0 <= j < nx2, 0 <= i < nx1 are the data of [OutData2] (C86).  The bytes after the header of the
    image are modelled; arithmetic is over the reals (the code of output_ppm.c keeps x, rgb and der as float).
    Not modelled: the header lines, name and opening of the file. *)
From Coq Require Import ZArith Reals Bool List.
From Verif Require Import CStr PosModel GasModel UtilModel VtkModel PdfModel.
Import ListNotations.
Open Scope R_scope.

Definition FLT_EPSILON : R := / 2 ^ 23.
(** Lower and upper end of the scale; [None]: sdmin = 0 (output_pgm.c:87-93, output_ppm.c:96-107). *)
Definition ends_of (sdmin sdmax : option R) (data : Z -> Z -> R) (nx1 nx2 : Z) : R * R :=
  let '(dmin, dmax) := minmax2 data nx2 nx1 in
  (match sdmin with Some d => d | None => dmin end, match sdmax with Some d => d | None => dmax end).
(** for (j=nx2-1; j>=0; j--) for (i=0; i<nx1; i++) *)
Definition pixels (nx1 nx2 : Z) : list (Z * Z) := flat_map (fun j => map (fun i => (j, i)) (zr 0 (nx1 - 1))) (rev (zr 0 (nx2 - 1))).

(** ** output_pgm *)
(** output_pgm.c:101, 105-108 *)
Definition gray (dmin max_min x : R) : res Z :=
  let sfact := 256 / max_min in
  g <- c_int (sfact * (x - dmin));;
  let g := if (0 <? g)%Z then g else 0%Z in
  Ok (if (g <? 255)%Z then g else 255%Z).
(** output_pgm.c:87-123 *)
Definition output_pgm (sdmin sdmax : option R) (data : Z -> Z -> R) (nx1 nx2 : Z) : res (list Z) :=
  let '(dmin, dmax) := ends_of sdmin sdmax data nx1 nx2 in
  let max_min := (dmax - dmin) * (1 + FLT_EPSILON) in
  if Rlt_dec 0 max_min then res_map (fun p => gray dmin max_min (data (fst p) (snd p))) (pixels nx1 nx2)
  else Ok (flat_map (fun j => map (fun i => 0%Z) (zr 0 (nx1 - 1))) (zr 0 (nx2 - 1))).

(** ** output_ppm *)
(** A palette of 256 colours with three components each (palette.h); der is computed in output.c:417-419 and
    its last three entries are never set. *)
Definition der (rgb : Z -> R) (n : Z) : res R := if (n <? 765)%Z then Ok (rgb (n + 3)%Z - rgb n) else UB.
Definition component (rgb : Z -> R) (x : R) (i c : Z) : res Z :=
  d <- der rgb (i * 3 + c)%Z;; c_int ((rgb (i * 3 + c)%Z + (x - IZR i) * d) * 255).
(** compute_rgb, output_ppm.c:134-161; rgb is not NULL when the format is ppm. *)
Definition compute_rgb (rgb : Z -> R) (data min max : R) : res (Z * Z * Z) :=
  if Req_EM_T min max then let v := if Rlt_dec max data then 255%Z else 0%Z in Ok (v, v, v) else
  let x := (data - min) * 255 / (max - min) in
  if (if Rle_dec x 0 then true else if Rge_dec x 255 then true else false) then
    let i := if Rle_dec x 0 then 0%Z else 255%Z in
    r <- c_int (rgb (i * 3)%Z * 255);; g <- c_int (rgb (i * 3 + 1)%Z * 255);; b <- c_int (rgb (i * 3 + 2)%Z * 255);; Ok (r, g, b)
  else
    i <- c_int x;;
    r <- component rgb x i 0;; g <- component rgb x i 1;; b <- component rgb x i 2;; Ok (r, g, b).
(** output_ppm.c:105-116 *)
Definition output_ppm (rgb : Z -> R) (sdmin sdmax : option R) (data : Z -> Z -> R) (nx1 nx2 : Z) : res (list (Z * Z * Z)) :=
  let '(dmin, dmax) := ends_of sdmin sdmax data nx1 nx2 in
  res_map (fun p => compute_rgb rgb (data (fst p) (snd p)) dmin dmax) (pixels nx1 nx2).

(** ** The global minimum and maximum printed at the end of the run (output.c:575-594) *)
Definition HUGE_NUMBER : R := 10 ^ 20.
(** output.c:400, 406 *)
Definition extremes0 : R * R := (HUGE_NUMBER, -1 * HUGE_NUMBER).
(** output_pgm.c:88-89, output_ppm.c:97-98, output_tab.c:130-131: MIN(dmin,pOut->gmin) *)
Definition track (g d : R * R) : R * R := (MIN (fst d) (fst g), MAX (snd d) (snd g)).
(** output_tab.c:199-206, 275-282 (2D, 3D): [num] is the number of the file. *)
Definition track_num (num : nat) (g d : R * R) : R * R := match num with O => d | _ => track g d end.
(** A run: every output handles some Grids, one after the other; the number is raised after each output. *)
Definition run_track (outs : list (list (R * R))) : R * R := fold_left (fun g o => fold_left track o g) outs extremes0.
Fixpoint run_track_num (num : nat) (outs : list (list (R * R))) (g : R * R) : R * R :=
  match outs with [] => g | o :: outs => run_track_num (S num) outs (fold_left (track_num num) o g) end.
