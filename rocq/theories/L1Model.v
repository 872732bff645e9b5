(** * Model of compute_l1_error, src/utils.c

    MHD and an energy equation, any number of scalars; Cartesian and cylindrical
    coordinates.  Real numbers stand for double-precision numbers.  Not modelled: the
    name of the file and its header. *)
From Coq Require Import Reals ZArith List.
From Verif Require Import CStr GasModel.
Import ListNotations.
Open Scope R_scope.

(** An active cell: the x1 of its centre, the gas and the solution at the start. *)
Record l1cell := L1Cell { l1x : R; l1U : cons; l1S : cons }.
Record l1dom := L1Dom {
  cyl : bool; ldx1 : R; ldx2 : R; ldx3 : R;
  lmin1 : R; lmax1 : R; lmin2 : R; lmax2 : R; lmin3 : R; lmax3 : R;
  lN1 : Z; lN2 : Z; lN3 : Z; errortype : Z; nscal : nat }.

(** The members of ConsS in the order of err[], utils.c:358-372. *)
Definition members (U : cons) : list R := [cd U; cM1 U; cM2 U; cM3 U; cB1 U; cB2 U; cB3 U; cE U] ++ cs U.
Definition vadd (a b : list R) : list R := map (fun p => fst p + snd p) (combine a b).
Definition zeros (n : nat) : list R := repeat 0 n.

(** utils.c:306-313 *)
Definition cell_vol (D : l1dom) (x1 : R) : R :=
  let v := 1 in
  let v := if Rlt_dec 0 (ldx1 D) then v * ldx1 D else v in
  let v := if Rlt_dec 0 (ldx2 D) then v * ldx2 D else v in
  let v := if Rlt_dec 0 (ldx3 D) then v * ldx3 D else v in
  if cyl D then v * x1 else v.
(** utils.c:316-331 *)
Definition cell_err (D : l1dom) (c : l1cell) : list R :=
  map (fun p => cell_vol D (l1x c) * Rabs (fst p - snd p)) (combine (members (l1U c)) (members (l1S c))).
(** utils.c:304-332: error, cleared for each row. *)
Definition row_err (D : l1dom) (row : list l1cell) : list R :=
  fold_left (fun e c => vadd e (cell_err D c)) row (zeros (8 + nscal D)).
(** utils.c:302-351: total_error of one Grid, its rows in the order of the loops. *)
Definition grid_err (D : l1dom) (rows : list (list l1cell)) : list R :=
  fold_left (fun e r => vadd e (row_err D r)) rows (zeros (8 + nscal D)).

(** utils.c:408-416 *)
Definition tot_vol (D : l1dom) : R :=
  let v := 1 in
  if (errortype D =? 1)%Z then
    let v := if Rlt_dec (lmin1 D) (lmax1 D) then v * (lmax1 D - lmin1 D) else v in
    let v := if Rlt_dec (lmin2 D) (lmax2 D) then v * (lmax2 D - lmin2 D) else v in
    let v := if Rlt_dec (lmin3 D) (lmax3 D) then v * (lmax3 D - lmin3 D) else v in
    if cyl D then v * ((5 / 10) * (lmin1 D + lmax1 D)) else v
  else v.

(** A line of the file: numbers of cells, rms_error, and the errors in the order printed. *)
Definition l1line : Type := (Z * Z * Z) * R * list R.
(** utils.c:421-431 and 467-492 *)
Definition l1_print (D : l1dom) (e : list R) : l1line :=
  let g i := nth i e 0 in
  let rms := g 0%nat * g 0%nat + g 1%nat * g 1%nat + g 2%nat * g 2%nat + g 3%nat * g 3%nat in
  let rms := rms + (g 4%nat * g 4%nat + g 5%nat * g 5%nat + g 6%nat * g 6%nat) in
  let rms := rms + g 7%nat * g 7%nat in
  ((lN1 D, lN2 D, lN3 D), sqrt rms / tot_vol D,
   map (fun x => x / tot_vol D) ([g 0; g 1; g 2; g 3; g 7; g 4; g 5; g 6]%nat ++ skipn 8 e)).

(** Without MPI. *)
Definition l1_serial (D : l1dom) (rows : list (list l1cell)) : l1line := l1_print D (grid_err D rows).

(** utils.c:374-399, with MPI: what each process of the Domain does.  MPI_Reduce stores the
    sum only at process 0; the test is pD->DomNumber == 0, which holds for all of them;
    reading tot_err, which was not set, is undefined.  The scalars are taken from err. *)
Definition l1_mpi (D : l1dom) (grids : list (list (list l1cell))) : list (res l1line) :=
  let errs := map (grid_err D) grids in
  let tot := fold_left vadd errs (zeros (8 + nscal D)) in
  match errs with
  | [] => []
  | e0 :: others => Ok (l1_print D (firstn 8 tot ++ skipn 8 e0)) :: map (fun _ => UB) others
  end.
