(** * Model of src/dump_history.c

    One call of dump_history for one Domain, run by all the processes that have a Grid in
    it.  Over the reals.  Simplifications: special relativity is left out (its columns are
    listed in DESIGN.md as not modelled); the text of the file is the list of labels and
    the list of numbers of each line; the lines that several processes append to the same
    file are listed in the order of their ranks in the Domain's communicator. *)
From Coq Require Import ZArith List Bool Arith Reals.
From Verif Require Import CStr MeshModel PosModel GasModel.
Import ListNotations.
Open Scope R_scope.

(** The compile-time choices: ADIABATIC (otherwise BAROTROPIC), MHD, SELF_GRAVITY,
    CYLINDRICAL and NSCALARS (src/defs.h.in). *)
Record hcfg := HC { h_adb : bool; h_mhd : bool; h_selfg : bool; h_cyl : bool; h_nscal : nat }.
(** src/dump_history.c:75-78 *)
Definition NSCAL : nat := 14.
Definition MAX_USR_H_COUNT : nat := 30.
(** src/dump_history.c:99: the size of scal[] (and of my_scal[], line 104). *)
Definition hst_size (c : hcfg) : nat := NSCAL + h_nscal c + MAX_USR_H_COUNT.
Definition b2n (b : bool) : nat := if b then 1%nat else 0%nat.
(** src/dump_history.c:118-136; [u] is usr_hst_cnt. *)
Definition total_hst_cnt (c : hcfg) (u : nat) : nat :=
  9 + h_nscal c + u + b2n (h_adb c) + (if h_mhd c then 3 else 0) + b2n (h_selfg c) + b2n (h_cyl c).
(** src/dump_history.c:472-490 dump_history_enroll: the count of user functions. *)
Definition dump_history_enroll (u : nat) : res nat := if (MAX_USR_H_COUNT <=? u)%nat then Fatal else Ok (S u).

(** The labels of the header, lines 335-453. *)
Inductive hlabel :=
| Ltime | Ldt | Lmass | LtotalE | Lmom (a : axis) | LKE (a : axis) | LME (a : axis) | LgravPE
| Lscalar (n : nat) | LAngMom | Lusr (n : nat).
Definition hst_header (c : hcfg) (u : nat) : list hlabel :=
  [Ltime; Ldt; Lmass] ++ (if h_adb c then [LtotalE] else []) ++
  [Lmom X1; Lmom X2; Lmom X3; LKE X1; LKE X2; LKE X3] ++
  (if h_mhd c then [LME X1; LME X2; LME X3] else []) ++
  (if h_selfg c then [LgravPE] else []) ++
  map Lscalar (seq 0 (h_nscal c)) ++
  (if h_cyl c then [LAngMom] else []) ++
  map Lusr (seq 0 u).

(** The data of one Grid: U, Phi, and the values of the enrolled functions. *)
Record hgrid := HG { hg_U : Z -> Z -> Z -> cons; hg_Phi : Z -> Z -> Z -> R; hg_usr : nat -> Z -> Z -> Z -> R }.

(** An array of doubles; an index outside is undefined behaviour. *)
Definition add_at (a : list R) (m : nat) (x : R) : res (list R) :=
  match nth_error a m with
  | Some v => Ok (firstn m a ++ (v + x) :: skipn (S m) a)
  | None => UB
  end.
Definition set_at (a : list R) (m : nat) (x : R) : res (list R) :=
  if (m <? length a)%nat then Ok (firstn m a ++ x :: skipn (S m) a) else UB.
Definition get_at (a : list R) (m : nat) : res R := match nth_error a m with Some v => Ok v | None => UB end.

(** The right-hand sides of the statements scal[mhst] += ..., lines 180-222 and 271-274;
    mhst starts at 2 and is incremented before each following statement. *)
Definition hst_terms (c : hcfg) (u : nat) (G : hgrid) (dVol x1 : R) (k j i : Z) : list R :=
  let U := hg_U G k j i in
  let d1 := 1 / cd U in
  [dVol * cd U] ++ (if h_adb c then [dVol * cE U] else []) ++
  [dVol * cM1 U; dVol * cM2 U; dVol * cM3 U;
   dVol * (1/2) * (cM1 U * cM1 U) * d1; dVol * (1/2) * (cM2 U * cM2 U) * d1; dVol * (1/2) * (cM3 U * cM3 U) * d1] ++
  (if h_mhd c then [dVol * (1/2) * (cB1 U * cB1 U); dVol * (1/2) * (cB2 U * cB2 U); dVol * (1/2) * (cB3 U * cB3 U)] else []) ++
  (if h_selfg c then [dVol * cd U * hg_Phi G k j i] else []) ++
  map (fun n => dVol * nth n (cs U) 0) (seq 0 (h_nscal c)) ++
  (if h_cyl c then [dVol * (x1 * cM2 U)] else []) ++
  map (fun n => dVol * hg_usr G n k j i) (seq 0 u).
Fixpoint add_terms (scal : list R) (mhst : nat) (es : list R) : res (list R) :=
  match es with
  | [] => Ok scal
  | e :: es' => s <- add_at scal mhst e;; add_terms s (S mhst) es'
  end.
(** Lines 168-178: volume of a cell. *)
Definition cell_dVol (c : hcfg) (pG : pgrid) (x1 : R) : R :=
  let v := 1 in
  let v := if Rlt_dec 0 (p_dx pG X1) then v * p_dx pG X1 else v in
  let v := if Rlt_dec 0 (p_dx pG X2) then v * p_dx pG X2 else v in
  let v := if Rlt_dec 0 (p_dx pG X3) then v * p_dx pG X3 else v in
  if h_cyl c then v * x1 else v.
(** The body of the loop over cells, lines 165-275. *)
Definition hst_cell (c : hcfg) (u : nat) (pG : pgrid) (G : hgrid) (scal : list R) (q : Z * Z * Z) : res (list R) :=
  let '(k, j, i) := q in
  let x1 := fst (fst (cc_pos pG i j k)) in
  add_terms scal 2 (hst_terms c u G (cell_dVol c pG x1) x1 k j i).
Fixpoint fold_res {A B} (f : A -> B -> res A) (l : list B) (a : A) : res A :=
  match l with
  | [] => Ok a
  | x :: l' => a <- f a x;; fold_res f l' a
  end.
Definition zrange (l u : Z) : list Z := map (fun n => (l + Z.of_nat n)%Z) (seq 0 (Z.to_nat (u - l + 1))).
(** for k = ks..ke, for j = js..je, for i = is..ie *)
Definition cells (s e : axis -> Z) : list (Z * Z * Z) :=
  flat_map (fun k => flat_map (fun j => map (fun i => (k, j, i)) (zrange (s X1) (e X1))) (zrange (s X2) (e X2))) (zrange (s X3) (e X3)).
(** Lines 158-160 and 164-276: scal[2..] is cleared, then the cells are added. *)
Definition hst_local (c : hcfg) (u : nat) (nghost : Z) (pG : pgrid) (d : domain) (g : gidx) (G : hgrid) (scal : list R) : res (list R) :=
  scal <- fold_res (fun a i => set_at a i 0) (seq 2 (total_hst_cnt c u - 2)) scal;;
  fold_res (hst_cell c u pG G) (cells (fun a => grid_s nghost d a (gi_ax g a)) (fun a => grid_e nghost d a (gi_ax g a))) scal.
(** MPI_Reduce with MPI_SUM of elements 2..total-1, lines 280-286: what rank 0 of the
    communicator gets in scal[]. *)
Definition hst_reduce (n : nat) (scal0 : list R) (mine : list (list R)) : res (list R) :=
  fold_res (fun a i => set_at a i (fold_right Rplus 0 (map (fun s => nth i s 0) mine))) (seq 2 (n - 2)) scal0.
(** Lines 299-307: division by the volume of the Domain. *)
Definition dom_dVol (c : hcfg) (xmin xmax : axis -> R) (M : mesh) (d : domain) : R :=
  let Max := dom_MaxX xmin xmax M d in
  let Min := dom_MinX xmin xmax M d in
  let v := Max X1 - Min X1 in
  let v := if h_cyl c then 1/2 * (Max X1 * Max X1 - Min X1 * Min X1) else v in
  let v := if (1 <? dm_Nx d X2)%Z then v * (Max X2 - Min X2) else v in
  if (1 <? dm_Nx d X3)%Z then v * (Max X3 - Min X3) else v.
(** Lines 304-306 and 456-459: the average, and the numbers of the line written. *)
Definition hst_line (n : nat) (vol : R) (scal : list R) : res (list R) :=
  s <- fold_res (fun a i => v <- get_at a i;; set_at a i (v / vol)) (seq 2 (n - 2)) scal;;
  fold_right (fun i r => v <- get_at s i;; l <- r;; Ok (v :: l)) (Ok []) (seq 0 n).
(** The processes of the Domain's communicator in the order of their ranks; the process of
    rank [p] holds the Grid number [p] of the triple loop.  [junk p] is what scal[] holds
    on entry on that process. *)
Definition hst_locals (c : hcfg) (u : nat) (nghost : Z) (xmin xmax : axis -> R) (M : mesh) (d : domain)
  (time dt : R) (junk : nat -> list R) (grids : gidx -> hgrid) : res (list (list R)) :=
  fold_right (fun p r =>
    let g := idx_of_pos d p in
    s <- set_at (junk p) 0 time;;
    s <- set_at s 1 dt;;
    s <- hst_local c u nghost (mk_pgrid nghost xmin xmax M d g) d g (grids g) s;;
    l <- r;; Ok (s :: l)) (Ok []) (seq 0 (length (dm_ids d))).
(** Lines 293-460: the process of rank 0 in the communicator, and the process of rank 0 in
    MPI_COMM_WORLD, write; on the latter, if it is not the former, scal[] holds its own sums.
    The result is the list of lines appended to the file. *)
Definition dump_history (c : hcfg) (u : nat) (nghost : Z) (xmin xmax : axis -> R) (M : mesh) (d : domain)
  (time dt : R) (junk : nat -> list R) (grids : gidx -> hgrid) : res (list (list R)) :=
  let n := total_hst_cnt c u in
  mine <- hst_locals c u nghost xmin xmax M d time dt junk grids;;
  fold_right (fun p r =>
    let scal := nth p mine [] in
    scal <- (if (p =? 0)%nat then hst_reduce n scal mine else Ok scal);;
    if ((p =? 0)%nat || (nth p (dm_ids d) (-1) =? 0)%Z)%bool then
      s <- hst_line n (dom_dVol c xmin xmax M d) scal;;
      l <- r;; Ok (s :: l)
    else r) (Ok []) (seq 0 (length (dm_ids d))).
