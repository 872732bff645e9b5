(** * Model of static mesh refinement: overlaps (src/init_grid.c:271-1090) and
    RestrictCorrect (src/smr.c:77-1722)

    Simplifications: arrays are total functions of their indices (allocation and bounds
    are not modelled, except that the extents of the flux and EMF arrays are recorded);
    computations are over the reals; a message is the list of the doubles between
    start_addr and start_addr+nWordsRC, so that sending and receiving (through MPI or by
    a pointer to the send buffer) hands over that list, and reading past its end is an
    error; in-place sums in the send buffer are sums of lists. *)
From Coq Require Import Reals ZArith List Bool Arith.
From Verif Require Import CStr MeshModel.
Import ListNotations.
Open Scope Z_scope.

(** ** Variables and configuration *)
(** The members of ConsS (src/athena.h:100-130). *)
Inductive var := VD | VM1 | VM2 | VM3 | VE | VB1 | VB2 | VB3 | VS (n : nat).
(** BAROTROPIC, MHD, NSCALARS. *)
Record cfg := Cfg { c_baro : bool; c_mhd : bool; c_ns : nat }.
(** The order in which every loop of smr.c loads the members of ConsS, e.g. lines 204-218. *)
Definition vars (c : cfg) : list var :=
  [VD; VM1; VM2; VM3] ++ (if c_baro c then [] else [VE]) ++
  (if c_mhd c then [VB1; VB2; VB3] else []) ++ map VS (seq 0 (c_ns c)).
(** NVAR, src/defs.h.in:164-178. *)
Definition NVAR (c : cfg) : Z :=
  (if c_baro c then (if c_mhd c then 7 else 4) else (if c_mhd c then 8 else 5)) + Z.of_nat (c_ns c).

(** ** Overlaps of parent and child Grids *)
(** GridOvrlpS (src/athena.h): the overlap region, the lengths of the two messages, and
    the extents (slow, fast) of myFlx, myEMF1, myEMF2, myEMF3, [None] for NULL.  The
    boundary 2*dim+s of the code is the pair of the axis and [s]. *)
Record ovl := Ovl { o_s : vec; o_e : vec; o_nRC : Z; o_nP : Z;
  o_flx : axis -> bool -> option (Z * Z);
  o_emf1 : axis -> bool -> option (Z * Z); o_emf2 : axis -> bool -> option (Z * Z); o_emf3 : axis -> bool -> option (Z * Z) }.
Definition axis_eqb (a b : axis) : bool :=
  match a, b with X1, X1 => true | X2, X2 => true | X3, X3 => true | _, _ => false end.
Definition set_arr (f : axis -> bool -> option (Z * Z)) (a : axis) (s : bool) (x : Z * Z) : axis -> bool -> option (Z * Z) :=
  fun b t => if axis_eqb a b && Bool.eqb s t then Some x else f b t.
Definition add_RC (n : Z) (o : ovl) : ovl := Ovl (o_s o) (o_e o) (o_nRC o + n) (o_nP o) (o_flx o) (o_emf1 o) (o_emf2 o) (o_emf3 o).
Definition add_P (n : Z) (o : ovl) : ovl := Ovl (o_s o) (o_e o) (o_nRC o) (o_nP o + n) (o_flx o) (o_emf1 o) (o_emf2 o) (o_emf3 o).
Definition new_flx (a : axis) (s : bool) (x : Z * Z) (o : ovl) : ovl := Ovl (o_s o) (o_e o) (o_nRC o) (o_nP o) (set_arr (o_flx o) a s x) (o_emf1 o) (o_emf2 o) (o_emf3 o).
Definition new_emf1 (a : axis) (s : bool) (x : Z * Z) (o : ovl) : ovl := Ovl (o_s o) (o_e o) (o_nRC o) (o_nP o) (o_flx o) (set_arr (o_emf1 o) a s x) (o_emf2 o) (o_emf3 o).
Definition new_emf2 (a : axis) (s : bool) (x : Z * Z) (o : ovl) : ovl := Ovl (o_s o) (o_e o) (o_nRC o) (o_nP o) (o_flx o) (o_emf1 o) (set_arr (o_emf2 o) a s x) (o_emf3 o).
Definition new_emf3 (a : axis) (s : bool) (x : Z * Z) (o : ovl) : ovl := Ovl (o_s o) (o_e o) (o_nRC o) (o_nP o) (o_flx o) (o_emf1 o) (o_emf2 o) (set_arr (o_emf3 o) a s x).
Definition ext (b : box) (a : axis) : Z := br b a - bl b a.
(** n1z and n2z of a boundary, e.g. src/init_grid.c:500-511. *)
Definition n12z (b : box) (a : axis) : Z * Z :=
  match a with X1 => (ext b X2, ext b X3) | X2 => (ext b X1, ext b X3) | X3 => (ext b X1, ext b X2) end.
(** is, js, ks: src/init_grid.c:76-120 (first active zone along an axis with N cells). *)
Definition gis (ng N : Z) : Z := if 1 <? N then ng else 0.
(** Edges of a Grid. *)
Definition grid_box (d : domain) (g : gidx) : box :=
  Box (fun a => gDisp d a (gi_ax g a)) (fun a => gDisp d a (gi_ax g a) + gNx d a (gi_ax g a)).

(** *** The parent's view (CGrid) *)
(** src/init_grid.c:403-411: edges of the child Grid in units of the parent. *)
Definition child_grid_sides (c : domain) (g : gidx) : box :=
  Box (fun a => gDisp c a (gi_ax g a) / 2)
      (fun a => if 1 <? dm_Nx c a then (gDisp c a (gi_ax g a) + gNx c a (gi_ax g a)) / 2 else 1).
(** src/init_grid.c:498-571 and 580-653: one boundary, whose tests have succeeded. *)
Definition cface (ng : Z) (c : cfg) (pNx : vec) (G3 : box) (a : axis) (s : bool) (o : ovl) : ovl :=
  let (n1z, n2z) := n12z G3 a in
  let vol := ext G3 X1 * ext G3 X2 * ext G3 X3 in
  let n1p := if 0 <? vol then n1z + (if 1 <? pNx X2 then ng + 2 else 0) else 0 in
  let n2p := if 0 <? vol then n2z + (if 1 <? pNx X3 then ng + 2 else 0) else 0 in
  let o := add_RC (n1z * n2z * NVAR c) o in
  let o := add_P ((ng / 2 + 2) * n1p * n2p * NVAR c) o in
  if 0 <? n1z * n2z then
    let o := new_flx a s (n2z, n1z) o in
    if c_mhd c then
      let o := add_P (3 * (ng / 2 + 2) * n1p * n2p) o in
      let o := if (1 <? pNx X2) && negb (axis_eqb a X3)
               then new_emf3 a s (n2z, n1z + 1) (add_RC ((n1z + 1) * n2z) o) else o in
      let o := if (1 <? pNx X3) && axis_eqb a X1
               then new_emf2 a s (n2z + 1, n1z) (add_RC (n1z * (n2z + 1)) o) else o in
      let o := if (1 <? pNx X3) && axis_eqb a X2
               then new_emf1 a s (n2z + 1, n1z) (add_RC (n1z * (n2z + 1)) o) else o in
      if (1 <? pNx X3) && axis_eqb a X3
      then new_emf2 a s (n2z, n1z + 1) (new_emf1 a s (n2z + 1, n1z) (add_RC (n1z * (n2z + 1) + (n1z + 1) * n2z) o)) else o
    else o
  else o.
(** src/init_grid.c:480-496 and 573-578: the tests on the two boundaries of an axis. *)
Definition cdim (ng : Z) (c : cfg) (root : vec) (pNx : vec) (ch : domain) (gc : gidx) (G2 G3 : box) (o : ovl) (a : axis) : ovl :=
  let o := if (bl G2 a =? bl G3 a) && negb (dm_Disp ch a =? 0) && (gi_ax gc a =? 0)%nat
           then cface ng c pNx G3 a false o else o in
  if (br G2 a =? br G3 a) && negb ((dm_Disp ch a + dm_Nx ch a) / irefine (dm_level ch) =? root a)
     && (Z.of_nat (gi_ax gc a) =? dm_NG ch a - 1)
  then cface ng c pNx G3 a true o else o.
(** src/init_grid.c:379-471: the entry of the child Grid [gc] of Domain [ch] in the CGrid
    array of the Grid [gp] of Domain [pa], if there is one. *)
Definition cgrid (ng : Z) (c : cfg) (root : vec) (nDim : nat) (pa : domain) (gp : gidx) (ch : domain) (gc : gidx) : option ovl :=
  if negb (fst (checkOverlap (sides pa) (child_sides ch))) then None else
  let G1 := grid_box pa gp in
  let G2 := child_grid_sides ch gc in
  let (yes, G3) := checkOverlapTouch G1 G2 in
  if negb yes then None else
  let pDisp := bl G1 in let pNx := fun a => gNx pa a (gi_ax gp a) in
  let n1z := ext G3 X1 in let n2z := ext G3 X2 in let n3z := ext G3 X3 in
  let w := n1z * n2z * n3z * NVAR c in
  let w := if c_mhd c && (0 <? w) then
             if (nDim =? 3)%nat then w + ((n1z + 1) * n2z * n3z + n1z * (n2z + 1) * n3z + n1z * n2z * (n3z + 1)) else
             if (nDim =? 2)%nat then w + ((n1z + 1) * n2z + n1z * (n2z + 1)) else w
           else w in
  let o := Ovl (fun a => bl G3 a - pDisp a + gis ng (pNx a)) (fun a => br G3 a - pDisp a + gis ng (pNx a) - 1) w 0
               (fun _ _ => None) (fun _ _ => None) (fun _ _ => None) (fun _ _ => None) in
  Some (fold_left (cdim ng c root pNx ch gc G2 G3) (axes nDim) o).

(** *** The child's view (PGrid) *)
(** src/init_grid.c:834-838: edges of the parent Grid in units of the child. *)
Definition parent_grid_sides (p : domain) (g : gidx) : box :=
  Box (fun a => 2 * gDisp p a (gi_ax g a)) (fun a => 2 * (gDisp p a (gi_ax g a) + gNx p a (gi_ax g a))).
(** src/init_grid.c:743-747: edges of the parent Domain in units of the child. *)
Definition parent_sides (p : domain) : box :=
  Box (fun a => 2 * dm_Disp p a) (fun a => 2 * (dm_Disp p a + dm_Nx p a)).
(** src/init_grid.c:924-934: n1r and n2r. *)
Definition half (n : Z) : Z := if 1 <? n then n / 2 else n.
(** src/init_grid.c:909-994 and 1003-1088: one boundary, whose tests have succeeded. *)
Definition pface (ng : Z) (c : cfg) (cNx : vec) (G3 : box) (a : axis) (s : bool) (o : ovl) : ovl :=
  let (n1z, n2z) := n12z G3 a in
  let n1r := half n1z in let n2r := half n2z in
  let vol := ext G3 X1 * ext G3 X2 * ext G3 X3 in
  let n1p := if 0 <? vol then n1r + (if 1 <? cNx X2 then ng + 2 else 0) else 0 in
  let n2p := if 0 <? vol then n2r + (if 1 <? cNx X3 then ng + 2 else 0) else 0 in
  let o := add_RC (n1r * n2r * NVAR c) o in
  let o := add_P ((ng / 2 + 2) * n1p * n2p * NVAR c) o in
  if 0 <? n1z * n2z then
    let o := new_flx a s (n2z, n1z) o in
    if c_mhd c then
      let o := add_P (3 * (ng / 2 + 2) * n1p * n2p) o in
      let o := if (1 <? cNx X2) && negb (axis_eqb a X3)
               then new_emf3 a s (n2z, n1z + 1) (add_RC ((n1r + 1) * n2r) o) else o in
      let o := if (1 <? cNx X3) && axis_eqb a X1
               then new_emf2 a s (n2z + 1, n1z) (add_RC (n1r * (n2r + 1)) o) else o in
      let o := if (1 <? cNx X3) && axis_eqb a X2
               then new_emf1 a s (n2z + 1, n1z) (add_RC (n1r * (n2r + 1)) o) else o in
      if (1 <? cNx X3) && axis_eqb a X3
      then new_emf2 a s (n2z, n1z + 1) (new_emf1 a s (n2z + 1, n1z) (add_RC (n1r * (n2r + 1) + (n1r + 1) * n2r) o)) else o
    else o
  else o.
(** src/init_grid.c:886-907 and 996-1001: the tests on the two boundaries of an axis. *)
Definition pdim (ng : Z) (c : cfg) (root : vec) (cNx : vec) (ch : domain) (gc : gidx) (G1 G3 : box) (o : ovl) (a : axis) : ovl :=
  let o := if (bl G1 a =? bl G3 a) && negb (dm_Disp ch a =? 0) && (gi_ax gc a =? 0)%nat
           then pface ng c cNx G3 a false o else o in
  if (br G1 a =? br G3 a) && negb ((dm_Disp ch a + dm_Nx ch a) / irefine (dm_level ch) =? root a)
     && (Z.of_nat (gi_ax gc a) =? dm_NG ch a - 1)
  then pface ng c cNx G3 a true o else o.
(** src/init_grid.c:807-884: the entry of the parent Grid [gp] of Domain [pa] in the PGrid
    array of the Grid [gc] of Domain [ch], if there is one. *)
Definition pgrid (ng : Z) (c : cfg) (root : vec) (nDim : nat) (pa : domain) (gp : gidx) (ch : domain) (gc : gidx) : option ovl :=
  if negb (fst (checkOverlap (sides ch) (parent_sides pa))) then None else
  let G1 := grid_box ch gc in
  let G2 := parent_grid_sides pa gp in
  let (yes, G3) := checkOverlapTouch G1 G2 in
  if negb yes then None else
  let cDisp := bl G1 in let cNx := fun a => gNx ch a (gi_ax gc a) in
  let n1z := ext G3 X1 / 2 in
  let n2z := if 1 <? cNx X2 then ext G3 X2 / 2 else 1 in
  let n3z := if 1 <? cNx X3 then ext G3 X3 / 2 else 1 in
  let w := n1z * n2z * n3z * NVAR c in
  let w := if c_mhd c && (0 <? w) then
             if (nDim =? 3)%nat then w + ((n1z + 1) * n2z * n3z + n1z * (n2z + 1) * n3z + n1z * n2z * (n3z + 1)) else
             if (nDim =? 2)%nat then w + ((n1z + 1) * n2z + n1z * (n2z + 1)) else w
           else w in
  let o := Ovl (fun a => bl G3 a - cDisp a + gis ng (cNx a)) (fun a => br G3 a - cDisp a + gis ng (cNx a) - 1) w 0
               (fun _ _ => None) (fun _ _ => None) (fun _ _ => None) (fun _ _ => None) in
  Some (fold_left (pdim ng c root cNx ch gc G1 G3) (axes nDim) o).

(** ** RestrictCorrect *)
(** The part of a Grid that is restricted and corrected, and the stored fluxes and EMFs
    (first index slow, second fast). *)
Record gst := Gst { gU : Z -> Z -> Z -> var -> R; gB1 : Z -> Z -> Z -> R; gB2 : Z -> Z -> Z -> R; gB3 : Z -> Z -> Z -> R }.
Record flx := Flx { f_flx : axis -> bool -> Z -> Z -> var -> R;
  f_emf1 : axis -> bool -> Z -> Z -> R; f_emf2 : axis -> bool -> Z -> Z -> R; f_emf3 : axis -> bool -> Z -> Z -> R }.
(** for (k=s; k<=e; k++) and for (k=s; k<=e; k+=2). *)
Definition upto (s e : Z) : list Z := map (fun n => s + Z.of_nat n) (seq 0 (Z.to_nat (e - s + 1))).
Definition upto2 (s e : Z) : list Z := map (fun n => s + 2 * Z.of_nat n) (seq 0 (Z.to_nat ((e - s) / 2 + 1))).
(** Nested loops, the last one innermost. *)
Definition cells2 {A B : Type} (P : list A) (Q : list B) : list (A * B) := flat_map (fun p => map (fun q => (p, q)) Q) P.
Definition cells3 (K J I : list Z) : list (Z * Z * Z) := cells2 (cells2 K J) I.
Definition some {A : Type} (o : option A) : bool := match o with Some _ => true | None => false end.

(** *** Step 3: the message of the child *)
Local Open Scope R_scope.
(** Buffer[i] += ... *)
Fixpoint addl (l m : list R) : list R :=
  match l, m with x :: l', y :: m' => (x + y) :: addl l' m' | _, _ => l end.
(** for (i=start; i<start+n; i++) *(pSnd++) *= fact. *)
Definition scale (n : Z) (fact : R) (l : list R) : list R :=
  map (fun x => x * fact) (firstn (Z.to_nat n) l) ++ skipn (Z.to_nat n) l.
(** Step 3a, src/smr.c:1104-1211. *)
Definition pack_cons (c : cfg) (nDim : nat) (o : ovl) (g : gst) : list R :=
  let ips := o_s o X1 in let ipe := o_e o X1 in let jps := o_s o X2 in let jpe := o_e o X2 in
  let kps := o_s o X3 in let kpe := o_e o X3 in
  let ps := cells2 (cells3 (upto2 kps kpe) (upto2 jps jpe) (upto2 ips ipe)) (vars c) in
  let b1 := map (fun '((k, j, i), v) => gU g k j i v + gU g k j (i + 1)%Z v) ps in
  let b2 := if (2 <=? nDim)%nat then addl b1 (map (fun '((k, j, i), v) => gU g k (j + 1)%Z i v + gU g k (j + 1)%Z (i + 1)%Z v) ps) else b1 in
  let b3 := if (3 <=? nDim)%nat then addl b2 (map (fun '((k, j, i), v) =>
               gU g (k + 1)%Z j i v + gU g (k + 1)%Z j (i + 1)%Z v + gU g (k + 1)%Z (j + 1)%Z i v + gU g (k + 1)%Z (j + 1)%Z (i + 1)%Z v) ps) else b2 in
  if (3 <=? nDim)%nat then scale ((kpe - kps + 1) * (jpe - jps + 1) * (ipe - ips + 1) * NVAR c / 8)%Z (1/8) b3 else
  if (2 <=? nDim)%nat then scale ((jpe - jps + 1) * (ipe - ips + 1) * NVAR c / 4)%Z (1/4) b2 else
  scale ((ipe - ips + 1) * NVAR c / 2)%Z (1/2) b1.
(** Step 3b, src/smr.c:1213-1273 (MHD). *)
Definition pack_fld (nDim : nat) (o : ovl) (g : gst) : list R :=
  let ips := o_s o X1 in let ipe := o_e o X1 in let jps := o_s o X2 in let jpe := o_e o X2 in
  let kps := o_s o X3 in let kpe := o_e o X3 in
  if (nDim =? 3)%nat then
    (if (ips <? ipe)%Z then map (fun '(k, j, i) => 1/4 * (gB1 g k j i + gB1 g k (j + 1)%Z i + gB1 g (k + 1)%Z j i + gB1 g (k + 1)%Z (j + 1)%Z i))
       (cells3 (upto2 kps kpe) (upto2 jps jpe) (upto2 ips (ipe + 1))) else []) ++
    (if (jps <? jpe)%Z then map (fun '(k, j, i) => 1/4 * (gB2 g k j i + gB2 g k j (i + 1)%Z + gB2 g (k + 1)%Z j i + gB2 g (k + 1)%Z j (i + 1)%Z))
       (cells3 (upto2 kps kpe) (upto2 jps (jpe + 1)) (upto2 ips ipe)) else []) ++
    (if (kps <? kpe)%Z then map (fun '(k, j, i) => 1/4 * (gB3 g k j i + gB3 g k j (i + 1)%Z + gB3 g k (j + 1)%Z i + gB3 g k (j + 1)%Z (i + 1)%Z))
       (cells3 (upto2 kps (kpe + 1)) (upto2 jps jpe) (upto2 ips ipe)) else [])
  else if (nDim =? 2)%nat then
    (if (ips <? ipe)%Z then map (fun '(j, i) => 1/2 * (gB1 g kps j i + gB1 g kps (j + 1)%Z i)) (cells2 (upto2 jps jpe) (upto2 ips (ipe + 1))) else []) ++
    (if (jps <? jpe)%Z then map (fun '(j, i) => 1/2 * (gB2 g kps j i + gB2 g kps j (i + 1)%Z)) (cells2 (upto2 jps (jpe + 1)) (upto2 ips ipe)) else [])
  else [].
(** Step 3c, x1-faces, src/smr.c:1276-1361. *)
Definition pack_flx1 (c : cfg) (nDim : nat) (o : ovl) (f : flx) (s : bool) : list R :=
  let jps := o_s o X2 in let jpe := o_e o X2 in let kps := o_s o X3 in let kpe := o_e o X3 in
  let F := f_flx f X1 s in
  if negb (some (o_flx o X1 s)) then [] else
  if (nDim =? 1)%nat then map (F kps jps) (vars c) else
  let ps := cells2 (cells2 (upto2 0 (kpe - kps)) (upto2 0 (jpe - jps))) (vars c) in
  let b1 := map (fun '((k, j), v) => F k j v + F k (j + 1)%Z v) ps in
  if (nDim =? 3)%nat
  then scale ((kpe - kps + 1) * (jpe - jps + 1) / 4 * NVAR c)%Z (1/4) (addl b1 (map (fun '((k, j), v) => F (k + 1)%Z j v + F (k + 1)%Z (j + 1)%Z v) ps))
  else scale ((jpe - jps + 1) / 2 * NVAR c)%Z (1/2) b1.
(** Step 3c, x2-faces, src/smr.c:1363-1425. *)
Definition pack_flx2 (c : cfg) (nDim : nat) (o : ovl) (f : flx) (s : bool) : list R :=
  let ips := o_s o X1 in let ipe := o_e o X1 in let kps := o_s o X3 in let kpe := o_e o X3 in
  let F := f_flx f X2 s in
  if negb (some (o_flx o X2 s)) then [] else
  let ps := cells2 (cells2 (upto2 0 (kpe - kps)) (upto2 0 (ipe - ips))) (vars c) in
  let b1 := map (fun '((k, i), v) => F k i v + F k (i + 1)%Z v) ps in
  if (nDim =? 3)%nat
  then scale ((kpe - kps + 1) * (ipe - ips + 1) / 4 * NVAR c)%Z (1/4) (addl b1 (map (fun '((k, i), v) => F (k + 1)%Z i v + F (k + 1)%Z (i + 1)%Z v) ps))
  else scale ((ipe - ips + 1) / 2 * NVAR c)%Z (1/2) b1.
(** Step 3c, x3-faces, src/smr.c:1427-1486. *)
Definition pack_flx3 (c : cfg) (o : ovl) (f : flx) (s : bool) : list R :=
  let ips := o_s o X1 in let ipe := o_e o X1 in let jps := o_s o X2 in let jpe := o_e o X2 in
  let F := f_flx f X3 s in
  if negb (some (o_flx o X3 s)) then [] else
  let ps := cells2 (cells2 (upto2 0 (jpe - jps)) (upto2 0 (ipe - ips))) (vars c) in
  let b1 := map (fun '((j, i), v) => F j i v + F j (i + 1)%Z v) ps in
  scale ((jpe - jps + 1) * (ipe - ips + 1) / 4 * NVAR c)%Z (1/4) (addl b1 (map (fun '((j, i), v) => F (j + 1)%Z i v + F (j + 1)%Z (i + 1)%Z v) ps)).
(** Step 3d, x1-faces, src/smr.c:1496-1530. *)
Definition pack_emf1 (nDim : nat) (o : ovl) (f : flx) (s : bool) : list R :=
  let nj := (o_e o X2 - o_s o X2)%Z in let nk := (o_e o X3 - o_s o X3)%Z in
  let E3 := f_emf3 f X1 s in let E2 := f_emf2 f X1 s in
  if negb (some (o_emf3 o X1 s)) then [] else
  if negb (nDim =? 3)%nat then map (fun '(k, j) => E3 k j) (cells2 (upto2 0 nk) (upto2 0 (nj + 1))) else
  map (fun '(k, j) => 1/2 * (E3 k j + E3 (k + 1)%Z j)) (cells2 (upto2 0 nk) (upto2 0 (nj + 1))) ++
  map (fun '(k, j) => 1/2 * (E2 k j + E2 k (j + 1)%Z)) (cells2 (upto2 0 (nk + 1)) (upto2 0 nj)).
(** Step 3d, x2-faces, src/smr.c:1532-1562. *)
Definition pack_emf2 (nDim : nat) (o : ovl) (f : flx) (s : bool) : list R :=
  let ni := (o_e o X1 - o_s o X1)%Z in let nk := (o_e o X3 - o_s o X3)%Z in
  let E3 := f_emf3 f X2 s in let E1 := f_emf1 f X2 s in
  if negb (some (o_emf3 o X2 s)) then [] else
  if negb (nDim =? 3)%nat then map (fun '(k, i) => E3 k i) (cells2 (upto2 0 nk) (upto2 0 (ni + 1))) else
  map (fun '(k, i) => 1/2 * (E3 k i + E3 (k + 1)%Z i)) (cells2 (upto2 0 nk) (upto2 0 (ni + 1))) ++
  map (fun '(k, i) => 1/2 * (E1 k i + E1 k (i + 1)%Z)) (cells2 (upto2 0 (nk + 1)) (upto2 0 ni)).
(** Step 3d, x3-faces, src/smr.c:1564-1585. *)
Definition pack_emf3 (o : ovl) (f : flx) (s : bool) : list R :=
  let ni := (o_e o X1 - o_s o X1)%Z in let nj := (o_e o X2 - o_s o X2)%Z in
  let E1 := f_emf1 f X3 s in let E2 := f_emf2 f X3 s in
  if negb (some (o_emf1 o X3 s)) then [] else
  map (fun '(j, i) => 1/2 * (E1 j i + E1 j (i + 1)%Z)) (cells2 (upto2 0 (nj + 1)) (upto2 0 ni)) ++
  map (fun '(j, i) => 1/2 * (E2 j i + E2 (j + 1)%Z i)) (cells2 (upto2 0 nj) (upto2 0 (ni + 1))).
(** Step 3, src/smr.c:1065-1605, for one parent Grid: the doubles written from
    send_bufRC[nd][start_addr] on.  The tests on pG->Nx[] are tests on nDim. *)
Definition pack_RC (c : cfg) (nDim : nat) (o : ovl) (g : gst) (f : flx) : list R :=
  pack_cons c nDim o g ++ (if c_mhd c then pack_fld nDim o g else []) ++
  pack_flx1 c nDim o f false ++ pack_flx1 c nDim o f true ++
  pack_flx2 c nDim o f false ++ pack_flx2 c nDim o f true ++
  pack_flx3 c o f false ++ pack_flx3 c o f true ++
  (if c_mhd c then
     pack_emf1 nDim o f false ++ pack_emf1 nDim o f true ++
     pack_emf2 nDim o f false ++ pack_emf2 nDim o f true ++
     pack_emf3 o f false ++ pack_emf3 o f true else []).

(** *** Steps 1 and 2: the parent *)
(** A loop that reads one double from the message at every position. *)
Fixpoint rd_loop {P T : Type} (body : P -> R -> T -> T) (ps : list P) (t : T) (m : list R) : option (T * list R) :=
  match ps with
  | [] => Some (t, m)
  | p :: ps' => match m with
                | [] => None
                | x :: m' => rd_loop body ps' (body p x t) m'
                end
  end.
Definition bnd {A B : Type} (r : option (A * list R)) (k : A -> list R -> option (B * list R)) : option (B * list R) :=
  match r with Some (a, m) => k a m | None => None end.
Definition upd2 (f : Z -> Z -> R) (k j : Z) (x : R) : Z -> Z -> R :=
  fun k' j' => if ((k' =? k) && (j' =? j))%Z then x else f k' j'.
Definition upd3 (f : Z -> Z -> Z -> R) (p : Z * Z * Z) (x : R) : Z -> Z -> Z -> R :=
  let '(k, j, i) := p in
  fun k' j' i' => if ((k' =? k) && (j' =? j) && (i' =? i))%Z then x else f k' j' i'.
Definition var_eq_dec (v w : var) : {v = w} + {v <> w}.
Proof. decide equality. apply Nat.eq_dec. Defined.
Definition updU (f : Z -> Z -> Z -> var -> R) (p : Z * Z * Z) (v : var) (x : R) : Z -> Z -> Z -> var -> R :=
  let '(k, j, i) := p in
  fun k' j' i' w => if ((k' =? k) && (j' =? j) && (i' =? i))%Z then (if var_eq_dec w v then x else f k' j' i' w) else f k' j' i' w.
Definition setU (g : gst) (p : Z * Z * Z) (v : var) (x : R) : gst := Gst (updU (gU g) p v x) (gB1 g) (gB2 g) (gB3 g).
Definition at3 {A : Type} (f : Z -> Z -> Z -> A) (p : Z * Z * Z) : A := let '(k, j, i) := p in f k j i.
(** A loop B[p] = h p B[p]. *)
Definition loopB (h : Z * Z * Z -> R -> R) (ps : list (Z * Z * Z)) (B : Z -> Z -> Z -> R) : Z -> Z -> Z -> R :=
  fold_left (fun B p => upd3 B p (h p (at3 B p))) ps B.
Definition onB1 (F : (Z -> Z -> Z -> R) -> Z -> Z -> Z -> R) (g : gst) : gst := Gst (gU g) (F (gB1 g)) (gB2 g) (gB3 g).
Definition onB2 (F : (Z -> Z -> Z -> R) -> Z -> Z -> Z -> R) (g : gst) : gst := Gst (gU g) (gB1 g) (F (gB2 g)) (gB3 g).
Definition onB3 (F : (Z -> Z -> Z -> R) -> Z -> Z -> Z -> R) (g : gst) : gst := Gst (gU g) (gB1 g) (gB2 g) (F (gB3 g)).
(** Loops that set a cell-centred field from the face-centred one. *)
Definition centre1 (ps : list (Z * Z * Z)) (g : gst) : gst :=
  fold_left (fun g '(k, j, i) => setU g (k, j, i) VB1 (1/2 * (gB1 g k j i + gB1 g k j (i + 1)%Z))) ps g.
Definition centre2 (ps : list (Z * Z * Z)) (g : gst) : gst :=
  fold_left (fun g '(k, j, i) => setU g (k, j, i) VB2 (1/2 * (gB2 g k j i + gB2 g k (j + 1)%Z i))) ps g.
Definition centre3 (ps : list (Z * Z * Z)) (g : gst) : gst :=
  fold_left (fun g '(k, j, i) => setU g (k, j, i) VB3 (1/2 * (gB3 g k j i + gB3 g (k + 1)%Z j i))) ps g.

(** Step 1b, src/smr.c:198-222. *)
Definition get_cons (c : cfg) (o : ovl) (g : gst) : list R -> option (gst * list R) :=
  rd_loop (fun '(p, v) x g => setU g p v x)
    (cells2 (cells3 (upto (o_s o X3) (o_e o X3)) (upto (o_s o X2) (o_e o X2)) (upto (o_s o X1) (o_e o X1))) (vars c)) g.
(** Step 1c: the doubles read for B1i, and whether each is stored: src/smr.c:239-259
    (2D, where kce = kcs) and 299-321 (3D). *)
Definition b1_reads (o : ovl) : list (Z * Z * Z * bool) :=
  let ics := o_s o X1 in let ice := o_e o X1 in
  flat_map (fun '(k, j, i) =>
    (if (i =? ics + 1)%Z then [(k, j, ics, negb (some (o_flx o X1 false)))] else []) ++
    [(k, j, i, true)] ++
    (if (i =? ice)%Z then [(k, j, (ice + 1)%Z, negb (some (o_flx o X1 true)))] else []))
    (cells3 (upto (o_s o X3) (o_e o X3)) (upto (o_s o X2) (o_e o X2)) (upto (ics + 1) ice)).
(** B2i: src/smr.c:261-286 (2D, kce = kcs) and 323-342 (3D). *)
Definition b2_reads (o : ovl) : list (Z * Z * Z * bool) :=
  let jcs := o_s o X2 in let jce := o_e o X2 in
  let I := upto (o_s o X1) (o_e o X1) in
  if (jcs <? jce)%Z then
    flat_map (fun k =>
      map (fun i => (k, jcs, i, negb (some (o_flx o X2 false)))) I ++
      map (fun '(j, i) => (k, j, i, true)) (cells2 (upto (jcs + 1) jce) I) ++
      map (fun i => (k, (jce + 1)%Z, i, negb (some (o_flx o X2 true)))) I)
      (upto (o_s o X3) (o_e o X3))
  else [].
(** B3i: src/smr.c:344-369 (3D). *)
Definition b3_reads (o : ovl) : list (Z * Z * Z * bool) :=
  let kcs := o_s o X3 in let kce := o_e o X3 in
  let J := upto (o_s o X2) (o_e o X2) in let I := upto (o_s o X1) (o_e o X1) in
  (if (kcs <? kce)%Z then map (fun '(j, i) => (kcs, j, i, negb (some (o_flx o X3 false)))) (cells2 J I) else []) ++
  map (fun p => (p, true)) (cells3 (upto (kcs + 1) kce) J I) ++
  (if (kcs <? kce)%Z then map (fun '(j, i) => ((kce + 1)%Z, j, i, negb (some (o_flx o X3 true)))) (cells2 J I) else []).
Definition store (q : Z * Z * Z * bool) (x : R) (B : Z -> Z -> Z -> R) : Z -> Z -> Z -> R :=
  let (p, b) := q in if b then upd3 B p x else B.
(** Step 1c, src/smr.c:224-382 (MHD). *)
Definition get_fld (nDim : nat) (o : ovl) (g : gst) (m : list R) : option (gst * list R) :=
  let ps := cells3 (upto (o_s o X3) (o_e o X3)) (upto (o_s o X2) (o_e o X2)) (upto (o_s o X1) (o_e o X1)) in
  if (nDim =? 1)%nat then
    Some (fold_left (fun g p => Gst (gU g) (upd3 (gB1 g) p (at3 (gU g) p VB1)) (upd3 (gB2 g) p (at3 (gU g) p VB2)) (upd3 (gB3 g) p (at3 (gU g) p VB3))) ps g, m)
  else
    bnd (rd_loop store (b1_reads o) (gB1 g) m) (fun B1 m =>
    bnd (rd_loop store (b2_reads o) (gB2 g) m) (fun B2 m =>
    if (nDim =? 2)%nat then
      let g := centre2 ps (centre1 ps (Gst (gU g) B1 B2 (gB3 g))) in
      Some (onB3 (loopB (fun p _ => at3 (gU g) p VB3) ps) g, m)
    else
      bnd (rd_loop store (b3_reads o) (gB3 g) m) (fun B3 m =>
      Some (centre3 ps (centre2 ps (centre1 ps (Gst (gU g) B1 B2 B3))), m)))).

(** Step 2a, src/smr.c:384-470: the x1-, x2- and x3-faces.  [r1] is dt/dx1, and so on; a
    position is the pair of indices in myFlx. *)
Definition sgn (s : bool) (x : R) : R := if s then x else - x.
Definition corr1 (c : cfg) (o : ovl) (r1 : R) (f : flx) (s : bool) (g : gst) (m : list R) : option (gst * list R) :=
  if negb (some (o_flx o X1 s)) then Some (g, m) else
  let i := if s then (o_e o X1 + 1)%Z else (o_s o X1 - 1)%Z in
  rd_loop (fun '((kk, jj), v) x g => let p := ((o_s o X3 + kk)%Z, (o_s o X2 + jj)%Z, i) in
             setU g p v (at3 (gU g) p v - sgn s r1 * (f_flx f X1 s kk jj v - x)))
    (cells2 (cells2 (upto 0 (o_e o X3 - o_s o X3)) (upto 0 (o_e o X2 - o_s o X2))) (vars c)) g m.
Definition corr2 (c : cfg) (o : ovl) (r2 : R) (f : flx) (s : bool) (g : gst) (m : list R) : option (gst * list R) :=
  if negb (some (o_flx o X2 s)) then Some (g, m) else
  let j := if s then (o_e o X2 + 1)%Z else (o_s o X2 - 1)%Z in
  rd_loop (fun '((kk, ii), v) x g => let p := ((o_s o X3 + kk)%Z, j, (o_s o X1 + ii)%Z) in
             setU g p v (at3 (gU g) p v - sgn s r2 * (f_flx f X2 s kk ii v - x)))
    (cells2 (cells2 (upto 0 (o_e o X3 - o_s o X3)) (upto 0 (o_e o X1 - o_s o X1))) (vars c)) g m.
Definition corr3 (c : cfg) (o : ovl) (r3 : R) (f : flx) (s : bool) (g : gst) (m : list R) : option (gst * list R) :=
  if negb (some (o_flx o X3 s)) then Some (g, m) else
  let k := if s then (o_e o X3 + 1)%Z else (o_s o X3 - 1)%Z in
  rd_loop (fun '((jj, ii), v) x g => let p := (k, (o_s o X2 + jj)%Z, (o_s o X1 + ii)%Z) in
             setU g p v (at3 (gU g) p v - sgn s r3 * (f_flx f X3 s jj ii v - x)))
    (cells2 (cells2 (upto 0 (o_e o X2 - o_s o X2)) (upto 0 (o_e o X1 - o_s o X1))) (vars c)) g m.

(** Step 2b.  The loops that read SMRemf and use the double just read are split into a
    loop that reads and one that computes; SMRemf is not used outside the elements read. *)
Definition rd_emf (K J : list Z) : list R -> option ((Z -> Z -> R) * list R) :=
  rd_loop (fun '(k, j) x e => upd2 e k j x) (cells2 K J) (fun _ _ => 0).
(** x1-faces, src/smr.c:481-604.  [ie], [je], [ke] belong to the Grid. *)
Definition emfs1 (nDim : nat) (o : ovl) (je ke : Z) (r1 r2 r3 : R) (f : flx) (s : bool) (g : gst) (m : list R) : option (gst * list R) :=
  if negb (some (o_emf3 o X1 s)) then Some (g, m) else
  let ics := o_s o X1 in let ice := o_e o X1 in let jcs := o_s o X2 in let jce := o_e o X2 in
  let kcs := o_s o X3 in let kce := o_e o X3 in
  let i := if s then (ice + 1)%Z else (ics - 1)%Z in
  let ib := if s then (ice + 1)%Z else ics in
  let q1 := sgn s r1 in let q2 := - r2 in let q3 := - r3 in
  let E3 := f_emf3 f X1 s in let E2 := f_emf2 f X1 s in
  bnd (rd_emf (upto 0 (kce - kcs)) (upto 0 (jce - jcs + 1)) m) (fun S3 m =>
  let jl := if some (o_emf3 o X2 true) || (jce =? je)%Z || (ice <? ics)%Z then (jce + 1)%Z else jce in
  let g := onB2 (loopB (fun '(k, j, _) b => b + q1 * (E3 (k - kcs)%Z (j - jcs)%Z - S3 (k - kcs)%Z (j - jcs)%Z))
                 (cells3 (upto kcs kce) (upto jcs jl) [i])) g in
  let g := onB1 (loopB (fun '(k, j, _) b => let kk := (k - kcs)%Z in let jj := (j - jcs)%Z in
                   b - (q2 * (E3 kk (jj + 1)%Z - S3 kk (jj + 1)%Z) - q2 * (E3 kk jj - S3 kk jj)))
                 (cells3 (upto kcs kce) (upto jcs jce) [ib])) g in
  let g := if (ice <? ics)%Z then
             onB1 (fun B => loopB (fun '(k, _, _) b => let kk := (k - kcs)%Z in b + q2 * (E3 kk (jce - jcs + 1)%Z - S3 kk (jce - jcs + 1)%Z)) (cells3 (upto kcs kce) [(jce + 1)%Z] [ib])
                           (loopB (fun '(k, _, _) b => let kk := (k - kcs)%Z in b - q2 * (E3 kk 0%Z - S3 kk 0%Z)) (cells3 (upto kcs kce) [(jcs - 1)%Z] [ib]) B)) g
           else g in
  bnd (if (nDim =? 3)%nat then
         bnd (rd_emf (upto 0 (kce - kcs + 1)) (upto 0 (jce - jcs)) m) (fun S2 m =>
         let kl := if some (o_emf2 o X3 true) || (kce =? ke)%Z || (ice <? ics)%Z then (kce + 1)%Z else kce in
         let g := onB3 (loopB (fun '(k, j, _) b => b - q1 * (E2 (k - kcs)%Z (j - jcs)%Z - S2 (k - kcs)%Z (j - jcs)%Z))
                        (cells3 (upto kcs kl) (upto jcs jce) [i])) g in
         let g := onB1 (loopB (fun '(k, j, _) b => let kk := (k - kcs)%Z in let jj := (j - jcs)%Z in
                          b + (q3 * (E2 (kk + 1)%Z jj - S2 (kk + 1)%Z jj) - q3 * (E2 kk jj - S2 kk jj)))
                        (cells3 (upto kcs kce) (upto jcs jce) [ib])) g in
         let g := if (ice <? ics)%Z then
                    onB1 (fun B => loopB (fun '(_, j, _) b => let jj := (j - jcs)%Z in b - q3 * (E2 (kce - kcs + 1)%Z jj - S2 (kce - kcs + 1)%Z jj)) (cells3 [(kce + 1)%Z] (upto jcs jce) [ib])
                                  (loopB (fun '(_, j, _) b => let jj := (j - jcs)%Z in b + q3 * (E2 0%Z jj - S2 0%Z jj)) (cells3 [(kcs - 1)%Z] (upto jcs jce) [ib]) B)) g
                  else g in
         Some (centre3 (cells3 (upto (kcs - 1) (kce + 1)) (upto jcs jce) [i]) g, m))
       else Some (g, m)) (fun g m =>
  let g := centre1 (cells3 (upto kcs kce) (upto jcs jce) [ib; (ib - 1)%Z]) g in
  Some (centre2 (cells3 (upto kcs kce) (upto (jcs - 1) (jce + 1)) [i]) g, m))).
(** x2-faces, src/smr.c:606-705. *)
Definition emfs2 (nDim : nat) (o : ovl) (ie ke : Z) (r1 r2 r3 : R) (f : flx) (s : bool) (g : gst) (m : list R) : option (gst * list R) :=
  if negb (some (o_emf3 o X2 s)) then Some (g, m) else
  let ics := o_s o X1 in let ice := o_e o X1 in let jcs := o_s o X2 in let jce := o_e o X2 in
  let kcs := o_s o X3 in let kce := o_e o X3 in
  let j := if s then (jce + 1)%Z else (jcs - 1)%Z in
  let jb := if s then (jce + 1)%Z else jcs in
  let q1 := - r1 in let q2 := sgn s r2 in let q3 := - r3 in
  let E3 := f_emf3 f X2 s in let E1 := f_emf1 f X2 s in
  bnd (rd_emf (upto 0 (kce - kcs)) (upto 0 (ice - ics + 1)) m) (fun S3 m =>
  let il := if some (o_emf3 o X1 true) || (ice =? ie)%Z || (jce <? jcs)%Z then (ice + 1)%Z else ice in
  let g := onB1 (loopB (fun '(k, _, i) b => b - q2 * (E3 (k - kcs)%Z (i - ics)%Z - S3 (k - kcs)%Z (i - ics)%Z))
                 (cells3 (upto kcs kce) [j] (upto ics il))) g in
  let g := onB2 (loopB (fun '(k, _, i) b => let kk := (k - kcs)%Z in let ii := (i - ics)%Z in
                   b + (q1 * (E3 kk (ii + 1)%Z - S3 kk (ii + 1)%Z) - q1 * (E3 kk ii - S3 kk ii)))
                 (cells3 (upto kcs kce) [jb] (upto ics ice))) g in
  let g := if (jce <? jcs)%Z then
             onB2 (fun B => loopB (fun '(k, _, _) b => let kk := (k - kcs)%Z in b - q1 * (E3 kk (ice - ics + 1)%Z - S3 kk (ice - ics + 1)%Z)) (cells3 (upto kcs kce) [jb] [(ice + 1)%Z])
                           (loopB (fun '(k, _, _) b => let kk := (k - kcs)%Z in b + q1 * (E3 kk 0%Z - S3 kk 0%Z)) (cells3 (upto kcs kce) [jb] [(ics - 1)%Z]) B)) g
           else g in
  bnd (if (nDim =? 3)%nat then
         bnd (rd_emf (upto 0 (kce - kcs + 1)) (upto 0 (ice - ics)) m) (fun S1 m =>
         let kl := if some (o_emf1 o X3 true) || (kce =? ke)%Z || (jce <? jcs)%Z then (kce + 1)%Z else kce in
         let g := onB3 (loopB (fun '(k, _, i) b => b + q2 * (E1 (k - kcs)%Z (i - ics)%Z - S1 (k - kcs)%Z (i - ics)%Z))
                        (cells3 (upto kcs kl) [j] (upto ics ice))) g in
         let g := onB2 (loopB (fun '(k, _, i) b => let kk := (k - kcs)%Z in let ii := (i - ics)%Z in
                          b - (q3 * (E1 (kk + 1)%Z ii - S1 (kk + 1)%Z ii) - q3 * (E1 kk ii - S1 kk ii)))
                        (cells3 (upto kcs kce) [jb] (upto ics ice))) g in
         let g := if (jce <? jcs)%Z then
                    onB2 (fun B => loopB (fun '(_, _, i) b => let ii := (i - ics)%Z in b + q3 * (E1 (kce - kcs + 1)%Z ii - S1 (kce - kcs + 1)%Z ii)) (cells3 [(kce + 1)%Z] [jb] (upto ics ice))
                                  (loopB (fun '(_, _, i) b => let ii := (i - ics)%Z in b - q3 * (E1 0%Z ii - S1 0%Z ii)) (cells3 [(kcs - 1)%Z] [jb] (upto ics ice)) B)) g
                  else g in
         Some (centre3 (cells3 (upto (kcs - 1) (kce + 1)) [j] (upto ics ice)) g, m))
       else Some (g, m)) (fun g m =>
  let g := centre1 (cells3 (upto kcs kce) [j] (upto (ics - 1) (ice + 1))) g in
  Some (centre2 (cells3 (upto kcs kce) [jb; (jb - 1)%Z] (upto ics ice)) g, m))).
(** x3-faces, src/smr.c:707-800. *)
Definition emfs3 (o : ovl) (ie je : Z) (r1 r2 r3 : R) (f : flx) (s : bool) (g : gst) (m : list R) : option (gst * list R) :=
  if negb (some (o_emf1 o X3 s)) then Some (g, m) else
  let ics := o_s o X1 in let ice := o_e o X1 in let jcs := o_s o X2 in let jce := o_e o X2 in
  let kcs := o_s o X3 in let kce := o_e o X3 in
  let k := if s then (kce + 1)%Z else (kcs - 1)%Z in
  let kb := if s then (kce + 1)%Z else kcs in
  let q1 := - r1 in let q2 := - r2 in let q3 := sgn s r3 in
  let E1 := f_emf1 f X3 s in let E2 := f_emf2 f X3 s in
  bnd (rd_emf (upto 0 (jce - jcs + 1)) (upto 0 (ice - ics)) m) (fun S1 m =>
  let jl := if some (o_emf1 o X2 true) || (jce =? je)%Z || (kce <? kcs)%Z then (jce + 1)%Z else jce in
  let g := onB2 (loopB (fun '(_, j, i) b => b - q3 * (E1 (j - jcs)%Z (i - ics)%Z - S1 (j - jcs)%Z (i - ics)%Z))
                 (cells3 [k] (upto jcs jl) (upto ics ice))) g in
  bnd (rd_emf (upto 0 (jce - jcs)) (upto 0 (ice - ics + 1)) m) (fun S2 m =>
  let il := if some (o_emf2 o X1 true) || (ice =? ie)%Z || (kce <? kcs)%Z then (ice + 1)%Z else ice in
  let g := onB1 (loopB (fun '(_, j, i) b => b + q3 * (E2 (j - jcs)%Z (i - ics)%Z - S2 (j - jcs)%Z (i - ics)%Z))
                 (cells3 [k] (upto jcs jce) (upto ics il))) g in
  let g := onB3 (loopB (fun '(_, j, i) b => let jj := (j - jcs)%Z in let ii := (i - ics)%Z in
                   b + (q2 * (E1 (jj + 1)%Z ii - S1 (jj + 1)%Z ii) - q2 * (E1 jj ii - S1 jj ii)
                        - q1 * (E2 jj (ii + 1)%Z - S2 jj (ii + 1)%Z) + q1 * (E2 jj ii - S2 jj ii)))
                 (cells3 [kb] (upto jcs jce) (upto ics ice))) g in
  let g := if (kce <? kcs)%Z then
             onB3 (fun B =>
               let B := loopB (fun '(_, j, _) b => let jj := (j - jcs)%Z in b - q1 * (E2 jj 0%Z - S2 jj 0%Z)) (cells3 [kb] (upto jcs jce) [(ics - 1)%Z]) B in
               let B := loopB (fun '(_, j, _) b => let jj := (j - jcs)%Z in b + q1 * (E2 jj (ice - ics + 1)%Z - S2 jj (ice - ics + 1)%Z)) (cells3 [kb] (upto jcs jce) [(ice + 1)%Z]) B in
               let B := loopB (fun '(_, _, i) b => let ii := (i - ics)%Z in b + q2 * (E1 0%Z ii - S1 0%Z ii)) (cells3 [kb] [(jcs - 1)%Z] (upto ics ice)) B in
               loopB (fun '(_, _, i) b => let ii := (i - ics)%Z in b - q2 * (E1 (jce - jcs + 1)%Z ii - S1 (jce - jcs + 1)%Z ii)) (cells3 [kb] [(jce + 1)%Z] (upto ics ice)) B) g
           else g in
  let g := centre1 (cells3 [k] (upto jcs jce) (upto (ics - 1) (ice + 1))) g in
  let g := centre2 (cells3 [k] (upto (jcs - 1) (jce + 1)) (upto ics ice)) g in
  Some (centre3 (cells3 [kb; (kb - 1)%Z] (upto jcs jce) (upto ics ice)) g, m))).

(** Steps 1 and 2 for one child Grid, src/smr.c:143-805.  [last] gives ie, je and ke of
    the parent Grid, [r1], [r2], [r3] are dt/dx1, dt/dx2 and dt/dx3 of the parent Grid. *)
Definition correct_RC (c : cfg) (nDim : nat) (o : ovl) (last : vec) (r1 r2 r3 : R) (f : flx) (g : gst) (m : list R) : option (gst * list R) :=
  bnd (get_cons c o g m) (fun g m =>
  bnd (if c_mhd c then get_fld nDim o g m else Some (g, m)) (fun g m =>
  bnd (corr1 c o r1 f false g m) (fun g m => bnd (corr1 c o r1 f true g m) (fun g m =>
  bnd (corr2 c o r2 f false g m) (fun g m => bnd (corr2 c o r2 f true g m) (fun g m =>
  bnd (corr3 c o r3 f false g m) (fun g m => bnd (corr3 c o r3 f true g m) (fun g m =>
  if c_mhd c && (2 <=? nDim)%nat then
    bnd (emfs1 nDim o (last X2) (last X3) r1 r2 r3 f false g m) (fun g m =>
    bnd (emfs1 nDim o (last X2) (last X3) r1 r2 r3 f true g m) (fun g m =>
    bnd (emfs2 nDim o (last X1) (last X3) r1 r2 r3 f false g m) (fun g m =>
    bnd (emfs2 nDim o (last X1) (last X3) r1 r2 r3 f true g m) (fun g m =>
    bnd (emfs3 o (last X1) (last X2) r1 r2 r3 f false g m) (fun g m =>
    emfs3 o (last X1) (last X2) r1 r2 r3 f true g m)))))
  else Some (g, m))))))))).
