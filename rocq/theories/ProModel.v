(** * Model of Prolongate (src/smr.c:1358-1950, 2073-2522)

    As in SmrModel.v: arrays are total functions of their indices, computations are over the
    reals, and the message of a parent Grid to a child Grid is the list of its doubles.  The
    tests on pG->Nx[] are tests on nDim.  SPECIAL_RELATIVITY is not modelled. *)
From Coq Require Import Reals ZArith List Bool Arith.
From Verif Require Import CStr MeshModel SmrModel.
Import ListNotations.
Open Scope Z_scope.

(** What the message holds for a cell: the members of ConsS and the face-centred field. *)
Inductive slot := PU (v : var) | PB (a : axis).
(** The order of the doubles of a cell, src/smr.c:1491-1512 and 1638-1660. *)
Definition slots (c : cfg) : list slot :=
  [PU VD; PU VM1; PU VM2; PU VM3] ++ (if c_baro c then [] else [PU VE]) ++
  (if c_mhd c then [PU VB1; PU VB2; PU VB3; PB X1; PB X2; PB X3] else []) ++ map (fun n => PU (VS n)) (seq 0 (c_ns c)).
Definition slot_eq_dec (s t : slot) : {s = t} + {s <> t}.
Proof. decide equality. apply var_eq_dec. decide equality. Defined.
Definition gslot (g : gst) (k j i : Z) (s : slot) : R :=
  match s with PU v => gU g k j i v | PB X1 => gB1 g k j i | PB X2 => gB2 g k j i | PB X3 => gB3 g k j i end.
(** The boundaries in the order of dim = 0, ..., 2*nDim-1. *)
Definition bounds (nDim : nat) : list (axis * bool) := flat_map (fun a => [(a, false); (a, true)]) (axes nDim).
(** Whether the Grid has more than one cell along an axis. *)
Definition many (nDim : nat) (a : axis) : bool := match a with X1 => true | X2 => (2 <=? nDim)%nat | X3 => (3 <=? nDim)%nat end.

(** ** Step 1: the message of the parent *)
(** ics, ice and so on, src/smr.c:1465-1486. *)
Definition cs (nDim : nat) (ng : Z) (o : ovl) (a : axis) (s : bool) (b : axis) : Z :=
  if axis_eqb a b && s then o_e o b else if many nDim b then o_s o b - ng / 2 - 1 else o_s o b.
Definition ce (nDim : nat) (ng : Z) (o : ovl) (a : axis) (s : bool) (b : axis) : Z :=
  if axis_eqb a b && negb s then o_s o b else if many nDim b then o_e o b + ng / 2 + 1 else o_e o b.
(** src/smr.c:1461-1515; nothing is sent if nWordsP is zero (lines 1450-1454). *)
Definition pack_P (c : cfg) (nDim : nat) (ng : Z) (o : ovl) (g : gst) : list R :=
  if o_nP o =? 0 then [] else
  flat_map (fun '(a, s) => if negb (some (o_flx o a s)) then [] else
    map (fun '((k, j, i), t) => gslot g k j i t)
      (cells2 (cells3 (upto (cs nDim ng o a s X3) (ce nDim ng o a s X3)) (upto (cs nDim ng o a s X2) (ce nDim ng o a s X2)) (upto (cs nDim ng o a s X1) (ce nDim ng o a s X1))) (slots c)))
    (bounds nDim).

(** ** Step 3a: the arrays GZ and BFld of the child *)
Definition gz := Z -> Z -> Z -> slot -> R.
(** ngz1, ngz2, ngz3 and the limits of the loops, src/smr.c:1589-1634. *)
Definition ngz (nDim : nat) (ng : Z) (o : ovl) (a b : axis) : Z :=
  if many nDim b then (if axis_eqb a b then ng / 2 + 2 else (o_e o b - o_s o b + 1) / 2 + ng + 2) else 1.
Definition gzs (nDim : nat) (b : axis) : Z := if many nDim b then 0 else 1.
Definition gze (nDim : nat) (ng : Z) (o : ovl) (a b : axis) : Z := if many nDim b then ngz nDim ng o a b - 1 else 1.
Definition updS (f : gz) (p : Z * Z * Z) (t : slot) (x : R) : gz :=
  let '(k, j, i) := p in
  fun k' j' i' u => if ((k' =? k) && (j' =? j) && (i' =? i))%Z then (if slot_eq_dec u t then x else f k' j' i' u) else f k' j' i' u.
(** Loading, src/smr.c:1636-1662.  GZ[id] and BFld[id] are static; the elements that are
    not loaded here and not set below are not used, and are 0 in the model. *)
Definition load (c : cfg) (nDim : nat) (ng : Z) (o : ovl) (a : axis) : list R -> option (gz * list R) :=
  rd_loop (fun '(p, t) x f => updS f p t x)
    (cells2 (cells3 (upto (gzs nDim X3) (gze nDim ng o a X3)) (upto (gzs nDim X2) (gze nDim ng o a X2)) (upto (gzs nDim X1) (gze nDim ng o a X1))) (slots c))
    (fun _ _ _ _ => 0%R).
(** Copies along axes with one cell, src/smr.c:1664-1692; the sources are not among the targets. *)
Definition copies (nDim : nat) (ng : Z) (o : ovl) (a : axis) (f : gz) : gz := fun k j i t =>
  let inI := (0 <=? i) && (i <=? gze nDim ng o a X1) in
  let inJ := (0 <=? j) && (j <=? gze nDim ng o a X2) in
  if (nDim =? 1)%nat then
    match t with
    | PU _ => if inI && (((k =? 1) && ((j =? 0) || (j =? 2))) || ((j =? 1) && ((k =? 0) || (k =? 2)))) then f 1 1 i t else f k j i t
    | PB _ => f k j i t
    end
  else if (nDim =? 2)%nat then if inI && inJ && ((k =? 0) || (k =? 2)) then f 1 j i t else f k j i t
  else f k j i t.

(** ** Step 3b: cell-centred values *)
Local Open Scope R_scope.
(** mcd_slope, src/smr.c:2504-2521. *)
Definition mcd_slope (vl vc vr : R) : R :=
  let dvl := vc - vl in let dvr := vr - vc in
  if Rlt_dec 0 dvl then
    if Rlt_dec 0 dvr then
      let dv := 2 * (if Rlt_dec dvl dvr then dvl else dvr) in let dvm := 1/2 * (dvl + dvr) in if Rlt_dec dvm dv then dvm else dv
    else 0
  else if Rlt_dec dvl 0 then
    if Rlt_dec dvr 0 then
      let dv := 2 * (if Rlt_dec dvr dvl then dvl else dvr) in let dvm := 1/2 * (dvl + dvr) in if Rlt_dec dv dvm then dvm else dv
    else 0
  else 0.
(** slope in the configurations FIRST_ORDER ([fo]) and others. *)
Definition slope (fo : bool) (vl vc vr : R) : R := if fo then 0 else mcd_slope vl vc vr.
(** A cell and its six neighbours (arguments of ProCon, src/smr.c:2080-2082). *)
Record stencil (A : Type) := Sten { im1 : A; i0 : A; ip1 : A; jm1 : A; jp1 : A; km1 : A; kp1 : A }.
Arguments Sten {A}. Arguments im1 {A}. Arguments i0 {A}. Arguments ip1 {A}. Arguments jm1 {A}. Arguments jp1 {A}. Arguments km1 {A}. Arguments kp1 {A}.
Definition smap {A B : Type} (f : A -> B) (u : stencil A) : stencil B := Sten (f (im1 u)) (f (i0 u)) (f (ip1 u)) (f (jm1 u)) (f (jp1 u)) (f (km1 u)) (f (kp1 u)).
(** The value in the fine cell (n, m, l), n, m and l being 0 or 1, e.g. src/smr.c:2126-2135;
    with FIRST_ORDER the slopes are 0 and this is the copy of lines 2102-2119. *)
Definition lin (fo : bool) (q : stencil R) (n m l : Z) : R :=
  i0 q + (1/2 * IZR l - 1/4) * slope fo (im1 q) (i0 q) (ip1 q) + (1/2 * IZR m - 1/4) * slope fo (jm1 q) (i0 q) (jp1 q)
       + (1/2 * IZR n - 1/4) * slope fo (km1 q) (i0 q) (kp1 q).
(** E minus kinetic and magnetic energy, e.g. src/smr.c:2222-2229 (called P there; it is the
    pressure over gamma-1). *)
Definition kin (U : var -> R) : R := 1/2 * (U VM1 * U VM1 + U VM2 * U VM2 + U VM3 * U VM3) / U VD.
Definition mag (c : cfg) (U : var -> R) : R := if c_mhd c then 1/2 * (U VB1 * U VB1 + U VB2 * U VB2 + U VB3 * U VB3) else 0.
Definition inner (c : cfg) (U : var -> R) : R := U VE - kin U - mag c U.
(** ProCon, src/smr.c:2073-2330.  Division by zero is not distinguished. *)
Definition ProCon (c : cfg) (fo : bool) (u : stencil (var -> R)) (n m l : Z) (v : var) : R :=
  let P := fun v => lin fo (smap (fun U => U v) u) n m l in
  match v with
  | VE => if fo then i0 u VE else lin fo (smap (inner c) u) n m l + kin P + mag c P
  | _ => P v
  end.

(** ** Step 3c: face-centred field *)
Record rv := RV { x1 : Z -> Z -> Z -> R; x2 : Z -> Z -> Z -> R; x3 : Z -> Z -> Z -> R }.
Definition sg (n : Z) (x : R) : R := if (n =? 0)%Z then - x else x.
Definition isz (x : R) : bool := if Req_EM_T x 0 then true else false.
(** ProFld, the faces of the coarse cell, src/smr.c:2349-2440: the four values on a face are
    computed if the first one is zero. *)
Definition outer (fo : bool) (b : rv) (p : rv) : rv :=
  RV (fun n m l => if ((l =? 0) || (l =? 2))%Z && isz (x1 p 0%Z 0%Z l) then
          let c := if (l =? 0)%Z then 1%Z else 2%Z in
          x1 b 1%Z 1%Z c + sg m (1/4 * slope fo (x1 b 1%Z 0%Z c) (x1 b 1%Z 1%Z c) (x1 b 1%Z 2%Z c))
                         + sg n (1/4 * slope fo (x1 b 0%Z 1%Z c) (x1 b 1%Z 1%Z c) (x1 b 2%Z 1%Z c)) else x1 p n m l)
     (fun n m l => if ((m =? 0) || (m =? 2))%Z && isz (x2 p 0%Z m 0%Z) then
          let c := if (m =? 0)%Z then 1%Z else 2%Z in
          x2 b 1%Z c 1%Z + sg l (1/4 * slope fo (x2 b 1%Z c 0%Z) (x2 b 1%Z c 1%Z) (x2 b 1%Z c 2%Z))
                         + sg n (1/4 * slope fo (x2 b 0%Z c 1%Z) (x2 b 1%Z c 1%Z) (x2 b 2%Z c 1%Z)) else x2 p n m l)
     (fun n m l => if ((n =? 0) || (n =? 2))%Z && isz (x3 p n 0%Z 0%Z) then
          let c := if (n =? 0)%Z then 1%Z else 2%Z in
          x3 b c 1%Z 1%Z + sg l (1/4 * slope fo (x3 b c 1%Z 0%Z) (x3 b c 1%Z 1%Z) (x3 b c 1%Z 2%Z))
                         + sg m (1/4 * slope fo (x3 b c 0%Z 1%Z) (x3 b c 1%Z 1%Z) (x3 b c 2%Z 1%Z)) else x3 p n m l).
(** for(j=0; j<2; j++) for(i=0; i<2; i++) s += f. *)
Definition sum4 (f : Z -> Z -> R) : R := f 0%Z 0%Z + f 0%Z 1%Z + f 1%Z 0%Z + f 1%Z 1%Z.
Definition pm (n : Z) : R := IZR (2 * n - 1).
(** ProFld, the faces inside the coarse cell, src/smr.c:2442-2499. *)
Definition interior (p : rv) (dx1 dx2 dx3 : R) : rv :=
  let Uxx := 1/8 * dx1 * sum4 (fun j i => pm i * (pm j * dx3 * (x2 p 0 (2 * j) i + x2 p 1 (2 * j) i) + dx2 * (x3 p 2 j i - x3 p 0 j i))) in
  let Vyy := 1/8 * dx2 * sum4 (fun j i => pm j * (dx1 * (x3 p 2 j i - x3 p 0 j i) + pm i * dx3 * (x1 p 0 j (2 * i) + x1 p 1 j (2 * i)))) in
  let Wzz := 1/8 * dx3 * sum4 (fun j i => pm i * dx2 * (x1 p 1 j (2 * i) - x1 p 0 j (2 * i)) + pm j * dx1 * (x2 p 1 (2 * j) i - x2 p 0 (2 * j) i)) in
  let Uxyz := 1/8 * dx2 * dx3 / (dx2 * dx2 + dx3 * dx3) * sum4 (fun j i => pm i * pm j * (x1 p 1 j (2 * i) - x1 p 0 j (2 * i))) in
  let Vxyz := 1/8 * dx1 * dx3 / (dx1 * dx1 + dx3 * dx3) * sum4 (fun j i => pm i * pm j * (x2 p 1 (2 * j) i - x2 p 0 (2 * j) i)) in
  let Wxyz := 1/8 * dx1 * dx2 / (dx1 * dx1 + dx2 * dx2) * sum4 (fun j i => pm i * pm j * (x3 p 2 j i - x3 p 0 j i)) in
  RV (fun n m l => if (l =? 1)%Z then 1/2 * (x1 p n m 0%Z + x1 p n m 2%Z) + Uxx / (dx2 * dx3) + pm n * (dx3 / dx2) * Vxyz + pm m * (dx2 / dx3) * Wxyz else x1 p n m l)
     (fun n m l => if (m =? 1)%Z then 1/2 * (x2 p n 0%Z l + x2 p n 2%Z l) + Vyy / (dx3 * dx1) + pm l * (dx1 / dx3) * Wxyz + pm n * (dx3 / dx1) * Uxyz else x2 p n m l)
     (fun n m l => if (n =? 1)%Z then 1/2 * (x3 p 0%Z m l + x3 p 2%Z m l) + Wzz / (dx1 * dx2) + pm m * (dx2 / dx1) * Uxyz + pm l * (dx1 / dx2) * Vxyz else x3 p n m l).
Definition ProFld (fo : bool) (b p : rv) (dx1 dx2 dx3 : R) : rv := interior (outer fo b p) dx1 dx2 dx3.

(** ** Step 3: the ghost zones of the child *)
Local Open Scope Z_scope.
(** ips, ipe and so on, src/smr.c:1697-1719. *)
Definition ps (nDim : nat) (ng : Z) (o : ovl) (a : axis) (s : bool) (b : axis) : Z :=
  if axis_eqb a b && s then o_e o b + 1 else if many nDim b then o_s o b - ng else o_s o b.
Definition pe (nDim : nat) (ng : Z) (o : ovl) (a : axis) (s : bool) (b : axis) : Z :=
  if axis_eqb a b && negb s then o_s o b - 1 else if many nDim b then o_e o b + ng else o_e o b.
(** A position as a function of the axis. *)
Definition at_ (k j i : Z) : vec := fun a => match a with X1 => i | X2 => j | X3 => k end.
(** The tests on the transverse coordinates of the block that starts at x, e.g. lines 1794-1795. *)
Definition inrange (nDim : nat) (ng : Z) (o : ovl) (a : axis) (s : bool) (b : axis) (x : Z) : bool :=
  ((ps nDim ng o a s b + ng <=? x) || negb (some (o_flx o b false))) && ((x <? pe nDim ng o a s b - ng) || negb (some (o_flx o b true))).
(** ProlongedF before ProFld: zero, or the field of the child on the interface,
    src/smr.c:1764-1768 and 1786-1876. *)
Definition iface (nDim : nat) (ng : Z) (o : ovl) (a : axis) (s : bool) (g : gst) (k j i : Z) : rv :=
  let ok := inrange nDim ng o a s in
  let nz := fun _ _ _ : Z => 0%R in
  match a with
  | X1 => if (if s then i =? ps nDim ng o a s X1 else i =? pe nDim ng o a s X1 - 1) && ok X2 j then
            RV (fun n m l => if l =? (if s then 0 else 2) then gB1 g (if (n =? 1) && (nDim =? 3)%nat && ok X3 k then k + 1 else k) (j + m) (i + l) else 0%R) nz nz
          else RV nz nz nz
  | X2 => if (if s then j =? ps nDim ng o a s X2 else j =? pe nDim ng o a s X2 - 1) && ok X1 i then
            RV nz (fun n m l => if m =? (if s then 0 else 2) then gB2 g (if (n =? 1) && (nDim =? 3)%nat && ok X3 k then k + 1 else k) (j + m) (i + l) else 0%R) nz
          else RV nz nz nz
  | X3 => if (if s then k =? ps nDim ng o a s X3 else k =? pe nDim ng o a s X3 - 1) && ok X1 i && ok X2 j then
            RV nz nz (fun n m l => if n =? (if s then 0 else 2) then gB3 g (k + n) (j + m) (i + l) else 0%R)
          else RV nz nz nz
  end.
Definition shift (f : gz) (kk jj ii : Z) (a : axis) : Z -> Z -> Z -> R := fun n m l => f (kk + (n - 1)) (jj + (m - 1)) (ii + (l - 1)) (PB a).
Definition cell (f : gz) (k j i : Z) : var -> R := fun v => f k j i (PU v).
Definition stenc (f : gz) (kk jj ii : Z) : stencil (var -> R) :=
  Sten (cell f kk jj (ii - 1)) (cell f kk jj ii) (cell f kk jj (ii + 1)) (cell f kk (jj - 1) ii) (cell f kk (jj + 1) ii) (cell f (kk - 1) jj ii) (cell f (kk + 1) jj ii).
(** Whether (k', j', i') is in the block of fine cells that starts at (k, j, i); mend and nend
    are 0 along axes with one cell. *)
Definition inblk (nDim : nat) (k j i k' j' i' : Z) : bool :=
  (k <=? k') && (k' <=? k + (if many nDim X3 then 1 else 0)) && ((j <=? j') && (j' <=? j + (if many nDim X2 then 1 else 0))) && ((i <=? i') && (i' <=? i + 1)).
(** The body of the loop over blocks, src/smr.c:1725-1902.  The loops over n, m and l set
    every element of the block once and read nothing they set. *)
Definition block (c : cfg) (fo : bool) (nDim : nat) (ng : Z) (o : ovl) (a : axis) (s : bool) (dx1 dx2 dx3 : R) (f : gz)
    (g : gst) (q : Z * Z * Z) : gst :=
  let '(k, j, i) := q in
  let kk := 1 + (k - ps nDim ng o a s X3) / 2 in
  let jj := 1 + (j - ps nDim ng o a s X2) / 2 in
  let ii := 1 + (i - ps nDim ng o a s X1) / 2 in
  let inb := inblk nDim k j i in
  let U := ProCon c fo (stenc f kk jj ii) in
  let newU := fun k' j' i' v => if inb k' j' i' && existsb (fun w => if var_eq_dec v w then true else false) (vars c) then U (k' - k) (j' - j) (i' - i) v else gU g k' j' i' v in
  if negb (c_mhd c) then Gst newU (gB1 g) (gB2 g) (gB3 g)
  else if (nDim =? 1)%nat then
    Gst newU (fun k' j' i' => if inb k' j' i' then newU k' j' i' VB1 else gB1 g k' j' i')
             (fun k' j' i' => if inb k' j' i' then newU k' j' i' VB2 else gB2 g k' j' i')
             (fun k' j' i' => if inb k' j' i' then newU k' j' i' VB3 else gB3 g k' j' i')
  else
    let b := RV (shift f kk jj ii X1) (shift f kk jj ii X2) (shift f kk jj ii X3) in
    let p := ProFld fo b (iface nDim ng o a s g k j i) dx1 dx2 dx3 in
    let skip := fun d x => axis_eqb a d && s && (x =? ps nDim ng o a s d) in
    Gst (fun k' j' i' v => if inb k' j' i' then
           let n := k' - k in let m := j' - j in let l := i' - i in
           match v with
           | VB1 => (1/2 * (x1 p n m l + x1 p n m (l + 1)%Z))%R
           | VB2 => (1/2 * (x2 p n m l + x2 p n (m + 1)%Z l))%R
           | VB3 => (1/2 * (x3 p n m l + x3 p (n + 1)%Z m l))%R
           | _ => newU k' j' i' v
           end else gU g k' j' i' v)
        (fun k' j' i' => if inb k' j' i' && negb (skip X1 i') then x1 p (k' - k) (j' - j) (i' - i) else gB1 g k' j' i')
        (fun k' j' i' => if inb k' j' i' && negb (skip X2 j') then x2 p (k' - k) (j' - j) (i' - i) else gB2 g k' j' i')
        (fun k' j' i' => if inb k' j' i' && negb (skip X3 k') then x3 p (k' - k) (j' - j) (i' - i) else gB3 g k' j' i').
(** One boundary, src/smr.c:1584-1905. *)
Definition pass (c : cfg) (fo : bool) (nDim : nat) (ng : Z) (o : ovl) (dx1 dx2 dx3 : R) (d : axis * bool) (g : gst) (m : list R) : option (gst * list R) :=
  let (a, s) := d in
  if negb (some (o_flx o a s) && (0 <? o_nP o)) then Some (g, m) else
  bnd (load c nDim ng o a m) (fun f m =>
  let f := copies nDim ng o a f in
  let lo := ps nDim ng o a s in let hi := pe nDim ng o a s in
  Some (fold_left (block c fo nDim ng o a s dx1 dx2 dx3 f) (cells3 (upto2 (lo X3) (hi X3)) (upto2 (lo X2) (hi X2)) (upto2 (lo X1) (hi X1))) g, m)).
(** Step 3 for one parent Grid: the message is what is at pRcv. *)
Definition prolong (c : cfg) (fo : bool) (nDim : nat) (ng : Z) (o : ovl) (dx1 dx2 dx3 : R) (g : gst) (m : list R) : option (gst * list R) :=
  fold_left (fun r d => match r with Some (g, m) => pass c fo nDim ng o dx1 dx2 dx3 d g m | None => None end) (bounds nDim) (Some (g, m)).
