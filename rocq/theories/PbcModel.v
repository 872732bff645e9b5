(** Boundary conditions of the particles: src/particles/bvals_particle.c, without SHEARING_BOX and FARGO.
    The three directions have the same code up to the names of the members, written here once with the axis as an
    argument; where the copies differ (reflection at the inner x3 boundary) the difference is kept.  Real is the
    real numbers.  The member init_id that MPI_PARALLEL adds to the packed particle is not modelled (it is packed and
    unpacked like my_id), so NVAR_P is 9. *)
From Coq Require Import ZArith List Bool Reals.
From Verif Require Import CStr MeshModel PosModel GasModel PartModel.
From Verif Require UtilModel.
Import UtilModel (upd).
Import ListNotations.
Open Scope R_scope.

(** * Memory *)

(** send_bufsize and send_buf, src/particles/bvals_particle.c:62-65; the unit of the size is one particle. *)
Record sbuf := Sbuf { b_size : Z; b_dat : Z -> R }.
(** src/particles/bvals_particle.c:52-56 (without MPI_PARALLEL) *)
Definition NVAR_P : Z := 9%Z.
(** What one processor owns: pG->nparticle, pG->particle, pG->arrsize, grproperty[].num, the send buffer and the size
    of the receive buffer. *)
Record pst := Pst { s_n : Z; s_a : Z -> grain; s_size : Z; s_num : Z -> Z; s_buf : sbuf; s_rsize : Z }.

(** Conversions (short) and (long) of C *)
Definition c_trunc (lo hi : Z) (a : R) : res Z :=
  let z := if Rle_dec 0 a then Int_part a else (- Int_part (- a))%Z in
  if ((lo <=? z) && (z <=? hi))%Z then Ok z else UB.
Definition c_short := c_trunc (- 2 ^ 15) (2 ^ 15 - 1).
Definition c_long := c_trunc (- 2 ^ 63) (2 ^ 63 - 1).

Definition comp (ax : axis) (x : v3) : R := match ax with X1 => q1 x | X2 => q2 x | X3 => q3 x end.
Definition set_comp (ax : axis) (x : v3) (r : R) : v3 :=
  match ax with X1 => V3 r (q2 x) (q3 x) | X2 => V3 (q1 x) r (q3 x) | X3 => V3 (q1 x) (q2 x) r end.
Definition axnum (ax : axis) : Z := match ax with X1 => 1 | X2 => 2 | X3 => 3 end%Z.

(** * Packing *)

(** packing_one_particle, src/particles/bvals_particle.c:2019-2043, with realloc_sendbuf, 1357-1366 *)
Definition packing_one_particle (NBUF : Z) (b : sbuf) (gr : grain) (n pos : Z) : res sbuf :=
  let size := (if n + 2 >? b_size b then b_size b + NBUF else b_size b)%Z in
  let pd := (NVAR_P * n)%Z in
  if (n <? size)%Z then
    let d := upd (b_dat b) pd (q1 (g_x gr)) in
    let d := upd d (pd + 1)%Z (q2 (g_x gr)) in
    let d := upd d (pd + 2)%Z (q3 (g_x gr)) in
    let d := upd d (pd + 3)%Z (q1 (g_v gr)) in
    let d := upd d (pd + 4)%Z (q2 (g_v gr)) in
    let d := upd d (pd + 5)%Z (q3 (g_v gr)) in
    let d := upd d (pd + 6)%Z (IZR (g_type gr) + 1/100) in
    let d := upd d (pd + 7)%Z (IZR pos + 1/100) in
    let d := upd d (pd + 8)%Z (IZR (g_id gr) + 1/100) in
    Ok (Sbuf size d)
  else UB.
(** The condition in packing_ix1_particle, packing_ix2_particle and packing_ix3_particle,
    src/particles/bvals_particle.c:1757-1780, 1849-1869, 1939-1960: the value of pos to pack with, if any. *)
Definition sel_ix (ax : axis) (MinX dx : R) (nlayer : Z) (gr : grain) : option Z :=
  let xl := MinX in
  let xu := MinX + IZR nlayer * dx in
  let x := comp ax (g_x gr) in
  if lt x xu then
    if ((g_pos gr =? 0) || (g_pos gr =? 1))%Z then
      if ge x xl then Some 0%Z else None
    else if negb (g_pos gr =? 20 + axnum ax)%Z then Some (10 + axnum ax)%Z else None
  else None.
(** packing_ox1_particle, packing_ox2_particle and packing_ox3_particle, src/particles/bvals_particle.c:1803-1826,
    1893-1916, 1981-2004 *)
Definition sel_ox (ax : axis) (MaxX dx : R) (nlayer : Z) (gr : grain) : option Z :=
  let xl := MaxX - IZR nlayer * dx in
  let xu := MaxX in
  let x := comp ax (g_x gr) in
  if ge x xl then
    if ((g_pos gr =? 0) || (g_pos gr =? 1))%Z then
      if lt x xu then Some 0%Z else None
    else if negb (g_pos gr =? 10 + axnum ax)%Z then Some (20 + axnum ax)%Z else None
  else None.
(** The loop of the packing functions over the particles p, p+1, .. ([m] of them); [n] is the number packed so far. *)
Fixpoint pack_loop (NBUF : Z) (sel : grain -> option Z) (m : nat) (p : Z) (a : Z -> grain) (n : Z) (b : sbuf) : res (Z * sbuf) :=
  match m with
  | O => Ok (n, b)
  | S m' =>
      match sel (a p) with
      | Some pos => b <- packing_one_particle NBUF b (a p) n pos;; pack_loop NBUF sel m' (p + 1)%Z a (n + 1)%Z b
      | None => pack_loop NBUF sel m' (p + 1)%Z a n b
      end
  end.
Definition with_buf (s : pst) (b : sbuf) : pst := Pst (s_n s) (s_a s) (s_size s) (s_num s) b (s_rsize s).
Definition packing (NBUF : Z) (sel : grain -> option Z) (s : pst) : res (Z * pst) :=
  '(n, b) <- pack_loop NBUF sel (Z.to_nat (s_n s)) 0 (s_a s) 0 (s_buf s);; Ok (n, with_buf s b).

(** shift_packed_particle, src/particles/bvals_particle.c:2057-2071: [m] iterations of the loop, then the last
    addition.  Writing beyond the buffer is UB. *)
Fixpoint shift_loop (size : Z) (m : nat) (pd : Z) (d : Z -> R) (shift : R) : res (Z -> R) :=
  if (pd <? NVAR_P * size)%Z then
    let d' := upd d pd (d pd + shift) in
    match m with
    | O => Ok d'
    | S m' => shift_loop size m' (pd + NVAR_P)%Z d' shift
    end
  else UB.
Definition shift_packed_particle (n index : Z) (shift : R) (s : pst) : res pst :=
  let pd := (if n >? 0 then index - 1 else 0)%Z in
  d <- shift_loop (b_size (s_buf s)) (Z.to_nat (n - 1)) pd (b_dat (s_buf s)) shift;;
  Ok (with_buf s (Sbuf (b_size (s_buf s)) d)).

(** particle_realloc, src/particles/init_particle.c:195-197 (running out of memory is not modelled) *)
Definition particle_realloc (size n : Z) : Z := Z.max (Z.quot (12 * size) 10) n.
(** The loop of unpack_particle, src/particles/bvals_particle.c:2096-2111; [types] is npartypes. *)
Fixpoint unpack_loop (types size : Z) (m : nat) (i pd : Z) (buf : Z -> R) (a : Z -> grain) (num : Z -> Z) : res ((Z -> grain) * (Z -> Z)) :=
  match m with
  | O => Ok (a, num)
  | S m' =>
      if (i <? size)%Z then
        ty <- c_int (buf (pd + 6)%Z);;
        if ((0 <=? ty) && (ty <? types))%Z then
          pos <- c_short (buf (pd + 7)%Z);;
          id <- c_long (buf (pd + 8)%Z);;
          let gr := Grain (V3 (buf pd) (buf (pd + 1)%Z) (buf (pd + 2)%Z)) (V3 (buf (pd + 3)%Z) (buf (pd + 4)%Z) (buf (pd + 5)%Z)) ty pos id in
          unpack_loop types size m' (i + 1)%Z (pd + NVAR_P)%Z buf (upd a i gr) (upd num ty (num ty + 1)%Z)
        else UB
      else UB
  end.
(** unpack_particle, src/particles/bvals_particle.c:2082-2114 *)
Definition unpack_particle (types : Z) (buf : Z -> R) (n : Z) (s : pst) : res pst :=
  let n' := (s_n s + n)%Z in
  let size := (if n' >=? s_size s then particle_realloc (s_size s) (n' + 1) else s_size s)%Z in
  '(a, num) <- unpack_loop types size (Z.to_nat n) (s_n s) 0 buf (s_a s) (s_num s);;
  Ok (Pst n' a size num (s_buf s) (s_rsize s)).

(** * Physical boundary conditions *)

(** BCFlag 1 or 5, 2, and 4, src/particles/bvals_particle.c:1074-1283 *)
Inductive pbc := Reflecting | Outflow | Periodic.
(** The Grids of the Domain: pD->NGrid, the cells of a Grid (only whether there is more than one matters) and their size, the edges of the Grids
    along each axis (Grid number l goes from w_edge l to w_edge (l+1)), the boundary conditions, NBUF and npartypes. *)
Record pworld := World { w_N : axis -> Z; w_Nx : axis -> Z; w_dx : axis -> R; w_edge : axis -> Z -> R; w_bci : axis -> pbc; w_bco : axis -> pbc; w_NBUF : Z; w_types : Z }.
(** A Grid: its indices (my_iproc, my_jproc, my_kproc) *)
Definition rank := (Z * Z * Z)%type.
Definition ridx (ax : axis) (r : rank) : Z := let '(i, j, k) := r in match ax with X1 => i | X2 => j | X3 => k end.
Definition rset (ax : axis) (r : rank) (n : Z) : rank := let '(i, j, k) := r in match ax with X1 => (n, j, k) | X2 => (i, n, k) | X3 => (i, j, n) end.
(** pG->MinX, pG->MaxX and Lx1, Lx2, Lx3 (src/particles/bvals_particle.c:1042-1052) *)
Definition gMin (W : pworld) (r : rank) (ax : axis) : R := w_edge W ax (ridx ax r).
Definition gMax (W : pworld) (r : rank) (ax : axis) : R := w_edge W ax (ridx ax r + 1)%Z.
Definition Lx (W : pworld) (ax : axis) : R := w_edge W ax (w_N W ax) - w_edge W ax 0%Z.
(** src/particles/bvals_particle.c:1036-1040: the same value with and without FEEDBACK *)
Definition nbc : Z := 0%Z.
Definition packing_ix (W : pworld) (r : rank) (ax : axis) (s : pst) : res (Z * pst) := packing (w_NBUF W) (sel_ix ax (gMin W r ax) (w_dx W ax) nbc) s.
Definition packing_ox (W : pworld) (r : rank) (ax : axis) (s : pst) : res (Z * pst) := packing (w_NBUF W) (sel_ox ax (gMax W r ax) (w_dx W ax) nbc) s.
Definition unpack_own (W : pworld) (n : Z) (s : pst) : res pst := unpack_particle (w_types W) (b_dat (s_buf s)) n s.

(** The loops "apply reflection boundary condition" of reflect_ix1_particle etc. from particle p on *)
Fixpoint reflect_loop (ax : axis) (twice_edge : R) (m : nat) (p : Z) (a : Z -> grain) : Z -> grain :=
  match m with
  | O => a
  | S m' =>
      let g := a p in
      let g := Grain (set_comp ax (g_x g) (twice_edge - comp ax (g_x g))) (set_comp ax (g_v g) (- comp ax (g_v g))) (g_type g) (g_pos g) (g_id g) in
      reflect_loop ax twice_edge m' (p + 1)%Z (upd a p g)
  end.
Definition reflect_from (ax : axis) (twice_edge : R) (n0 : Z) (s : pst) : pst :=
  Pst (s_n s) (reflect_loop ax twice_edge (Z.to_nat (s_n s - n0)) n0 (s_a s)) (s_size s) (s_num s) (s_buf s) (s_rsize s).
(** reflect_ix1_particle, reflect_ix2_particle and reflect_ix3_particle, src/particles/bvals_particle.c:1411-1434,
    1465-1488, 1519-1542.  The last one has pG->MinX[2] where the others have 2.0*pG->MinX[..] (line 1537). *)
Definition reflect_ix (W : pworld) (r : rank) (ax : axis) (s : pst) : res pst :=
  '(n, s) <- packing_ix W r ax s;;
  let n0 := s_n s in
  s <- unpack_own W n s;;
  Ok (reflect_from ax (match ax with X3 => gMin W r X3 | _ => 2 * gMin W r ax end) n0 s).
(** reflect_ox1_particle, reflect_ox2_particle and reflect_ox3_particle, src/particles/bvals_particle.c:1438-1461,
    1492-1515, 1546-1570 *)
Definition reflect_ox (W : pworld) (r : rank) (ax : axis) (s : pst) : res pst :=
  '(n, s) <- packing_ox W r ax s;;
  let n0 := s_n s in
  s <- unpack_own W n s;;
  Ok (reflect_from ax (2 * gMax W r ax) n0 s).
(** periodic_ix1_particle, periodic_ix2_particle and periodic_ix3_particle, src/particles/bvals_particle.c:1589-1621,
    1663-1678, 1703-1718 *)
Definition periodic_ix (W : pworld) (r : rank) (ax : axis) (s : pst) : res pst :=
  '(n, s) <- packing_ox W r ax s;;
  s <- shift_packed_particle n (axnum ax) (- Lx W ax) s;;
  unpack_own W n s.
(** periodic_ox1_particle, periodic_ox2_particle and periodic_ox3_particle, src/particles/bvals_particle.c:1627-1659,
    1683-1698, 1723-1738 *)
Definition periodic_ox (W : pworld) (r : rank) (ax : axis) (s : pst) : res pst :=
  '(n, s) <- packing_ix W r ax s;;
  s <- shift_packed_particle n (axnum ax) (Lx W ax) s;;
  unpack_own W n s.
(** The calls through the pointers apply_ix1 .. apply_ox3; outflow_particle, src/particles/bvals_particle.c:1578-1581, does nothing *)
Definition apply_ix (W : pworld) (r : rank) (ax : axis) (s : pst) : res pst :=
  match w_bci W ax with Reflecting => reflect_ix W r ax s | Outflow => Ok s | Periodic => periodic_ix W r ax s end.
Definition apply_ox (W : pworld) (r : rank) (ax : axis) (s : pst) : res pst :=
  match w_bco W ax with Reflecting => reflect_ox W r ax s | Outflow => Ok s | Periodic => periodic_ox W r ax s end.

(** * Exchange between Grids *)

Definition is_per (b : pbc) : bool := match b with Periodic => true | _ => false end.
(** Whether there is a Grid to the left (lx1_id >= 0) or right (rx1_id >= 0): src/init_grid.c:238-262 and, for periodic
    boundaries, src/particles/bvals_particle.c:1088-1093, 1130-1134, 1163-1168, 1206-1210, 1240-1245, 1283-1287 *)
Definition has_l (W : pworld) (r : rank) (ax : axis) : bool := ((0 <? ridx ax r) || (is_per (w_bci W ax) && (w_N W ax >? 1)))%Z.
Definition has_r (W : pworld) (r : rank) (ax : axis) : bool := ((ridx ax r <? w_N W ax - 1) || (is_per (w_bco W ax) && (w_N W ax >? 1)))%Z.
Definition left_of (W : pworld) (ax : axis) (r : rank) : rank := rset ax r (if 0 <? ridx ax r then ridx ax r - 1 else w_N W ax - 1)%Z.
Definition right_of (W : pworld) (ax : axis) (r : rank) : rank := rset ax r (if ridx ax r <? w_N W ax - 1 then ridx ax r + 1 else 0)%Z.
(** A message: cnt_send and the first cnt_send*NVAR_P numbers of send_buf *)
Definition msg := (Z * (Z -> R))%type.
Definition no_msg : msg := (0%Z, fun _ => 0).
(** src/particles/bvals_particle.c:208-225, 306-322, etc.: packing_ox, and the shift where the Grid is the last one
    (the code shifts only in the branch with Grids on both sides) *)
Definition send_right (W : pworld) (ax : axis) (r : rank) (s : pst) : res (pst * msg) :=
  '(n, s) <- packing_ox W r ax s;;
  s <- (if has_l W r ax && (ridx ax r =? w_N W ax - 1)%Z then shift_packed_particle n (axnum ax) (- Lx W ax) s else Ok s);;
  Ok (s, (n, b_dat (s_buf s))).
(** src/particles/bvals_particle.c:266-283, 387-403, etc. *)
Definition send_left (W : pworld) (ax : axis) (r : rank) (s : pst) : res (pst * msg) :=
  '(n, s) <- packing_ix W r ax s;;
  s <- (if has_r W r ax && (ridx ax r =? 0)%Z then shift_packed_particle n (axnum ax) (Lx W ax) s else Ok s);;
  Ok (s, (n, b_dat (s_buf s))).
(** src/particles/bvals_particle.c:229-254 etc., with realloc_recvbuf, 1371-1381: the message is received if it
    is not empty; receiving more than fits in the buffer is UB. *)
Definition receive (W : pworld) (m : msg) (s : pst) : res pst :=
  let '(cnt, buf) := m in
  let rsize := (if cnt + 1 >=? s_rsize s then Z.max (s_rsize s + w_NBUF W) (cnt + 1) else s_rsize s)%Z in
  if (cnt <=? rsize)%Z then
    let s := Pst (s_n s) (s_a s) (s_size s) (s_num s) (s_buf s) rsize in
    if (cnt >? 0)%Z then unpack_particle (w_types W) buf cnt s else Ok s
  else UB.
(** One axis, src/particles/bvals_particle.c:184-431 (x1), 448-673 (x2), 679-904 (x3), for all Grids.  Messages between two Grids arrive in the
    order sent (MPI), and every receive below is of the message that the neighbour sends in the same sub-step.
    [first_half] is what a Grid has done, and has sent to the right, before it needs anything from its neighbours. *)
Definition first_half (W : pworld) (ax : axis) (S : rank -> res pst) (r : rank) : res (pst * msg) :=
  s <- S r;;
  if has_r W r ax then send_right W ax r s else Ok (s, no_msg).
(** [second_half] goes on until the message to the left is sent. *)
Definition second_half (W : pworld) (ax : axis) (S : rank -> res pst) (r : rank) : res (pst * msg) :=
  '(s, _) <- first_half W ax S r;;
  match has_l W r ax, has_r W r ax with
  | true, true =>
      '(_, m) <- first_half W ax S (left_of W ax r);;
      s <- receive W m s;;
      send_left W ax r s
  | false, true => s <- apply_ix W r ax s;; Ok (s, no_msg)
  | true, false => s <- apply_ox W r ax s;; send_left W ax r s
  | false, false => s <- apply_ix W r ax s;; s <- apply_ox W r ax s;; Ok (s, no_msg)
  end.
Definition exchange (W : pworld) (ax : axis) (S : rank -> res pst) (r : rank) : res pst :=
  '(s, _) <- second_half W ax S r;;
  match has_l W r ax, has_r W r ax with
  | _, true =>
      '(_, m) <- second_half W ax S (right_of W ax r);;
      receive W m s
  | true, false =>
      '(_, m) <- first_half W ax S (left_of W ax r);;
      receive W m s
  | false, false => Ok s
  end.

(** * The whole step *)

(** x1lpar .. x3upar of a Grid, src/particles/init_particle.c:219-288 with nghost = 4: [grid_limit] of PartModel.v with what
    the Grid touches. *)
Definition is_out (b : pbc) : bool := match b with Outflow => true | _ => false end.
Definition limits (W : pworld) (r : rank) : plim :=
  grid_limit 4 (w_Nx W) (PG (fun _ => 0%Z) (gMin W r) (w_dx W)) (fun _ => 0%Z) (gMax W r)
    (fun ax => is_out (w_bci W ax) && (ridx ax r =? 0)%Z) (fun ax => is_out (w_bco W ax) && (ridx ax r =? w_N W ax - 1)%Z).
(** update_particle_status, src/particles/bvals_particle.c:1387-1406 *)
Definition new_status (L : plim) (g : grain) : grain :=
  let x := g_x g in
  if (g_pos g >=? 10)%Z then
    Grain x (g_v g) (g_type g)
      (if ge (q1 x) (l_xup L X1) || lt (q1 x) (l_xlo L X1) || ge (q2 x) (l_xup L X2) || lt (q2 x) (l_xlo L X2) || ge (q3 x) (l_xup L X3) || lt (q3 x) (l_xlo L X3)
       then 0%Z else 1%Z) (g_id g)
  else g.
Fixpoint update_loop (L : plim) (m : nat) (p : Z) (a : Z -> grain) : Z -> grain :=
  match m with
  | O => a
  | S m' => update_loop L m' (p + 1)%Z (upd a p (new_status L (a p)))
  end.
Definition update_particle_status (L : plim) (s : pst) : pst :=
  Pst (s_n s) (update_loop L (Z.to_nat (s_n s)) 0 (s_a s)) (s_size s) (s_num s) (s_buf s) (s_rsize s).
(** src/particles/bvals_particle.c:184, 448, 679: only along axes with more than one cell *)
Definition along (W : pworld) (ax : axis) (S : rank -> res pst) : rank -> res pst := if (w_Nx W ax >? 1)%Z then exchange W ax S else S.
(** Step 1, src/particles/bvals_particle.c:177-178; [now] is (TShuffle>0) && (fmod(pG->time, TShuffle)<pG->dt) *)
Definition step1 (W : pworld) (now : bool) (S : rank -> res pst) (r : rank) : res pst :=
  s <- S r;;
  if now then
    a <- shuffle (w_Nx W) (PG (fun _ => 0%Z) (gMin W r) (w_dx W)) (s_n s) (s_a s);;
    Ok (Pst (s_n s) a (s_size s) (s_num s) (s_buf s) (s_rsize s))
  else Ok s.
(** Step 5, src/particles/bvals_particle.c:906-910 *)
Definition step5 (W : pworld) (S : rank -> res pst) (r : rank) : res pst :=
  s <- S r;;
  let s := update_particle_status (limits W r) s in
  '(a, n, num) <- Delete_Ghost (s_n s) (s_a s) (s_num s);;
  Ok (Pst n a (s_size s) num (s_buf s) (s_rsize s)).
(** bvals_particle, src/particles/bvals_particle.c:158-913, on all Grids *)
Definition bvals_particle (W : pworld) (now : bool) (S : rank -> res pst) : rank -> res pst :=
  step5 W (along W X3 (along W X2 (along W X1 (step1 W now S)))).
