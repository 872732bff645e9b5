(** * Model of src/init_mesh.c and of the geometry part of src/init_grid.c

    The integer part of init_mesh: levels, Domains, nesting checks, division of Domains
    into Grids, assignment of processes and communicators.  Simplifications: a <domain>
    block is a record of its integers (missing parameters are the subject of ParModel);
    the real coordinates are modelled in PosModel; allocation never fails; [int] is [Z]
    except where the code can overflow for realistic values (dom_decomp). *)
From Coq Require Import ZArith List Bool Arith.
From Verif Require Import CStr.
Import ListNotations.
Open Scope Z_scope.

Inductive axis := X1 | X2 | X3.
Definition vec := axis -> Z.
(** Axes 0..nDim-1. *)
Definition axes (nDim : nat) : list axis := firstn nDim [X1; X2; X3].
Definition all3 (f : axis -> bool) : bool := f X1 && f X2 && f X3.

(** A <domain> block of the input file. *)
Record blk := Blk { b_level : Z; b_Nx : vec; b_Disp : vec; b_NGrid : vec; b_auto : Z }.

(** DomainS (src/athena.h): block number, cells, displacement, Grids per axis, and
    GData[n][m][l].ID_Comm_world in the order n, m, l. *)
Record domain := Dom { dm_block : nat; dm_level : nat; dm_Nx : vec; dm_Disp : vec; dm_NG : vec; dm_ids : list Z }.
Record mesh := Mesh { ms_Nx : vec; ms_nDim : nat; ms_levels : list (list domain) }.

(** SideS: ijkl and ijkr. *)
Record box := Box { bl : vec; br : vec }.

(** ** Steps 1-3 *)
(** src/init_mesh.c:116-123. *)
Definition max_level (bs : list blk) : Z := fold_left (fun m b => Z.max m (b_level b)) bs 0.
(** src/init_mesh.c:170-172: number of axes with more than one cell. *)
Definition count_dims (v : vec) : nat :=
  length (filter (fun a => 1 <? v a) [X1; X2; X3]).
(** src/init_mesh.c:170-192, 269-291: the tests on Nx shared by root and Domains. *)
Definition dims_ok (nDim : nat) (v : vec) : bool :=
  all3 (fun a => negb (v a <? 1)) &&
  negb ((nDim =? 1)%nat && (v X1 =? 1)) && negb ((nDim =? 2)%nat && (1 <? v X3)).
(** irefine = 2^nl, src/init_mesh.c:252-253. *)
Definition irefine (nl : nat) : Z := 2 ^ Z.of_nat nl.
(** src/init_mesh.c:231-330 for one block: validation and displacement (0 on the root
    level, and along axes in which the mesh has one cell). *)
Definition make_domain (root : vec) (nDim : nat) (nblock : nat) (b : blk) : res domain :=
  if b_level b <? 0 then UB (* next_domainid[nl] *) else
  let nl := Z.to_nat (b_level b) in
  if negb (count_dims (b_Nx b) =? nDim)%nat then Fatal else
  if negb (dims_ok nDim (b_Nx b)) then Fatal else
  if negb (forallb (fun a => Z.rem (b_Nx b a) (irefine nl) =? 0) (axes nDim)) then Fatal else
  let disp := fun a => if (nl =? 0)%nat then 0 else
                       match a with
                       | X1 => b_Disp b X1
                       | X2 => if 1 <? root X2 then b_Disp b X2 else 0
                       | X3 => if 1 <? root X3 then b_Disp b X3 else 0
                       end in
  if negb (forallb (fun a => Z.rem (disp a) (irefine nl) =? 0) (axes nDim)) then Fatal else
  Ok (Dom nblock nl (b_Nx b) disp (b_NGrid b) []).
Fixpoint make_domains (root : vec) (nDim nblock : nat) (bs : list blk) : res (list domain) :=
  match bs with
  | [] => Ok []
  | b :: bs' =>
      d <- make_domain root nDim nblock b;;
      ds <- make_domains root nDim (S nblock) bs';;
      Ok (d :: ds)
  end.
(** Domain[nl][0..]: the blocks of level nl in the order of the input. *)
Definition on_level (nl : nat) (ds : list domain) : list domain :=
  filter (fun d => (dm_level d =? nl)%nat) ds.

(** ** Step 4: src/init_mesh.c:365-393 *)
Definition sides (d : domain) : box := Box (dm_Disp d) (fun a => dm_Disp d a + dm_Nx d a).
Definition meet_or_touch (p q : box) : bool :=
  all3 (fun a => (bl p a <=? br q a) && (br p a >=? bl q a)).
Fixpoint same_level_ok (ds : list domain) : bool :=
  match ds with
  | [] => true
  | d :: ds' => forallb (fun e => negb (meet_or_touch (sides d) (sides e))) ds' && same_level_ok ds'
  end.

(** ** Step 5: src/init_mesh.c:397-477 *)
(** Edges of a potential child in units of the parent level (C division truncates). *)
Definition child_sides (c : domain) : box :=
  Box (fun a => Z.quot (dm_Disp c a) 2)
      (fun a => if 1 <? dm_Nx c a then Z.quot (dm_Disp c a + dm_Nx c a) 2 else 1).
Definition nested_axis (nghost : Z) (root : vec) (nl : nat) (p c : domain) (a : axis) : bool :=
  let d1 := sides p in let d2 := child_sides c in
  let roffset := Z.quot (dm_Disp c a + dm_Nx c a) (2 * irefine nl) - root a in
  negb (((bl d2 a =? bl d1 a) && negb (dm_Disp p a =? 0)) || ((br d2 a =? br d1 a) && negb (roffset =? 0))) &&
  negb ((bl d2 a <? bl d1 a) || (br d2 a >? br d1 a)) &&
  negb (((2 * (bl d2 a - bl d1 a) <? nghost) && (2 * (bl d2 a - bl d1 a) >? 0)) ||
        ((2 * (br d1 a - br d2 a) <? nghost) && (2 * (br d1 a - br d2 a) >? 0))).
Definition nested_pair (nghost : Z) (root : vec) (nDim nl : nat) (p c : domain) : bool :=
  if meet_or_touch (sides p) (child_sides c)
  then forallb (nested_axis nghost root nl p c) (axes nDim) else true.
Fixpoint nested_ok (nghost : Z) (root : vec) (nDim nl : nat) (levels : list (list domain)) : bool :=
  match levels with
  | ps :: (cs :: _) as rest =>
      forallb (fun p => forallb (nested_pair nghost root nDim nl p) cs) ps &&
      nested_ok nghost root nDim (S nl) rest
  | _ => true
  end.

(** ** Automatic decomposition: src/init_mesh.c:887-1064 *)
Definition INT_MAX : Z := 2 ^ 31 - 1.
Definition INT_MIN : Z := - 2 ^ 31.
(** The result of an int computation; overflow is undefined. *)
Definition chk (x : Z) : res Z := if (INT_MIN <=? x) && (x <=? INT_MAX) then Ok x else UB.
(** Search down for a factor of Np: [n] values rx, rx-1, ... *)
Fixpoint down (Np rx : Z) (n : nat) : option Z :=
  match n with
  | O => None
  | S n' => if Z.rem Np rx =? 0 then Some rx else down Np (rx - 1) n'
  end.
Fixpoint up (Np rx : Z) (n : nat) : option Z :=
  match n with
  | O => None
  | S n' => if Z.rem Np rx =? 0 then Some rx else up Np (rx + 1) n'
  end.
Definition rx_lower (Np t : Z) : Z :=
  if t <? Np then Z.quot Np t + (if Z.rem Np t >? 0 then 1 else 0) else 1.
Definition cost2 (ng Nx Ny rx ry : Z) : Z := (rx - 1) * Ny + (ry - 1) * (Nx + 2 * ng * rx).
(** src/init_mesh.c:932-992.  [rxs0]: the ideal value, computed in floating point
    (any integer). *)
Definition dom_decomp_2d (ng : Z) (rxs0 : Z) (Nx Ny Np : Z) : res (option (Z * Z)) :=
  let rx_max := if Nx <? Np then Nx else Np in
  let rx_min := rx_lower Np Ny in
  let rxs := if rxs0 >? rx_min then rxs0 else rx_min in
  let rxs := if rxs <? rx_max then rxs else rx_max in
  s1 <- match down Np rxs (Z.to_nat (rxs - rx_min + 1)) with
        | Some rx => let ry := Z.quot Np rx in I <- chk (cost2 ng Nx Ny rx ry);; Ok (Some (rx, ry, I))
        | None => Ok None
        end;;
  s2 <- match up Np (rxs + 1) (Z.to_nat (rx_max - rxs)) with
        | Some rx => let ry := Z.quot Np rx in I <- chk (cost2 ng Nx Ny rx ry);;
            match s1 with
            | Some (_, _, I0) => if I <? I0 then Ok (Some (rx, ry, I)) else Ok s1
            | None => Ok (Some (rx, ry, I))
            end
        | None => Ok s1
        end;;
  Ok (match s2 with Some (rx, ry, _) => Some (rx, ry) | None => None end).
Definition cost3 (ng Nx Ny Nz rx ry rz : Z) : Z :=
  (rx - 1) * Ny * Nz + (ry - 1) * (Nx + 2 * ng * rx) * Nz + (rz - 1) * (Nx + 2 * ng * rx) * (Ny + 2 * ng * ry).
(** src/init_mesh.c:1026-1050: the loop over rx.  The test I < 0, which hopes to detect
    an overflow, cannot succeed here because overflow is undefined. *)
Fixpoint decomp3_loop (ng : Z) (ideal : Z -> Z -> Z -> Z) (Nx Ny Nz Np rx : Z) (n : nat)
  (best : option (Z * Z * Z * Z)) : res (option (Z * Z * Z * Z)) :=
  match n with
  | O => Ok best
  | S n' =>
      best <- (if Z.rem Np rx =? 0 then
                 let Npt := Z.quot Np rx in
                 r <- dom_decomp_2d ng (ideal Ny Nz Npt) Ny Nz Npt;;
                 match r with
                 | Some (ry, rz) =>
                     I <- chk (cost3 ng Nx Ny Nz rx ry rz);;
                     if I <? 0 then Ok best else
                     match best with
                     | Some (_, _, _, I0) => if I <? I0 then Ok (Some (rx, ry, rz, I)) else Ok best
                     | None => Ok (Some (rx, ry, rz, I))
                     end
                 | None => Ok best
                 end
               else Ok best);;
      decomp3_loop ng ideal Nx Ny Nz Np (rx + 1) n' best
  end.
Definition dom_decomp_3d (ng : Z) (ideal : Z -> Z -> Z -> Z) (Nx Ny Nz Np : Z) : res (option (Z * Z * Z)) :=
  let rx_max := if Nx <? Np then Nx else Np in
  t <- chk ((if Ny <? Np then Ny else Np) * (if Nz <? Np then Nz else Np));;
  let rx_min := rx_lower Np t in
  r <- decomp3_loop ng ideal Nx Ny Nz Np rx_min (Z.to_nat (rx_max - rx_min + 1)) None;;
  Ok (match r with Some (x, y, z, _) => Some (x, y, z) | None => None end).
(** src/init_mesh.c:887-911; [None] is the return value 1. *)
Definition dom_decomp (ng : Z) (ideal : Z -> Z -> Z -> Z) (Nx Ny Nz Np : Z) : res (option (Z * Z * Z)) :=
  if (Nx >? 1) && (Ny =? 1) && (Nz =? 1) then
    if Np >? Nx then Ok None else Ok (Some (Np, 1, 1))
  else if (Nx >? 1) && (Ny >? 1) && (Nz =? 1) then
    r <- dom_decomp_2d ng (ideal Nx Ny Np) Nx Ny Np;;
    Ok (match r with Some (x, y) => Some (x, y, 1) | None => None end)
  else if (Nx >? 1) && (Ny >? 1) && (Nz >? 1) then dom_decomp_3d ng ideal Nx Ny Nz Np
  else Ok None.

(** ** Step 6: src/init_mesh.c:484-606 *)
(** Assign [n] Grids round robin: the IDs and the new next_procID (lines 548-555). *)
Fixpoint assign (P next : Z) (n : nat) : list Z * Z :=
  match n with
  | O => ([], next)
  | S n' => let next' := if next + 1 >? P - 1 then 0 else next + 1 in
            let '(l, e) := assign P next' n' in (next :: l, e)
  end.
Definition mk_vec (x y z : Z) : vec := fun a => match a with X1 => x | X2 => y | X3 => z end.
(** The layout of Grids of one Domain (lines 491-524); a negative number of Grids in the
    block would be passed to the allocator, outcome UB. *)
Definition layout (ng : Z) (ideal : Z -> Z -> Z -> Z) (b_auto : Z) (d : domain) : res vec :=
  if b_auto =? 0 then
    if negb (all3 (fun a => negb (dm_NG d a =? 0))) then Fatal
    else if all3 (fun a => 0 <? dm_NG d a) then Ok (dm_NG d) else UB
  else if b_auto >? 0 then
    r <- dom_decomp ng ideal (dm_Nx d X1) (dm_Nx d X2) (dm_Nx d X3) b_auto;;
    match r with Some (x, y, z) => Ok (mk_vec x y z) | None => Fatal end
  else Fatal.
Definition ngrids (d : domain) : Z := dm_NG d X1 * dm_NG d X2 * dm_NG d X3.
Definition split_domain (ng : Z) (ideal : Z -> Z -> Z -> Z) (P next : Z) (autos : nat -> Z) (d : domain) : res (domain * Z) :=
  v <- layout ng ideal (autos (dm_block d)) d;;
  let d := Dom (dm_block d) (dm_level d) (dm_Nx d) (dm_Disp d) v (dm_ids d) in
  if negb (all3 (fun a => negb ((1 <? v a) && (dm_Nx d a <=? 1)))) then Fatal else
  if ngrids d >? P then Fatal else
  let '(ids, next) := assign P next (Z.to_nat (ngrids d)) in
  Ok (Dom (dm_block d) (dm_level d) (dm_Nx d) (dm_Disp d) v ids, next).
Fixpoint split_list (ng : Z) (ideal : Z -> Z -> Z -> Z) (P next : Z) (autos : nat -> Z) (ds : list domain) : res (list domain * Z) :=
  match ds with
  | [] => Ok ([], next)
  | d :: ds' =>
      '(d', next) <- split_domain ng ideal P next autos d;;
      '(r, next) <- split_list ng ideal P next autos ds';;
      Ok (d' :: r, next)
  end.
Fixpoint split_levels (ng : Z) (ideal : Z -> Z -> Z -> Z) (P next : Z) (autos : nat -> Z) (ls : list (list domain)) : res (list (list domain) * Z) :=
  match ls with
  | [] => Ok ([], next)
  | l :: ls' =>
      '(l', next) <- split_list ng ideal P next autos l;;
      '(r, next) <- split_levels ng ideal P next autos ls';;
      Ok (l' :: r, next)
  end.

(** ** init_mesh, steps 1-6 *)
Definition block_auto (bs : list blk) (nblock : nat) : Z :=
  match nth_error bs (nblock - 1) with Some b => b_auto b | None => 0 end.
Definition init_mesh (ng : Z) (ideal : Z -> Z -> Z -> Z) (P : Z) (bs : list blk) : res mesh :=
  let maxlevel := Z.to_nat (max_level bs) in
  let lev n := filter (fun b => b_level b =? Z.of_nat n) bs in
  if negb (forallb (fun n => negb (length (lev n) =? 0)%nat) (seq 0 (S maxlevel))) then Fatal else
  match lev 0%nat with
  | [root] =>
      let nDim := count_dims (b_Nx root) in
      if (nDim =? 0)%nat then Fatal else
      if negb (dims_ok nDim (b_Nx root)) then Fatal else
      ds <- make_domains (b_Nx root) nDim 1 bs;;
      let levels := map (fun n => on_level n ds) (seq 0 (S maxlevel)) in
      if negb (forallb same_level_ok (tl levels)) then Fatal else
      if negb (nested_ok ng (b_Nx root) nDim 0 levels) then Fatal else
      '(levels, next) <- split_levels ng ideal P 0 (block_auto bs) levels;;
      if negb (next =? 0) then Fatal else
      Ok (Mesh (b_Nx root) nDim levels)
  | _ => Fatal
  end.

(** Extents of Grid [i] (0 <= i < NGrid) along one axis: lines 541-606. *)
Definition gNx (d : domain) (a : axis) (i : nat) : Z :=
  Z.quot (dm_Nx d a) (dm_NG d a) + (if Z.of_nat i <? Z.rem (dm_Nx d a) (dm_NG d a) then 1 else 0).
Fixpoint gDisp (d : domain) (a : axis) (i : nat) : Z :=
  match i with
  | O => dm_Disp d a
  | S j => gDisp d a j + gNx d a j
  end.
(** A Grid is named by its indices (l, m, n) in the Domain. *)
Record gidx := Gi { gl : nat; gm : nat; gn : nat }.
Definition gi_ax (g : gidx) (a : axis) : nat := match a with X1 => gl g | X2 => gm g | X3 => gn g end.
(** ID_Comm_Domain: position in the triple loop (src/init_mesh.c:690-696). *)
Definition gpos (d : domain) (g : gidx) : nat :=
  ((gn g * Z.to_nat (dm_NG d X2) + gm g) * Z.to_nat (dm_NG d X1) + gl g)%nat.
Definition gid (d : domain) (g : gidx) : Z := nth (gpos d g) (dm_ids d) (-1).

(** Step 7 (lines 608-630): the Domain has a Grid on process [me]. *)
Definition has_grid (me : Z) (d : domain) : bool := existsb (Z.eqb me) (dm_ids d).
(** get_myGridIndex, src/init_mesh.c:852-870: position in the triple loop. *)
Fixpoint find_pos (me : Z) (ids : list Z) : res nat :=
  match ids with
  | [] => Fatal
  | x :: ids' => if x =? me then Ok O else p <- find_pos me ids';; Ok (S p)
  end.
Definition idx_of_pos (d : domain) (p : nat) : gidx :=
  let n1 := Z.to_nat (dm_NG d X1) in let n2 := Z.to_nat (dm_NG d X2) in
  Gi (p mod n1) (p / n1 mod n2) (p / n1 / n2).
Definition get_myGridIndex (d : domain) (me : Z) : res gidx :=
  p <- find_pos me (dm_ids d);; Ok (idx_of_pos d p).

(** ** src/init_grid.c:227-262: neighbour IDs *)
Definition shift (g : gidx) (a : axis) (up : bool) : gidx :=
  let f := fun k : nat => if up then S k else Nat.pred k in
  match a with
  | X1 => Gi (f (gl g)) (gm g) (gn g)
  | X2 => Gi (gl g) (f (gm g)) (gn g)
  | X3 => Gi (gl g) (gm g) (f (gn g))
  end.
Definition left_id (d : domain) (g : gidx) (a : axis) : Z :=
  if (0 <? gi_ax g a)%nat then Z.of_nat (gpos d (shift g a false)) else -1.
Definition right_id (d : domain) (g : gidx) (a : axis) : Z :=
  if Z.of_nat (gi_ax g a) <? dm_NG d a - 1 then Z.of_nat (gpos d (shift g a true)) else -1.

(** ** Step 9: src/init_mesh.c:707-841, parent/child communicators *)
(** irank: the last index with ranks[i] = x, or -1. *)
Fixpoint find_last (x : Z) (ranks : list Z) : option nat :=
  match ranks with
  | [] => None
  | r :: rs => match find_last x rs with
               | Some i => Some (S i)
               | None => if r =? x then Some O else None
               end
  end.
(** One child Domain: lines 786-801.  ranks[] has room for [P] entries. *)
Fixpoint add_child (P : Z) (ranks ids : list Z) : res (list Z * list Z) :=
  match ids with
  | [] => Ok (ranks, [])
  | x :: ids' =>
      match find_last x ranks with
      | None =>
          if Z.of_nat (length ranks) <? P then
            '(r, q) <- add_child P (ranks ++ [x]) ids';;
            Ok (r, Z.of_nat (length ranks) :: q)
          else UB
      | Some i =>
          '(r, q) <- add_child P ranks ids';;
          Ok (r, nth i ranks (-1) :: q)
      end
  end.
Definition overlap (p q : box) : bool := all3 (fun a => (bl p a <? br q a) && (br p a >? bl q a)).
(** All children of [p] (lines 766-803): ranks of Comm_Children and, for each Domain of
    the next level, the ID_Comm_Parent of its Grids when it is a child of [p]. *)
Fixpoint add_children (P : Z) (p : domain) (ranks : list Z) (cs : list domain) : res (list Z * list (option (list Z))) :=
  match cs with
  | [] => Ok (ranks, [])
  | c :: cs' =>
      if overlap (sides p) (child_sides c) then
        '(ranks, q) <- add_child P ranks (dm_ids c);;
        '(r, qs) <- add_children P p ranks cs';;
        Ok (r, Some q :: qs)
      else
        '(r, qs) <- add_children P p ranks cs';;
        Ok (r, None :: qs)
  end.
Definition comm_children (P : Z) (p : domain) (cs : list domain) : res (list Z * list (option (list Z))) :=
  if Z.of_nat (length (dm_ids p)) <=? P then add_children P p (dm_ids p) cs else UB.

(** ** src/init_grid.c:1138-1203 *)
Definition overlap_box (p q : box) (yes : bool) : box :=
  if yes then Box (fun a => Z.max (bl p a) (bl q a)) (fun a => Z.min (br p a) (br q a))
  else Box (fun _ => -1) (fun _ => -1).
Definition checkOverlap (p q : box) : bool * box :=
  let yes := all3 (fun a => (bl p a <? br q a) && (br p a >? bl q a)) in (yes, overlap_box p q yes).
Definition checkOverlapTouch (p q : box) : bool * box :=
  let yes := all3 (fun a => (bl p a <=? br q a) && (br p a >=? bl q a)) in (yes, overlap_box p q yes).
