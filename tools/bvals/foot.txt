
(** ** bvals_mhd_init: choice of the boundary function *)
Inductive bc := Refl | Outf | Peri | Cond.
(** The switch over BCFlag_*: src/bvals_mhd.c:558-586 (same text for the other five sides).
    None: unknown flag, the program exits. *)
Definition bc_of_flag (flag : Z) : option bc :=
  if flag =? 1 then Some Refl else if flag =? 2 then Some Outf
  else if flag =? 4 then Some Peri else if flag =? 5 then Some Cond else None.
Definition bc_fun (b : bc) (a : axis) (right : bool) : geom -> prog :=
  match b, a, right with
  | Refl, A1, false => reflect_ix1 | Refl, A1, true => reflect_ox1
  | Refl, A2, false => reflect_ix2 | Refl, A2, true => reflect_ox2
  | Refl, A3, false => reflect_ix3 | Refl, A3, true => reflect_ox3
  | Outf, A1, false => outflow_ix1 | Outf, A1, true => outflow_ox1
  | Outf, A2, false => outflow_ix2 | Outf, A2, true => outflow_ox2
  | Outf, A3, false => outflow_ix3 | Outf, A3, true => outflow_ox3
  | Peri, A1, false => periodic_ix1 | Peri, A1, true => periodic_ox1
  | Peri, A2, false => periodic_ix2 | Peri, A2, true => periodic_ox2
  | Peri, A3, false => periodic_ix3 | Peri, A3, true => periodic_ox3
  | Cond, A1, false => conduct_ix1 | Cond, A1, true => conduct_ox1
  | Cond, A2, false => conduct_ix2 | Cond, A2, true => conduct_ox2
  | Cond, A3, false => conduct_ix3 | Cond, A3, true => conduct_ox3
  end.
(** What is sent to the left and right neighbour, and where what they send is stored. *)
Definition send_l (a : axis) : geom -> visit := match a with A1 => pack_ix1 | A2 => pack_ix2 | A3 => pack_ix3 end.
Definition send_r (a : axis) : geom -> visit := match a with A1 => pack_ox1 | A2 => pack_ox2 | A3 => pack_ox3 end.
Definition recv_l (a : axis) : geom -> visit := match a with A1 => unpack_ix1 | A2 => unpack_ix2 | A3 => unpack_ix3 end.
Definition recv_r (a : axis) : geom -> visit := match a with A1 => unpack_ox1 | A2 => unpack_ox2 | A3 => unpack_ox3 end.

(** ** bvals_mhd on a Grid without neighbours (src/bvals_mhd.c:279-283, 381-385, 497-501):
    along each axis with more than one cell, left function then right function; axes in the
    order x1, x2, x3. [bl], [br]: the boundary conditions per axis. *)
Definition phys_axis (bl br : axis -> bc) (G : geom) (a : axis) (f : fields) : fields :=
  if g_N G a >? 1 then apply (bc_fun (br a) a true G) (apply (bc_fun (bl a) a false G) f) else f.
Definition bvals_mhd (bl br : axis -> bc) (G : geom) (f : fields) : fields :=
  phys_axis bl br G A3 (phys_axis bl br G A2 (phys_axis bl br G A1 f)).

(** ** bvals_mhd with neighbours, one axis (src/bvals_mhd.c:187-282 and the same text for x2,
    x3).  [ml]: the message received from the left neighbour, packed by its pack_o*; [mr]: the
    message from the right neighbour.  A Grid without a neighbour on a side uses the physical
    boundary there.  When both messages are expected they are unpacked in the order in which
    they arrive ([swap]).  None: a message is shorter than what is read from it. *)
Definition obind {A B} (o : option A) (k : A -> option B) : option B := match o with Some a => k a | None => None end.
Definition mpi_axis (n : nat) (bl br : axis -> bc) (G : geom) (a : axis) (swap : bool)
    (ml mr : option (list F)) (f : fields) : option fields :=
  if g_N G a >? 1 then
    match ml, mr with
    | Some m, Some m' =>
        if swap then obind (unpack n (recv_r a G) m' f) (unpack n (recv_l a G) m) else obind (unpack n (recv_l a G) m f) (unpack n (recv_r a G) m')
    | None, Some m' => unpack n (recv_r a G) m' (apply (bc_fun (bl a) a false G) f)
    | Some m, None => unpack n (recv_l a G) m (apply (bc_fun (br a) a true G) f)
    | None, None => Some (apply (bc_fun (br a) a true G) (apply (bc_fun (bl a) a false G) f))
    end
  else Some f.

(** ** Lengths of messages: [cnt] of src/bvals_mhd.c:190-197, 293-299, 410-415, with NVAR the
    number of words per cell (8 + NSCALARS in this configuration, src/defs.h.in). *)
Definition cnt (nvar : Z) (G : geom) (a : axis) : Z :=
  let ng := g_ng G in let N1 := g_N1 G in let N2 := g_N2 G in let N3 := g_N3 G in
  let cnt2 := if N2 >? 1 then N2 + 1 else 1 in
  let cnt3 := if N3 >? 1 then N3 + 1 else 1 in
  match a with
  | A1 => ng * N2 * N3 * nvar + (ng - 1) * N2 * N3 + ng * cnt2 * N3 + ng * N2 * cnt3
  | A2 => (N1 + 2 * ng) * ng * N3 * nvar + (N1 + 2 * ng - 1) * ng * N3 + (N1 + 2 * ng) * (ng - 1) * N3
          + (N1 + 2 * ng) * ng * cnt3
  | A3 => (N1 + 2 * ng) * (N2 + 2 * ng) * ng * nvar + (N1 + 2 * ng - 1) * (N2 + 2 * ng) * ng
          + (N1 + 2 * ng) * (N2 + 2 * ng - 1) * ng + (N1 + 2 * ng) * (N2 + 2 * ng) * (ng - 1)
  end.
(** Surface areas used to size the buffers, src/bvals_mhd.c:838-874, for one Grid of a Domain
    with NGrid > 1 along the axis. *)
Definition area (G : geom) (a : axis) : Z :=
  let up d n := if n >? 1 then n + d else n in
  match a with
  | A1 => up 1 (g_N2 G) * up 1 (g_N3 G)
  | A2 => up (2 * g_ng G) (g_N1 G) * up 1 (g_N3 G)
  | A3 => up (2 * g_ng G) (g_N1 G) * up (2 * g_ng G) (g_N2 G)
  end.
(** Buffer size, lines 838-890: the largest area over all Grids of the Domains this process
    takes part in, times nghost*(NVAR+3).  [gs]: the Grids, with the axes along which their
    Domain is divided. *)
Definition buf_size (nvar ng : Z) (gs : list (geom * list axis)) : Z :=
  fold_left (fun m G => fold_left (fun m a => Z.max m (area (fst G) a)) (snd G) m) gs 0 * (ng * (nvar + 3)).

End Bvals.
