(** * What particles deposit in ghost zones: src/particles/exchange.c

    exchange_gpcouple without SHEARING_BOX and without boundary functions enrolled by the problem generator.
    A cell of myCoup is a function from the index of a component of U to its value, over the reals; the loops over the
    components n = 0..NVar-1 are merged into operations on all components at once (components from NVar on are never
    copied back).  A message carries the NVar components of a cell together.  Neighbours and arrival of messages are
    those of bvals_mhd (BvalsParModel.v): the same lx1_id, rx1_id, ... are used. *)
From Coq Require Import ZArith Reals List Bool.
From Verif Require Import Loop BvalsModel BvalsParModel.
Import ListNotations.
Open Scope Z_scope.

Definition vec : Type := nat -> R.
Definition vadd (u v : vec) : vec := fun n => (u n + v n)%R.
(** -= or = - for component [m], += or = for the others *)
Definition flip (m : nat) (u : vec) : vec := fun n => if (n =? m)%nat then (- u n)%R else u n.
(** for (k=k0; k<=k1; k++) for (j=j0; j<=j1; j++) for (i=i0; i<=i1; i++) *)
Definition box (k0 k1 j0 j1 i0 i1 : Z) : list idx :=
  for_ k0 k1 (fun k => for_ j0 j1 (fun j => for_ i0 i1 (fun i => [(k, j, i)]))).
(** myCoup[t] += f(myCoup[s]) *)
Definition acc : Type := (idx * idx * (vec -> vec))%type.
Definition exec_acc (A : arr vec) (s : acc) : arr vec := match s with (t, s, f) => set A t (vadd (A t) (f (A s))) end.
Definition run_acc (L : list acc) (A : arr vec) : arr vec := fold_left exec_acc L A.
(** A boundary function: first the sums, then the copies to ghost zones. *)
Definition bfun : Type := (list acc * list (asg vec))%type.
Definition run_b (p : bfun) (A : arr vec) : arr vec := run (snd p) (run_acc (fst p) A).

Section Exchange.
(** NExc and NOfst *)
Variables ne no : Z.
Section Grid.
Variable G : geom.
(** exchange.c:247-267: index limits *)
Definition il := if g_N1 G >? 1 then g_is G - ne else g_is G.  Definition iu := if g_N1 G >? 1 then g_ie G + ne else g_ie G.
Definition ib := if g_N1 G >? 1 then g_is G - no else g_is G.  Definition it := if g_N1 G >? 1 then g_ie G + no else g_ie G.
Definition jl := if g_N2 G >? 1 then g_js G - ne else g_js G.  Definition ju := if g_N2 G >? 1 then g_je G + ne else g_je G.
Definition jb := if g_N2 G >? 1 then g_js G - no else g_js G.  Definition jt := if g_N2 G >? 1 then g_je G + no else g_je G.
Definition kl := if g_N3 G >? 1 then g_ks G - ne else g_ks G.  Definition ku := if g_N3 G >? 1 then g_ke G + ne else g_ke G.
Definition kb := if g_N3 G >? 1 then g_ks G - no else g_ks G.  Definition kt := if g_N3 G >? 1 then g_ke G + no else g_ke G.
Notation is := (g_is G). Notation ie := (g_ie G). Notation js := (g_js G). Notation je := (g_je G). Notation ks := (g_ks G). Notation ke := (g_ke G).

(** exchange.c:1710-1742 *)
Definition reflect_ix3 : bfun :=
  (map (fun '(k, j, i) => ((2 * ks - k - 1, j, i), (k, j, i), flip 2)) (box kl (ks - 1) jl ju il iu),
   map (fun '(k, j, i) => ((k, j, i), Copy (2 * ks - k - 1, j, i) (flip 2))) (box kb (ks - 1) jl ju il iu)).
(** exchange.c:1749-1780 *)
Definition reflect_ox3 : bfun :=
  (map (fun '(k, j, i) => ((2 * ke - k + 1, j, i), (k, j, i), flip 2)) (box (ke + 1) ku jl ju il iu),
   map (fun '(k, j, i) => ((k, j, i), Copy (2 * ke - k + 1, j, i) (flip 2))) (box (ke + 1) kt jl ju il iu)).
(** exchange.c:1786-1817 *)
Definition reflect_ix2 : bfun :=
  (map (fun '(k, j, i) => ((k, 2 * js - j - 1, i), (k, j, i), flip 1)) (box kb kt jl (js - 1) il iu),
   map (fun '(k, j, i) => ((k, j, i), Copy (k, 2 * js - j - 1, i) (flip 1))) (box kb kt jb (js - 1) il iu)).
(** exchange.c:1823-1854 *)
Definition reflect_ox2 : bfun :=
  (map (fun '(k, j, i) => ((k, 2 * je - j + 1, i), (k, j, i), flip 1)) (box kb kt (je + 1) ju il iu),
   map (fun '(k, j, i) => ((k, j, i), Copy (k, 2 * je - j + 1, i) (flip 1))) (box kb kt (je + 1) jt il iu)).
(** exchange.c:1860-1889; line 1880 has js, not is *)
Definition reflect_ix1 : bfun :=
  (map (fun '(k, j, i) => ((k, j, 2 * is - i - 1), (k, j, i), flip 0)) (box kb kt jb jt il (is - 1)),
   map (fun '(k, j, i) => ((k, j, i), Copy (k, j, 2 * js - i - 1) (flip 0))) (box kb kt jb jt ib (is - 1))).
(** exchange.c:1895-1924 *)
Definition reflect_ox1 : bfun :=
  (map (fun '(k, j, i) => ((k, j, 2 * ie - i + 1), (k, j, i), flip 0)) (box kb kt jb jt (ie + 1) iu),
   map (fun '(k, j, i) => ((k, j, i), Copy (k, j, 2 * ie - i + 1) (flip 0))) (box kb kt jb jt (ie + 1) it)).
(** exchange.c:1930-1933 *)
Definition outflow : bfun := ([], []).
(** exchange.c:1939-1963 *)
Definition periodic_ix3 : bfun :=
  let dk := g_N3 G in
  (flat_map (fun '(k, j, i) => let k1 := k + dk - ne in
     [((k, j, i), (k + dk, j, i), same); ((k1, j, i), (k1 - dk, j, i), same)]) (box ks (ks + ne - 1) jl ju il iu),
   flat_map (fun '(k, j, i) => let k1 := k + dk + no in
     [((k, j, i), Copy (k + dk, j, i) same); ((k1, j, i), Copy (k1 - dk, j, i) same)]) (box (ks - no) (ks - 1) jl ju il iu)).
(** exchange.c:1981-2005 *)
Definition periodic_ix2 : bfun :=
  let dj := g_N2 G in
  (flat_map (fun '(k, j, i) => let j1 := j + dj - ne in
     [((k, j, i), (k, j + dj, i), same); ((k, j1, i), (k, j1 - dj, i), same)]) (box kb kt js (js + ne - 1) il iu),
   flat_map (fun '(k, j, i) => let j1 := j + dj + no in
     [((k, j, i), Copy (k, j + dj, i) same); ((k, j1, i), Copy (k, j1 - dj, i) same)]) (box kb kt (js - no) (js - 1) il iu)).
(** exchange.c:2023-2061 *)
Definition periodic_ix1 : bfun :=
  let di := g_N1 G in
  (flat_map (fun '(k, j, i) => let i1 := i + di - ne in
     [((k, j, i), (k, j, i + di), same); ((k, j, i1), (k, j, i1 - di), same)]) (box kb kt jb jt is (is + ne - 1)),
   flat_map (fun '(k, j, i) => let i1 := i + di + no in
     [((k, j, i), Copy (k, j, i + di) same); ((k, j, i1), Copy (k, j, i1 - di) same)]) (box kb kt jb jt (is - no) (is - 1))).
(** exchange.c:1970-1974, 2012-2016, 2068-2072: "Do nothing" *)
Definition periodic_ox : bfun := ([], []).

(** The function pointers apply_ix1 .. apply_ox3: exchange.c:1374-1545 (flags 1 and 5: reflecting, 2: outflow, 4: periodic). *)
Definition apply_ (b : bc) (a : axis) (right : bool) : bfun :=
  match b, a, right with
  | Refl, A1, false | Cond, A1, false => reflect_ix1 | Refl, A1, true | Cond, A1, true => reflect_ox1
  | Refl, A2, false | Cond, A2, false => reflect_ix2 | Refl, A2, true | Cond, A2, true => reflect_ox2
  | Refl, A3, false | Cond, A3, false => reflect_ix3 | Refl, A3, true | Cond, A3, true => reflect_ox3
  | Outf, _, _ => outflow
  | Peri, A1, false => periodic_ix1 | Peri, A2, false => periodic_ix2 | Peri, A3, false => periodic_ix3
  | Peri, _, true => periodic_ox
  end.

(** Cells packed: exchange.c:2081-2119 (x3), 2125-2163 (x2), 2169-2231 (x1) ... *)
Definition pack_l (a : axis) : list idx :=
  match a with
  | A3 => box kl (ks + no - 1) jl ju il iu
  | A2 => box kb kt jl (js + no - 1) il iu
  | A1 => box kb kt jb jt il (is + no - 1)
  end.
Definition pack_r (a : axis) : list idx :=
  match a with
  | A3 => box (ke - no + 1) ku jl ju il iu
  | A2 => box kb kt (je - no + 1) ju il iu
  | A1 => box kb kt jb jt (ie - no + 1) iu
  end.
(** ... and the cells the message is added to: exchange.c:2283-2321 (x3), 2327-2365 (x2), 2371-2410 (x1). *)
Definition unpack_l (a : axis) : list idx :=
  match a with
  | A3 => box (ks - no) (ks + ne - 1) jl ju il iu
  | A2 => box kb kt (js - no) (js + ne - 1) il iu
  | A1 => box kb kt jb jt (is - no) (is + ne - 1)
  end.
Definition unpack_r (a : axis) : list idx :=
  match a with
  | A3 => box (ke - ne + 1) (ke + no) jl ju il iu
  | A2 => box kb kt (je - ne + 1) (je + no) il iu
  | A1 => box kb kt jb jt (ie - ne + 1) (ie + no)
  end.
(** myCoup[k][j][i].U[n] += *(pd++); None if the message is too short *)
Fixpoint add_cells (L : list idx) (m : list vec) (A : arr vec) : option (arr vec) :=
  match L with
  | [] => Some A
  | c :: L' => match m with v :: m' => add_cells L' m' (set A c (vadd (A c) v)) | [] => None end
  end.
(** One axis: exchange.c:271-362 (x3), 369-460 (x2), 539-629 (x1); [swap]: MPI_Waitany returns the right message first. *)
Definition axis_step (bl br : axis -> bc) (a : axis) (swap : bool) (ml mr : option (list vec)) (A : arr vec) : option (arr vec) :=
  if g_N G a >? 1 then
    match ml, mr with
    | Some m, Some m' =>
        if swap then obind (add_cells (unpack_r a) m' A) (add_cells (unpack_l a) m)
        else obind (add_cells (unpack_l a) m A) (add_cells (unpack_r a) m')
    | None, Some m' => add_cells (unpack_r a) m' (run_b (apply_ (bl a) a false) A)
    | Some m, None => add_cells (unpack_l a) m (run_b (apply_ (br a) a true) A)
    | None, None => Some (run_b (apply_ (br a) a true) (run_b (apply_ (bl a) a false) A))
    end
  else Some A.
(** Cells copied back to the coupling array: exchange.c:643-681 *)
Definition back_box : list idx := box kb kt jb jt ib it.
(** cnt, in cells: exchange.c:274-276, 372-374, 542-544 *)
Definition cnt_cells (a : axis) : Z :=
  let c1 := fun w => if g_N1 G >? 1 then g_N1 G + 2 * w else 1 in
  let c2 := fun w => if g_N2 G >? 1 then g_N2 G + 2 * w else 1 in
  let c3 := fun w => if g_N3 G >? 1 then g_N3 G + 2 * w else 1 in
  match a with
  | A3 => (ne + no) * c1 ne * c2 ne
  | A2 => (ne + no) * c1 ne * c3 no
  | A1 => (ne + no) * c2 no * c3 no
  end.
End Grid.

(** All Grids of a Domain, along one axis ... *)
Definition exch (bl br : axis -> bc) (D : decomp) (a : axis) (swap : gpos -> bool) (st : gpos -> arr vec) (g : gpos) : option (arr vec) :=
  obind (inbox (left_nb bl D a g) (right_nb br D a) (fun h => map (st h) (pack_r (geo D h) a)) g) (fun ml =>
  obind (inbox (right_nb br D a g) (left_nb bl D a) (fun h => map (st h) (pack_l (geo D h) a)) g) (fun mr =>
  axis_step (geo D g) bl br a (swap g) ml mr (st g))).
Definition exch_axis bl br (D : decomp) (a : axis) swap (st st' : gpos -> arr vec) : Prop :=
  forall g, (forall b, (gco b g < d_NG D b)%nat) -> exch bl br D a swap st g = Some (st' g).
(** ... and along all: x3, x2, x1. *)
Definition exch_all bl br (D : decomp) (swap : axis -> gpos -> bool) (st st' : gpos -> arr vec) : Prop :=
  exists st1 st2, exch_axis bl br D A3 (swap A3) st st1 /\ exch_axis bl br D A2 (swap A2) st1 st2 /\ exch_axis bl br D A1 (swap A1) st2 st'.
End Exchange.

(** GPCouple, src/athena.h: the fields used here. *)
Record coup := Coup { fb1 : R; fb2 : R; fb3 : R; FBstiff : R; Eloss : R; grid_v1 : R; grid_v2 : R; grid_v3 : R; grid_d : R }.
(** The argument "lab": 0 binning, 1 predictor, 2 corrector (exchange.c:189-238). *)
Inductive label := Bin | Pred | Corr.
Definition NVar (b : label) : nat := match b with Bin => 4 | Pred => 5 | Corr => 4 end%nat.
Definition NExc (b : label) : Z := match b with Bin => 1 | Pred => 1 | Corr => 2 end.
Definition NOfst (ng : Z) (b : label) : Z := match b with Bin => 0 | Pred => ng | Corr => 0 end.
(** exchange.c:194-235 *)
Definition load (b : label) (q : coup) : vec :=
  match b with
  | Bin => fun n => nth n [grid_v1 q; grid_v2 q; grid_v3 q; grid_d q] 0%R
  | Pred => fun n => nth n [fb1 q; fb2 q; fb3 q; FBstiff q; Eloss q] 0%R
  | Corr => fun n => nth n [fb1 q; fb2 q; fb3 q; Eloss q] 0%R
  end.
(** exchange.c:641-675 *)
Definition store (b : label) (u : vec) (q : coup) : coup :=
  match b with
  | Bin => Coup (fb1 q) (fb2 q) (fb3 q) (FBstiff q) (Eloss q) (u 0%nat) (u 1%nat) (u 2%nat) (u 3%nat)
  | Pred => Coup (u 0%nat) (u 1%nat) (u 2%nat) (u 3%nat) (u 4%nat) (grid_v1 q) (grid_v2 q) (grid_v3 q) (grid_d q)
  | Corr => Coup (u 0%nat) (u 1%nat) (u 2%nat) (FBstiff q) (u 3%nat) (grid_v1 q) (grid_v2 q) (grid_v3 q) (grid_d q)
  end.
(** exchange_gpcouple on all Grids of the Domain: exchange.c:161-685.  All cells of the array are loaded (klp..kup are
    its limits, init_particle.c:230-256); those of [back_box] are stored. *)
Definition store_all (b : label) (G : geom) (m : arr vec) (A : arr coup) : arr coup :=
  fun c => if existsb (idx_eqb c) (back_box (NOfst (g_ng G) b) G) then store b (m c) (A c) else A c.
Definition exchange_gpcouple (b : label) bl br (D : decomp) (swap : axis -> gpos -> bool) (Q Q' : gpos -> arr coup) : Prop :=
  exists st', exch_all (NExc b) (NOfst (d_ng D) b) bl br D swap (fun g c => load b (Q g c)) st' /\
    forall g, Q' g = store_all b (geo D g) (st' g) (Q g).

(** exchange_gpcouple_init, exchange.c:1573-1617: size of send_buf and recv_buf; [gs]: the Grids of the Domain, [div]: the axes
    along which it is divided. *)
Definition NLayer_Max : Z := 6.
Definition NVar_Max : Z := 5.
Definition wide (N : Z) : Z := if N >? 1 then N + 2 * NLayer_Max else N.
Definition face (G : geom) (a : axis) : Z :=
  match a with A3 => wide (g_N1 G) * wide (g_N2 G) | A2 => wide (g_N1 G) * wide (g_N3 G) | A1 => wide (g_N2 G) * wide (g_N3 G) end.
Definition buf_size (gs : list geom) (div : list axis) : Z :=
  fold_left (fun m a => fold_left (fun m G => Z.max m (face G a)) gs m) div 0 * (NLayer_Max * NVar_Max).
