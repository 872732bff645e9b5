(** * Ghost zones of the gravitational potential: src/gravity/bvals_grav.c

    Values are of an arbitrary type [F]; [ext3 a b c] stands for 3.0*a - 3.0*b + c, the only arithmetic of the file
    (QUADRATIC_EXTRAPOLATION is defined in line 1116), so results hold bit for bit.
    Not modelled: SHEARING_BOX, ProlongateLater (Domains that do not touch the edge of the root Domain), boundary
    functions enrolled by the problem generator.  Geometry of a Grid, neighbours and arrival of messages are those of
    bvals_mhd (BvalsModel.v, BvalsParModel.v): lx1_Gid, rx1_Gid, ... are set like lx1_id, rx1_id, ... *)
From Coq Require Import ZArith List Bool.
From Verif Require Import Loop BvalsModel BvalsParModel.
Import ListNotations.
Open Scope Z_scope.

(** Which boundary function is used; bvals_grav_init, bvals_grav.c:453-484 (the same text for the other sides; with
    SELF_GRAVITY_USING_FFT_OBC all sides, with SELF_GRAVITY_USING_FFT_DISK both x3-sides are open whatever the flag).
    None: ath_error. *)
Inductive gbc := GRefl | GPeri | GOpen.
Definition gbc_of_flag (fft_obc : bool) (flag : Z) : option gbc :=
  if fft_obc then Some GOpen else
  match flag with 1 => Some GRefl | 4 => Some GPeri | 5 => Some GRefl | _ => None end.
(** Only periodic sides have a neighbour across the edge (lines 465-472 and the same for the other sides). *)
Definition nb_of (b : gbc) : bc := match b with GPeri => Peri | _ => Refl end.

(** Phi[t] = Phi[s], and Phi[t] = 3.0*Phi[s1] - 3.0*Phi[s2] + Phi[s3] *)
Inductive gexpr := From (s : idx) | Extra (s1 s2 s3 : idx).

(** The loops of the functions, one for each side.
    bvals_grav.c:847-853, 1129-1139: for k=ks..ke, j=js..je, i=1..nghost: Phi[k][j][is-i] *)
Definition loop_ix1 (G : geom) (e : Z -> Z -> Z -> gexpr) : list (idx * gexpr) :=
  for_ (g_ks G) (g_ke G) (fun k => for_ (g_js G) (g_je G) (fun j => for_ 1 (g_ng G) (fun i => [((k, j, g_is G - i), e k j i)]))).
Definition loop_ox1 (G : geom) (e : Z -> Z -> Z -> gexpr) : list (idx * gexpr) :=
  for_ (g_ks G) (g_ke G) (fun k => for_ (g_js G) (g_je G) (fun j => for_ 1 (g_ng G) (fun i => [((k, j, g_ie G + i), e k j i)]))).
Definition loop_ix2 (G : geom) (e : Z -> Z -> Z -> gexpr) : list (idx * gexpr) :=
  for_ (g_ks G) (g_ke G) (fun k => for_ 1 (g_ng G) (fun j => for_ (g_is G - g_ng G) (g_ie G + g_ng G) (fun i => [((k, g_js G - j, i), e k j i)]))).
Definition loop_ox2 (G : geom) (e : Z -> Z -> Z -> gexpr) : list (idx * gexpr) :=
  for_ (g_ks G) (g_ke G) (fun k => for_ 1 (g_ng G) (fun j => for_ (g_is G - g_ng G) (g_ie G + g_ng G) (fun i => [((k, g_je G + j, i), e k j i)]))).
Definition loop_ix3 (G : geom) (e : Z -> Z -> Z -> gexpr) : list (idx * gexpr) :=
  for_ 1 (g_ng G) (fun k => for_ (g_js G - g_ng G) (g_je G + g_ng G) (fun j => for_ (g_is G - g_ng G) (g_ie G + g_ng G) (fun i => [((g_ks G - k, j, i), e k j i)]))).
Definition loop_ox3 (G : geom) (e : Z -> Z -> Z -> gexpr) : list (idx * gexpr) :=
  for_ 1 (g_ng G) (fun k => for_ (g_js G - g_ng G) (g_je G + g_ng G) (fun j => for_ (g_is G - g_ng G) (g_ie G + g_ng G) (fun i => [((g_ke G + k, j, i), e k j i)]))).

(** bvals_grav.c:840-856 *)
Definition reflect_Phi_ix1 G := loop_ix1 G (fun k j i => From (k, j, g_is G + (i - 1))).
(** bvals_grav.c:863-879 *)
Definition reflect_Phi_ox1 G := loop_ox1 G (fun k j i => From (k, j, g_ie G - (i - 1))).
(** bvals_grav.c:886-902 *)
Definition reflect_Phi_ix2 G := loop_ix2 G (fun k j i => From (k, g_js G + (j - 1), i)).
(** bvals_grav.c:909-925 *)
Definition reflect_Phi_ox2 G := loop_ox2 G (fun k j i => From (k, g_je G - (j - 1), i)).
(** bvals_grav.c:932-948 *)
Definition reflect_Phi_ix3 G := loop_ix3 G (fun k j i => From (g_ks G + (k - 1), j, i)).
(** bvals_grav.c:955-971 *)
Definition reflect_Phi_ox3 G := loop_ox3 G (fun k j i => From (g_ke G - (k - 1), j, i)).
(** bvals_grav.c:978-994 *)
Definition periodic_Phi_ix1 G := loop_ix1 G (fun k j i => From (k, j, g_ie G - (i - 1))).
(** bvals_grav.c:1001-1017 *)
Definition periodic_Phi_ox1 G := loop_ox1 G (fun k j i => From (k, j, g_is G + (i - 1))).
(** bvals_grav.c:1024-1039 *)
Definition periodic_Phi_ix2 G := loop_ix2 G (fun k j i => From (k, g_je G - (j - 1), i)).
(** bvals_grav.c:1046-1062 *)
Definition periodic_Phi_ox2 G := loop_ox2 G (fun k j i => From (k, g_js G + (j - 1), i)).
(** bvals_grav.c:1069-1085 *)
Definition periodic_Phi_ix3 G := loop_ix3 G (fun k j i => From (g_ke G - (k - 1), j, i)).
(** bvals_grav.c:1092-1108 *)
Definition periodic_Phi_ox3 G := loop_ox3 G (fun k j i => From (g_ks G + (k - 1), j, i)).
(** bvals_grav.c:1123-1140 *)
Definition obc_fft_Phi_ix1 G := loop_ix1 G (fun k j i => let s := g_is G - i in Extra (k, j, s + 1) (k, j, s + 2) (k, j, s + 3)).
(** bvals_grav.c:1145-1162 *)
Definition obc_fft_Phi_ox1 G := loop_ox1 G (fun k j i => let s := g_ie G + i in Extra (k, j, s - 1) (k, j, s - 2) (k, j, s - 3)).
(** bvals_grav.c:1167-1184 *)
Definition obc_fft_Phi_ix2 G := loop_ix2 G (fun k j i => let s := g_js G - j in Extra (k, s + 1, i) (k, s + 2, i) (k, s + 3, i)).
(** bvals_grav.c:1189-1206 *)
Definition obc_fft_Phi_ox2 G := loop_ox2 G (fun k j i => let s := g_je G + j in Extra (k, s - 1, i) (k, s - 2, i) (k, s - 3, i)).
(** bvals_grav.c:1211-1228 *)
Definition obc_fft_Phi_ix3 G := loop_ix3 G (fun k j i => let s := g_ks G - k in Extra (s + 1, j, i) (s + 2, j, i) (s + 3, j, i)).
(** bvals_grav.c:1233-1250 *)
Definition obc_fft_Phi_ox3 G := loop_ox3 G (fun k j i => let s := g_ke G + k in Extra (s - 1, j, i) (s - 2, j, i) (s - 3, j, i)).

(** The function pointers ix1_GBCFun .. ox3_GBCFun. *)
Definition gbc_fun (b : gbc) (a : axis) (right : bool) : geom -> list (idx * gexpr) :=
  match b, a, right with
  | GRefl, A1, false => reflect_Phi_ix1 | GRefl, A1, true => reflect_Phi_ox1
  | GRefl, A2, false => reflect_Phi_ix2 | GRefl, A2, true => reflect_Phi_ox2
  | GRefl, A3, false => reflect_Phi_ix3 | GRefl, A3, true => reflect_Phi_ox3
  | GPeri, A1, false => periodic_Phi_ix1 | GPeri, A1, true => periodic_Phi_ox1
  | GPeri, A2, false => periodic_Phi_ix2 | GPeri, A2, true => periodic_Phi_ox2
  | GPeri, A3, false => periodic_Phi_ix3 | GPeri, A3, true => periodic_Phi_ox3
  | GOpen, A1, false => obc_fft_Phi_ix1 | GOpen, A1, true => obc_fft_Phi_ox1
  | GOpen, A2, false => obc_fft_Phi_ix2 | GOpen, A2, true => obc_fft_Phi_ox2
  | GOpen, A3, false => obc_fft_Phi_ix3 | GOpen, A3, true => obc_fft_Phi_ox3
  end.

(** Cells visited by pack_Phi_* (bvals_grav.c:1270-1417) ... *)
Definition pack_Phi (a : axis) (right : bool) (G : geom) : list idx :=
  let ng := g_ng G in let is := g_is G in let ie := g_ie G in let js := g_js G in let je := g_je G in let ks := g_ks G in let ke := g_ke G in
  match a, right with
  | A1, false => for_ ks ke (fun k => for_ js je (fun j => for_ is (is + (ng - 1)) (fun i => [(k, j, i)])))
  | A1, true => for_ ks ke (fun k => for_ js je (fun j => for_ (ie - (ng - 1)) ie (fun i => [(k, j, i)])))
  | A2, false => for_ ks ke (fun k => for_ js (js + (ng - 1)) (fun j => for_ (is - ng) (ie + ng) (fun i => [(k, j, i)])))
  | A2, true => for_ ks ke (fun k => for_ (je - (ng - 1)) je (fun j => for_ (is - ng) (ie + ng) (fun i => [(k, j, i)])))
  | A3, false => for_ ks (ks + (ng - 1)) (fun k => for_ (js - ng) (je + ng) (fun j => for_ (is - ng) (ie + ng) (fun i => [(k, j, i)])))
  | A3, true => for_ (ke - (ng - 1)) ke (fun k => for_ (js - ng) (je + ng) (fun j => for_ (is - ng) (ie + ng) (fun i => [(k, j, i)])))
  end.
(** ... and by unpack_Phi_* (bvals_grav.c:1423-1575). *)
Definition unpack_Phi (a : axis) (right : bool) (G : geom) : list idx :=
  let ng := g_ng G in let is := g_is G in let ie := g_ie G in let js := g_js G in let je := g_je G in let ks := g_ks G in let ke := g_ke G in
  match a, right with
  | A1, false => for_ ks ke (fun k => for_ js je (fun j => for_ (is - ng) (is - 1) (fun i => [(k, j, i)])))
  | A1, true => for_ ks ke (fun k => for_ js je (fun j => for_ (ie + 1) (ie + ng) (fun i => [(k, j, i)])))
  | A2, false => for_ ks ke (fun k => for_ (js - ng) (js - 1) (fun j => for_ (is - ng) (ie + ng) (fun i => [(k, j, i)])))
  | A2, true => for_ ks ke (fun k => for_ (je + 1) (je + ng) (fun j => for_ (is - ng) (ie + ng) (fun i => [(k, j, i)])))
  | A3, false => for_ (ks - ng) (ks - 1) (fun k => for_ (js - ng) (je + ng) (fun j => for_ (is - ng) (ie + ng) (fun i => [(k, j, i)])))
  | A3, true => for_ (ke + 1) (ke + ng) (fun k => for_ (js - ng) (je + ng) (fun j => for_ (is - ng) (ie + ng) (fun i => [(k, j, i)])))
  end.
(** cnt: bvals_grav.c:115, 212, 320 *)
Definition cnt_Phi (a : axis) (G : geom) : Z :=
  let ng := g_ng G in
  match a with
  | A1 => ng * g_N2 G * g_N3 G
  | A2 => (g_N1 G + 2 * ng) * ng * g_N3 G
  | A3 => (g_N1 G + 2 * ng) * (g_N2 G + 2 * ng) * ng
  end.
(** size of send_buf and recv_buf, bvals_grav.c:723-774: [area] of BvalsModel.v has the same text; [gs]: the Grids of all Domains
    of this process, with the axes along which their Domain is divided. *)
Definition buf_size_Phi (ng : Z) (gs : list (geom * list axis)) : Z :=
  fold_left (fun m G => fold_left (fun m a => Z.max m (area (fst G) a)) (snd G) m) gs 0 * ng.

Section Phi.
Context {F : Type} (ext3 : F -> F -> F -> F).
Definition geval (A : arr F) (e : gexpr) : F := match e with From s => A s | Extra s1 s2 s3 => ext3 (A s1) (A s2) (A s3) end.
Definition grun (L : list (idx * gexpr)) (A : arr F) : arr F := fold_left (fun A a => set A (fst a) (geval A (snd a))) L A.
(** One axis without neighbours: bvals_grav.c:198-201, 295-298, 402-405. *)
Definition gphys_axis (bl br : axis -> gbc) (G : geom) (a : axis) (A : arr F) : arr F :=
  if g_N G a >? 1 then grun (gbc_fun (br a) a true G) (grun (gbc_fun (bl a) a false G) A) else A.
(** bvals_grav of a Grid that is a Domain: bvals_grav.c:98-410 *)
Definition bvals_grav (bl br : axis -> gbc) (G : geom) (A : arr F) : arr F :=
  gphys_axis bl br G A3 (gphys_axis bl br G A2 (gphys_axis bl br G A1 A)).
Definition unpackP (L : list idx) (m : list F) (A : arr F) : option (arr F) := option_map fst (rd_words L A m).
(** One axis with neighbours (messages [ml], [mr] from the left and the right): bvals_grav.c:109-203, 205-312, 314-407;
    [swap]: MPI_Waitany returns the right one first. *)
Definition gmpi_axis (bl br : axis -> gbc) (G : geom) (a : axis) (swap : bool) (ml mr : option (list F)) (A : arr F) : option (arr F) :=
  if g_N G a >? 1 then
    match ml, mr with
    | Some m, Some m' =>
        if swap then obind (unpackP (unpack_Phi a true G) m' A) (unpackP (unpack_Phi a false G) m)
        else obind (unpackP (unpack_Phi a false G) m A) (unpackP (unpack_Phi a true G) m')
    | None, Some m' => unpackP (unpack_Phi a true G) m' (grun (gbc_fun (bl a) a false G) A)
    | Some m, None => unpackP (unpack_Phi a false G) m (grun (gbc_fun (br a) a true G) A)
    | None, None => Some (grun (gbc_fun (br a) a true G) (grun (gbc_fun (bl a) a false G) A))
    end
  else Some A.
(** All Grids of a Domain, along one axis and along all. *)
Definition gexchange (bl br : axis -> gbc) (D : decomp) (a : axis) (swap : gpos -> bool) (st : gpos -> arr F) (g : gpos) : option (arr F) :=
  let nl := left_nb (fun a => nb_of (bl a)) D a in let nr := right_nb (fun a => nb_of (br a)) D a in
  obind (inbox (nl g) nr (fun h => map (st h) (pack_Phi a true (geo D h))) g) (fun ml =>
  obind (inbox (nr g) nl (fun h => map (st h) (pack_Phi a false (geo D h))) g) (fun mr =>
  gmpi_axis bl br (geo D g) a (swap g) ml mr (st g))).
Definition gexchanged bl br (D : decomp) (a : axis) swap (st st' : gpos -> arr F) : Prop :=
  forall g, (forall b, (gco b g < d_NG D b)%nat) -> gexchange bl br D a swap st g = Some (st' g).
Definition bvals_grav_all bl br (D : decomp) (swap : axis -> gpos -> bool) (st st' : gpos -> arr F) : Prop :=
  exists st1 st2, gexchanged bl br D A1 (swap A1) st st1 /\ gexchanged bl br D A2 (swap A2) st1 st2 /\ gexchanged bl br D A3 (swap A3) st2 st'.
End Phi.
