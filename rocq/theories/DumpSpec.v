(** * Vocabulary for table and binary dumps *)
From Coq Require Import String Ascii NArith ZArith Reals Bool Arith List.
From Verif Require Import CStr MeshModel PosModel GasModel VtkModel DumpModel.
Import ListNotations.
Open Scope Z_scope.

(** The mean velocity of the particles of a cell: momentum over density, 0 where there are none. *)
Definition mean_of (gd m v : R) : Prop := ((0 < gd -> v * gd = m) /\ (gd <= 0 -> v = 0))%R.

(** What the name of a column promises about the number printed for cell (k,j,i). *)
Inductive promises (c : vcfg) (pG : pgrid) (G : vgrid) (k j i : Z) : str -> entry -> Prop :=
| p_i : promises c pG G k j i (S_ "i-zone") (Zone i)
| p_j : promises c pG G k j i (S_ "j-zone") (Zone j)
| p_k : promises c pG G k j i (S_ "k-zone") (Zone k)
| p_x1 : promises c pG G k j i (S_ "x1") (Num (p_MinX pG X1 + (IZR (i - p_s pG X1) + 1/2) * p_dx pG X1))
| p_x2 : promises c pG G k j i (S_ "x2") (Num (p_MinX pG X2 + (IZR (j - p_s pG X2) + 1/2) * p_dx pG X2))
| p_x3 : promises c pG G k j i (S_ "x3") (Num (p_MinX pG X3 + (IZR (k - p_s pG X3) + 1/2) * p_dx pG X3))
| p_d : promises c pG G k j i (S_ "d") (Num (if vc_prim c then pd (vg_W G k j i) else cd (vg_U G k j i)))
| p_M1 : vc_prim c = false -> promises c pG G k j i (S_ "M1") (Num (cM1 (vg_U G k j i)))
| p_M2 : vc_prim c = false -> promises c pG G k j i (S_ "M2") (Num (cM2 (vg_U G k j i)))
| p_M3 : vc_prim c = false -> promises c pG G k j i (S_ "M3") (Num (cM3 (vg_U G k j i)))
| p_E : vc_prim c = false -> promises c pG G k j i (S_ "E") (Num (cE (vg_U G k j i)))
| p_V1 : vc_prim c = true -> promises c pG G k j i (S_ "V1") (Num (pV1 (vg_W G k j i)))
| p_V2 : vc_prim c = true -> promises c pG G k j i (S_ "V2") (Num (pV2 (vg_W G k j i)))
| p_V3 : vc_prim c = true -> promises c pG G k j i (S_ "V3") (Num (pV3 (vg_W G k j i)))
| p_P : vc_prim c = true -> promises c pG G k j i (S_ "P") (Num (pP (vg_W G k j i)))
| p_B1 : promises c pG G k j i (S_ "B1c") (Num (if vc_prim c then pB1 (vg_W G k j i) else cB1 (vg_U G k j i)))
| p_B2 : promises c pG G k j i (S_ "B2c") (Num (if vc_prim c then pB2 (vg_W G k j i) else cB2 (vg_U G k j i)))
| p_B3 : promises c pG G k j i (S_ "B3c") (Num (if vc_prim c then pB3 (vg_W G k j i) else cB3 (vg_U G k j i)))
| p_Phi : promises c pG G k j i (S_ "Phi") (Num (vg_Phi G k j i))
| p_dpar : promises c pG G k j i (S_ "dpar") (Num (fst (vg_par G k j i)))
| p_M1par : vc_prim c = false -> promises c pG G k j i (S_ "M1par") (Num (fst (fst (snd (vg_par G k j i)))))
| p_M2par : vc_prim c = false -> promises c pG G k j i (S_ "M2par") (Num (snd (fst (snd (vg_par G k j i)))))
| p_M3par : vc_prim c = false -> promises c pG G k j i (S_ "M3par") (Num (snd (snd (vg_par G k j i))))
| p_V1par : forall v, vc_prim c = true -> mean_of (fst (vg_par G k j i)) (fst (fst (snd (vg_par G k j i)))) v -> promises c pG G k j i (S_ "V1par") (Num v)
| p_V2par : forall v, vc_prim c = true -> mean_of (fst (vg_par G k j i)) (snd (fst (snd (vg_par G k j i)))) v -> promises c pG G k j i (S_ "V2par") (Num v)
| p_V3par : forall v, vc_prim c = true -> mean_of (fst (vg_par G k j i)) (snd (snd (vg_par G k j i))) v -> promises c pG G k j i (S_ "V3par") (Num v)
| p_scal : forall n, (n < vc_ns c)%nat ->
    promises c pG G k j i (S_ "s" ++ dec_N (N.of_nat n)) (Num (nth n (if vc_prim c then pr (vg_W G k j i) else cs (vg_U G k j i)) 0%R)).

(** The words of a line, separated by white space. *)
Fixpoint words_from (w : str) (l : str) : list str :=
  match l with
  | [] => match w with [] => [] | _ => [w] end
  | a :: l => if isspace a then match w with [] => words_from [] l | _ => w :: words_from [] l end else words_from (w ++ [a]) l
  end.
Definition words (l : str) : list str := words_from [] l.
(** How a number reads: no white space in it. *)
Definition word_of (pr : R -> str) (e : entry) : str := match e with Zone n => dec_Z n | Num x => pr x end.
Definition plain (pr : R -> str) : Prop := forall x, pr x <> [] /\ Forall (fun a => isspace a = false) (pr x).

(** The quantities of a binary dump in the order documented: the conserved or primitive variables,
    scalars last, then the potential, then density and momentum of the particles. *)
Definition bin_quantities (c : vcfg) (G : vgrid) (k j i : Z) : list R :=
  (if vc_prim c then [pd (vg_W G k j i); pV1 (vg_W G k j i); pV2 (vg_W G k j i); pV3 (vg_W G k j i)]
   else [cd (vg_U G k j i); cM1 (vg_U G k j i); cM2 (vg_U G k j i); cM3 (vg_U G k j i)]) ++
  (if vc_adb c then [if vc_prim c then pP (vg_W G k j i) else cE (vg_U G k j i)] else []) ++
  (if vc_mhd c then if vc_prim c then [pB1 (vg_W G k j i); pB2 (vg_W G k j i); pB3 (vg_W G k j i)] else [cB1 (vg_U G k j i); cB2 (vg_U G k j i); cB3 (vg_U G k j i)] else []) ++
  map (fun n => nth n (if vc_prim c then pr (vg_W G k j i) else cs (vg_U G k j i)) 0%R) (seq 0 (vc_ns c)) ++
  (if vc_selfg c then [vg_Phi G k j i] else []) ++
  (if vc_par c then let '(d, (m1, m2, m3)) := vg_par G k j i in [d; m1; m2; m3] else []).
(** Number of cells along an axis; the bytes of a file at an offset. *)
Definition span (lo hi : axis -> Z) (a : axis) : nat := Z.to_nat (hi a - lo a + 1).
Definition at_ (file : str) (offset len : nat) : str := firstn len (skipn offset file).
(** The length of a file with the 7 numbers of its header: 64 bytes, the coordinates, and the variables.
    With particles there are four more of them. *)
Definition announced (n1 n2 n3 nvar grav par : nat) : nat := (64 + 8 * (n1 + n2 + n3 + (nvar + grav + 4 * par) * (n1 * n2 * n3)))%nat.
