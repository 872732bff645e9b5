(** * C88: joining the dumps of all Grids gives the file of the Domain *)
From Coq Require Import String Ascii NArith ZArith Reals Bool Arith Lia Lra Permutation Sorted List.
From Verif Require Import CStr CStrFacts MeshModel MeshProps PosModel PosProps GasModel SumFacts HistSpec HistMain VtkModel VtkSpec VtkSort VtkRead VtkFacts.
Import ListNotations.
Open Scope nat_scope.

Section Join.
Variables (e6 : R -> R) (enc : R -> str) (comment : str) (c : vcfg) (ng : Z) (xmin xmax : axis -> R) (M : mesh) (d : domain) (grids : gidx -> vgrid) (S : vgrid).
Hypotheses (NG : forall a, (0 < dm_NG d a)%Z) (NL : forall a, (dm_NG d a <= dm_Nx d a)%Z).
Hypothesis EN : forall x, length (enc x) = 4.
Hypothesis HO : hold ng d grids S.
Hypothesis NS : (Z.of_nat (vc_ns c) < 2 ^ 31)%Z.
Hypothesis TK : forall m n, (Z.of_nat m < dm_NG d X2)%Z -> (Z.of_nat n < dm_NG d X3)%Z -> gNx d X2 m = 1%Z -> gNx d X3 n = 1%Z.
Let nx := Z.to_nat (dm_NG d X1).
Let ny := Z.to_nat (dm_NG d X2).
Let nz := Z.to_nat (dm_NG d X3).
Let F := grid_file e6 enc comment c ng xmin xmax M d grids.
Definition vdom_of (f : vfile) : vdom := VD f (fun a => if (1 <? v_dims f a)%Z then (v_dims f a - 1)%Z else v_dims f a).
Let E := fun g => vdom_of (F g).
Definition valid (g : gidx) : Prop := forall a, (Z.of_nat (gi_ax g a) < dm_NG d a)%Z.
Lemma gp : forall a i, (1 <= gNx d a i)%Z. Proof. intros. apply gNx_pos; auto. Qed.
Lemma E_N : forall g a, valid g -> vd_N (E g) a = gNx d a (gi_ax g a).
Proof.
  intros g a V. unfold E, vdom_of, F, grid_file, dump_vtk. cbn [fc_pos vd_N v_dims]. unfold vtk_dims.
  pose proof (gp X1 (gi_ax g X1)) as P1. pose proof (gp X2 (gi_ax g X2)) as P2. pose proof (gp X3 (gi_ax g X3)) as P3.
  pose proof (grid_len ng d X1 _ P1) as L1. pose proof (grid_len ng d X2 _ P2) as L2. pose proof (grid_len ng d X3 _ P3) as L3.
  assert (T := TK (gm g) (gn g) (V X2) (V X3)). cbn [gi_ax] in *.
  destruct a; cbn [gi_ax].
  - destruct (Z.ltb_spec 1 (grid_e ng d X1 (gl g) - grid_s ng d X1 (gl g) + 2)); lia.
  - destruct (Z.eqb_spec (gNx d X2 (gm g)) 1) as [Q|Q]; [rewrite Q; reflexivity|].
    destruct (Z.ltb_spec 1 (grid_e ng d X2 (gm g) - grid_s ng d X2 (gm g) + 2)); lia.
  - destruct (Z.eqb_spec (gNx d X2 (gm g)) 1) as [Q|Q]; [rewrite T by auto; reflexivity|].
    destruct (Z.eqb_spec (gNx d X3 (gn g)) 1) as [Q3|Q3]; [rewrite Q3; reflexivity|].
    destruct (Z.ltb_spec 1 (grid_e ng d X3 (gn g) - grid_s ng d X3 (gn g) + 2)); lia.
Qed.
Lemma init_E : forall g, valid g -> init_domain (F g) = Ok (E g).
Proof.
  intros g V. unfold init_domain. change (VD (F g) (fun a => if (1 <? v_dims (F g) a)%Z then (v_dims (F g) a - 1)%Z else v_dims (F g) a)) with (E g).
  pose proof (E_N g X1 V) as N1. pose proof (E_N g X2 V) as N2. pose proof (E_N g X3 V) as N3. unfold E, vdom_of in N1, N2, N3. cbn [vd_N] in N1, N2, N3. rewrite N1, N2, N3.
  assert (C : v_cells (F g) = (gNx d X1 (gi_ax g X1) * gNx d X2 (gi_ax g X2) * gNx d X3 (gi_ax g X3))%Z).
  { unfold F, grid_file, dump_vtk. cbn [fc_pos v_cells].
    pose proof (grid_len ng d X1 _ (gp X1 (gi_ax g X1))) as L1. pose proof (grid_len ng d X2 _ (gp X2 (gi_ax g X2))) as L2. pose proof (grid_len ng d X3 _ (gp X3 (gi_ax g X3))) as L3.
    rewrite L1, L2, L3. f_equal; [f_equal|]; lia. }
  rewrite C, Z.eqb_refl. reflexivity.
Qed.
Lemma init_list : forall gs, (forall g, In g gs -> valid g) -> init_domains (map F gs) = Ok (map E gs).
Proof. induction gs as [|g gs IH]; intros V; [reflexivity|]. cbn [map init_domains]. rewrite init_E by (apply V; left; auto). cbn [bind]. rewrite IH by (intros; apply V; right; auto). reflexivity. Qed.
Lemma grids_valid : forall g, In g (grid_list nx ny nz) -> valid g.
Proof. intros g I. pose proof (NG X1). pose proof (NG X2). pose proof (NG X3). apply in_grids in I; try (unfold nx, ny, nz; lia). intros a. unfold nx, ny, nz in I. destruct a; cbn [gi_ax]; lia. Qed.
Lemma E_origin : forall g a, v_origin (vd_file (E g)) a = e6 (grid_MinX xmin xmax M d a (gi_ax g a)).
Proof.
  intros g a. unfold E, vdom_of, F, grid_file, dump_vtk. cbn [fc_pos vd_file v_origin mk_pgrid p_s p_MinX p_dx]. f_equal.
  destruct a; cbn [gi_ax]; rewrite Z.sub_diag; ring.
Qed.
Let ds := map E (grid_list nx ny nz).
Lemma ds_at : forall kg jg ig, kg < nz -> jg < ny -> ig < nx -> nth_error ds (at3 nx ny kg jg ig) = Some (E (Gi ig jg kg)).
Proof.
  intros kg jg ig K J I. unfold ds, grid_list, at3. rewrite nth_error_map.
  assert (G : forall A (B : nat -> list A) L n i r, (forall j, j < n -> length (B j) = L) -> i < n -> r < L -> nth_error (flat_map B (seq 0 n)) (i * L + r) = nth_error (B i) r).
  { intros A B L n i r H IN RL. replace n with (i + Datatypes.S (n - Datatypes.S i)) by lia. rewrite seq_app, flat_map_app. cbn [seq flat_map plus].
    assert (LL : length (flat_map B (seq 0 i)) = i * L) by (rewrite (flat_map_length_const _ _ _ L), seq_length; auto; intros j Q; apply in_seq in Q; apply H; lia).
    rewrite nth_error_app2 by lia. rewrite LL. replace (i * L + r - i * L) with r by lia. apply nth_error_app1. rewrite H; lia. }
  replace ((kg * ny + jg) * nx + ig) with (kg * (ny * nx) + (jg * nx + ig)) by nia.
  rewrite (G _ _ (ny * nx)); auto; [|intros; apply plane_length|nia].
  rewrite (G _ _ nx); auto; [|intros; rewrite map_length, seq_length; reflexivity].
  rewrite nth_error_map. rewrite (nth_error_nth' _ 0) by (rewrite seq_length; lia). rewrite seq_nth by lia. reflexivity.
Qed.
Lemma ds_len : length ds = nz * (ny * nx). Proof. unfold ds. rewrite map_length. apply list_length. Qed.
Lemma in_valid : forall kg jg ig, kg < nz -> jg < ny -> ig < nx -> valid (Gi ig jg kg).
Proof. intros kg jg ig K J I a. unfold nx, ny, nz in *. destruct a; cbn [gi_ax gl gm gn]; lia. Qed.
Lemma ds_N : forall kg jg ig a, kg < nz -> jg < ny -> ig < nx -> vN ds (at3 nx ny kg jg ig) a = Z.to_nat (gNx d a (gi_ax (Gi ig jg kg) a)).
Proof. intros. unfold vN. rewrite ds_at by auto. rewrite E_N by (apply in_valid; auto). reflexivity. Qed.
Lemma ds_body : forall kg jg ig, kg < nz -> jg < ny -> ig < nx ->
  body_of ds (at3 nx ny kg jg ig) = vtk_body enc (fun a => grid_s ng d a (gi_ax (Gi ig jg kg) a)) (fun a => grid_e ng d a (gi_ax (Gi ig jg kg) a)) (vtk_fields c (grids (Gi ig jg kg))).
Proof. intros. unfold body_of. rewrite ds_at by auto. reflexivity. Qed.
Lemma pos3 : forall n, n < length ds -> exists kg jg ig, kg < nz /\ jg < ny /\ ig < nx /\ n = at3 nx ny kg jg ig.
Proof.
  intros n L. rewrite ds_len in L. unfold at3. assert (PX : 0 < nx) by (destruct nx; lia). assert (PY : 0 < ny) by (destruct ny; lia).
  exists (n / nx / ny), (n / nx mod ny), (n mod nx). repeat split.
  - apply Nat.div_lt_upper_bound; [lia|]. apply Nat.div_lt_upper_bound; [lia|]. nia.
  - apply Nat.mod_upper_bound. lia.
  - apply Nat.mod_upper_bound. lia.
  - pose proof (Nat.div_mod n nx ltac:(lia)). pose proof (Nat.div_mod (n / nx) ny ltac:(lia)). nia.
Qed.
(** What is left of a body. *)
Definition tail (first : bool) (s e : axis -> Z) (fs : list fld) : str := if first then vtk_body enc s e fs else flat_map (fun g => LF :: fld_bytes enc s e g) fs.
Lemma tail_cons : forall first s e f fs, tail first s e (f :: fs) = (if first then [] else [LF]) ++ fld_text f ++ fld_data enc s e f ++ tail false s e fs.
Proof. intros [|] s e f fs; unfold tail; cbn [vtk_body flat_map]; unfold fld_bytes at 1; cbn [app]; rewrite <- !app_assoc; reflexivity. Qed.
Let sg (g : gidx) (a : axis) : Z := grid_s ng d a (gi_ax g a).
Let eg (g : gidx) (a : axis) : Z := grid_e ng d a (gi_ax g a).
Definition cell_bytes (f : gidx -> fld) (kg jg ig k j i : nat) : str :=
  let g := Gi ig jg kg in flat_map enc (f_val (f g) (sg g X3 + Z.of_nat k)%Z (sg g X2 + Z.of_nat j)%Z (sg g X1 + Z.of_nat i)%Z).
Let Nx1 (l : nat) : nat := Z.to_nat (gNx d X1 l).
Let Ny1 (m : nat) : nat := Z.to_nat (gNx d X2 m).
Let Nz1 (n : nat) : nat := Z.to_nat (gNx d X3 n).
Lemma zr_grid : forall a l, zr (grid_s ng d a l) (grid_e ng d a l) = map (fun n => (grid_s ng d a l + Z.of_nat n)%Z) (seq 0 (Z.to_nat (gNx d a l))).
Proof. intros a l. unfold zr. pose proof (grid_len ng d a l (gp a l)) as L. do 3 f_equal. lia. Qed.
Lemma data_cube : forall f kg jg ig, fld_data enc (sg (Gi ig jg kg)) (eg (Gi ig jg kg)) (f (Gi ig jg kg)) = cube (cell_bytes f kg jg ig) (Nx1 ig) (Ny1 jg) (Nz1 kg).
Proof.
  intros f kg jg ig. unfold fld_data, cube, sg, eg. cbn [gi_ax]. rewrite !zr_grid. rewrite flat_map_map. apply flat_map_ext_in. intros k _.
  rewrite flat_map_map. apply flat_map_ext_in. intros j _. rewrite flat_map_map. reflexivity.
Qed.
Lemma active_cell : forall g a i, i < Z.to_nat (gNx d a (gi_ax g a)) -> gactive ng d g a (sg g a + Z.of_nat i)%Z /\ gcell ng d g a (sg g a + Z.of_nat i)%Z = (gDisp d a (gi_ax g a) + Z.of_nat i)%Z.
Proof. intros g a i I. unfold gactive, gcell, sg. pose proof (grid_len ng d a _ (gp a (gi_ax g a))). split; lia. Qed.
Lemma cell_global : forall f Fd kg jg ig k j i, sim ng d (Gi ig jg kg) (f (Gi ig jg kg)) Fd -> k < Nz1 kg -> j < Ny1 jg -> i < Nx1 ig ->
  cell_bytes f kg jg ig k j i = flat_map enc (f_val Fd (gDisp d X3 kg + Z.of_nat k)%Z (gDisp d X2 jg + Z.of_nat j)%Z (gDisp d X1 ig + Z.of_nat i)%Z).
Proof.
  intros f Fd kg jg ig k j i SM K J I. unfold cell_bytes. destruct (active_cell (Gi ig jg kg) X3 k K) as (A3 & C3). destruct (active_cell (Gi ig jg kg) X2 j J) as (A2 & C2). destruct (active_cell (Gi ig jg kg) X1 i I) as (A1 & C1).
  rewrite (sim_val _ _ _ _ _ SM) by auto. rewrite C1, C2, C3. reflexivity.
Qed.
Definition global_data (Fd : fld) : str :=
  flat_map (fun K => flat_map (fun J => flat_map (fun I => flat_map enc (f_val Fd K J I)) (zr (dm_Disp d X1) (last_cell d X1))) (zr (dm_Disp d X2) (last_cell d X2))) (zr (dm_Disp d X3) (last_cell d X3)).
Lemma all_cells : forall f Fd, (forall g, valid g -> sim ng d g (f g) Fd) ->
  flat_map (fun kg => flat_map (fun k => flat_map (fun jg => flat_map (fun j => flat_map (fun ig => flat_map (fun i => cell_bytes f kg jg ig k j i)
    (seq 0 (Nx1 ig))) (seq 0 nx)) (seq 0 (Ny1 jg))) (seq 0 ny)) (seq 0 (Nz1 kg))) (seq 0 nz) = global_data Fd.
Proof.
  intros f Fd SM. unfold global_data. rewrite <- (axis_cells _ d X3) by auto. apply flat_map_ext_in. intros kg KG. apply flat_map_ext_in. intros k K.
  rewrite <- (axis_cells _ d X2) by auto. apply flat_map_ext_in. intros jg JG. apply flat_map_ext_in. intros j J.
  rewrite <- (axis_cells _ d X1) by auto. apply flat_map_ext_in. intros ig IG. apply flat_map_ext_in. intros i I.
  apply in_seq in KG, K, JG, J, IG, I. apply cell_global; [apply SM; apply in_valid; unfold nx, ny, nz; lia|unfold Nz1; lia|unfold Ny1; lia|unfold Nx1; lia].
Qed.
(** The loop over the data sets. *)
Lemma join_loop_ok : forall Fs first (fs : gidx -> list fld) P out fuel,
  length Fs < fuel -> (forall g, valid g -> Forall2 (sim ng d g) (fs g) Fs) ->
  (forall kg jg ig, kg < nz -> jg < ny -> ig < nx -> skipn (P (at3 nx ny kg jg ig)) (body_of ds (at3 nx ny kg jg ig)) = tail first (sg (Gi ig jg kg)) (eg (Gi ig jg kg)) (fs (Gi ig jg kg))) ->
  join_loop fuel ds nx ny nz P out = Ok (out ++ flat_map (fun Fd => fld_text Fd ++ global_data Fd) Fs).
Proof.
  assert (PX : 0 < nx) by (unfold nx; pose proof (NG X1); lia). assert (PY : 0 < ny) by (unfold ny; pose proof (NG X2); lia). assert (PZ : 0 < nz) by (unfold nz; pose proof (NG X3); lia).
  assert (PL : 0 < length ds) by (rewrite ds_len; nia).
  intros Fs. induction Fs as [|Fd Fs IH]; intros first fs P out fuel FU SM TL; (destruct fuel as [|fuel]; [cbn in FU; lia|]); cbn [join_loop].
  - assert (T0 := TL 0 0 0 PZ PY PX). change (at3 nx ny 0 0 0) with 0 in T0. assert (SM0 := SM (Gi 0 0 0) (in_valid 0 0 0 PZ PY PX)). inversion SM0 as [Q|]. rewrite <- Q in T0. destruct first; cbn [tail vtk_body flat_map] in T0; rewrite head_end by exact T0; cbn [bind flat_map]; rewrite app_nil_r; reflexivity.
  - (* the field of each Grid *)
    set (f := fun g => hd Fd (fs g)). set (fs' := fun g => tl (fs g)).
    assert (FE : forall g, valid g -> fs g = f g :: fs' g /\ sim ng d g (f g) Fd /\ Forall2 (sim ng d g) (fs' g) Fs).
    { intros g V. assert (Q := SM g V). unfold f, fs'. inversion Q; subst. auto. }
    set (ws := if first then @nil ascii else [LF]).
    assert (SW : spaces ws) by (unfold ws; destruct first; [intros x []|apply sp_lf]).
    assert (TX : forall g, valid g -> fld_text (f g) = fld_text Fd).
    { intros g V. destruct (FE g V) as (_ & Q & _). unfold fld_text. rewrite (sim_vec _ _ _ _ _ Q), (sim_name _ _ _ _ _ Q). reflexivity. }
    assert (KD : forall g, valid g -> kind (f g) = kind Fd /\ f_name (f g) = f_name Fd /\ word (f_name (f g))).
    { intros g V. destruct (FE g V) as (_ & Q & _). unfold kind. rewrite (sim_vec _ _ _ _ _ Q), (sim_name _ _ _ _ _ Q). split; auto. split; auto. apply (sim_word _ _ _ _ _ Q). }
    assert (TL' : forall kg jg ig, kg < nz -> jg < ny -> ig < nx -> skipn (P (at3 nx ny kg jg ig)) (body_of ds (at3 nx ny kg jg ig)) =
      ws ++ fld_text (f (Gi ig jg kg)) ++ fld_data enc (sg (Gi ig jg kg)) (eg (Gi ig jg kg)) (f (Gi ig jg kg)) ++ tail false (sg (Gi ig jg kg)) (eg (Gi ig jg kg)) (fs' (Gi ig jg kg))).
    { intros kg jg ig K J I. rewrite TL by auto. destruct (FE _ (in_valid kg jg ig K J I)) as (-> & _). apply tail_cons. }
    set (q := fun n => P n + length (ws ++ fld_text Fd)).
    assert (HD : forall n want, n < length ds -> want = None \/ want = Some (kind Fd, f_name Fd, S_ "float") ->
      read_head want (body_of ds n) (P n) = Ok (Some (kind Fd, f_name Fd, S_ "float", q n))).
    { intros n want L W. destruct (pos3 n L) as (kg & jg & ig & K & J & I & ->). set (g := Gi ig jg kg). assert (V : valid g) by (apply in_valid; auto).
      destruct (KD g V) as (K1 & K2 & K3). rewrite (head_ok _ _ ws (f g) _ want SW K3 (TL' kg jg ig K J I)); [|rewrite K1, K2; exact W]. rewrite K1, K2, (TX g V). reflexivity. }
    rewrite (HD 0 None) by auto. cbn [bind].
    destruct (heads_ok (kind Fd) (f_name Fd) (S_ "float") ds q (seq 1 (length ds - 1)) (setp P 0 (q 0))) as (P1 & -> & A & B).
    { apply seq_NoDup. }
    { intros n I. apply in_seq in I. unfold setp. destruct (Nat.eqb_spec n 0); [lia|]. apply HD; [lia|auto]. }
    cbn [bind]. clear HD.
    assert (PQ : forall n, n < length ds -> P1 n = q n).
    { intros n L. destruct n as [|n]; [|apply A; apply in_seq; lia]. rewrite B by (intros X; apply in_seq in X; lia). unfold setp. reflexivity. }
    clear A B.
    assert (LA : forall kg jg ig, kg < nz -> jg < ny -> ig < nx -> at3 nx ny kg jg ig < length ds) by (intros kg jg ig K J I; apply nth_error_Some; rewrite ds_at by auto; discriminate).
    set (w := if f_vec Fd then 3 else 1).
    assert (AF : forall kg jg ig, kg < nz -> jg < ny -> ig < nx -> skipn (P1 (at3 nx ny kg jg ig)) (body_of ds (at3 nx ny kg jg ig)) =
      cube (cell_bytes f kg jg ig) (Nx1 ig) (Ny1 jg) (Nz1 kg) ++ tail false (sg (Gi ig jg kg)) (eg (Gi ig jg kg)) (fs' (Gi ig jg kg))).
    { intros kg jg ig K J I. rewrite PQ by auto. unfold q. rewrite <- data_cube. apply skipn_more. rewrite <- (TX (Gi ig jg kg)) by (apply in_valid; auto). rewrite TL' by auto. rewrite <- app_assoc. reflexivity. }
    assert (CL : forall kg jg ig k j i, kg < nz -> jg < ny -> ig < nx -> k < Nz1 kg -> j < Ny1 jg -> i < Nx1 ig -> length (cell_bytes f kg jg ig k j i) = 4 * w).
    { intros kg jg ig k j i KG JG IG K J I. destruct (FE _ (in_valid kg jg ig KG JG IG)) as (_ & Q & _). rewrite (cell_global f Fd) by auto. rewrite flat_map_len by auto.
      rewrite (sim_len _ _ _ _ _ Q). reflexivity. }
    destruct (read_write_ok ds w nx ny nz Nx1 Ny1 Nz1 P1 (cell_bytes f)) with (P := P1)
      (out := (out ++ kind Fd ++ [chSP] ++ f_name Fd ++ [chSP] ++ S_ "float" ++ [LF]) ++ (if f_vec Fd then [] else S_ "LOOKUP_TABLE default" ++ [LF])) as (P2 & E2 & I2).
    { intros kg K. replace (kg * ny * nx) with (at3 nx ny kg 0 0) by (unfold at3; nia). rewrite ds_N by auto. reflexivity. }
    { intros jg J. replace (jg * nx) with (at3 nx ny 0 jg 0) by (unfold at3; nia). rewrite ds_N by auto. reflexivity. }
    { intros ig I. change ig with (at3 nx ny 0 0 ig) at 1. rewrite ds_N by auto. reflexivity. }
    { intros kg jg ig k j i KG JG IG K J I. split; [apply CL; auto|]. rewrite skipn_plus, AF by auto. apply cube_cell; auto. }
    { intros a b e _ _ _. unfold nread. repeat match goal with |- context [?x <? ?y] => destruct (Nat.ltb_spec x y) end; nia. }
    assert (NEXT : join_loop fuel ds nx ny nz P2 (((out ++ kind Fd ++ [chSP] ++ f_name Fd ++ [chSP] ++ S_ "float" ++ [LF]) ++ (if f_vec Fd then [] else S_ "LOOKUP_TABLE default" ++ [LF])) ++ global_data Fd) =
      Ok (out ++ flat_map (fun Fd => fld_text Fd ++ global_data Fd) (Fd :: Fs))).
    { rewrite (IH false fs').
      - cbn [flat_map]. f_equal. rewrite <- !app_assoc. f_equal. rewrite text_eq. unfold kind. destruct (f_vec Fd); cbn [app]; repeat (rewrite <- app_assoc; cbn [app]); reflexivity.
      - cbn [length] in FU. lia.
      - intros g V. apply (FE g V).
      - intros kg jg ig K J I. rewrite (I2 kg jg ig K J I). apply skipn_more' with (L := 4 * w * nread Nx1 Ny1 Nz1 nz 0 0 0 0 0 kg jg ig) (x := cube (cell_bytes f kg jg ig) (Nx1 ig) (Ny1 jg) (Nz1 kg)).
        + rewrite (cube_length _ _ (4 * w)) by (intros; apply CL; auto). f_equal. unfold nread. destruct (Nat.ltb_spec kg nz); [reflexivity|lia].
        + apply AF; auto. }
    assert (SM1 : forall g, valid g -> sim ng d g (f g) Fd) by (intros g V; apply (FE g V)).
    rewrite (all_cells f Fd SM1) in E2. cbv zeta. unfold kind in *. unfold w in E2. destruct (f_vec Fd).
    + destruct (str_eqb (S_ "VECTORS") (S_ "SCALARS")) eqn:Q1; [discriminate Q1|]. destruct (str_eqb (S_ "VECTORS") (S_ "VECTORS")) eqn:Q2; [|discriminate Q2].
      rewrite app_nil_r in E2, NEXT. exact (eq_trans (f_equal (fun x => bind x (fun st => join_loop fuel ds nx ny nz (fst st) (snd st))) E2) NEXT).
    + destruct (str_eqb (S_ "SCALARS") (S_ "SCALARS")) eqn:Q1; [|discriminate Q1]. exact (eq_trans (f_equal (fun x => bind x (fun st => join_loop fuel ds nx ny nz (fst st) (snd st))) E2) NEXT).
Qed.
End Join.
Lemma F2_length : forall A B (R : A -> B -> Prop) l l', Forall2 R l l' -> length l = length l'.
Proof. induction 1; cbn [length]; congruence. Qed.
Lemma body_long : forall enc s e fs, length fs <= length (vtk_body enc s e fs).
Proof.
  intros enc s e fs. assert (T : forall f, 1 <= length (fld_bytes enc s e f)).
  { intros f. unfold fld_bytes, fld_text. destruct (f_vec f); cbn [S_ list_ascii_of_string app length]; apply le_n_S, Nat.le_0_l. }
  assert (R : forall fs, length fs <= length (flat_map (fun g => LF :: fld_bytes enc s e g) fs)).
  { induction fs0 as [|f fs0 IH]; [cbn; lia|]. cbn [flat_map length app]. rewrite app_length. lia. }
  destruct fs as [|f fs]; [cbn; lia|]. cbn [vtk_body length]. rewrite app_length. specialize (T f). specialize (R fs). lia.
Qed.
Lemma axis_total : forall d a n, fold_right Z.add 0%Z (map (gNx d a) (seq 0 n)) = (gDisp d a n - dm_Disp d a)%Z.
Proof.
  intros d a n. assert (G : forall n s, fold_right Z.add 0%Z (map (gNx d a) (seq s n)) = (gDisp d a (s + n) - gDisp d a s)%Z).
  { induction n0 as [|m IH]; intros s; cbn [seq map fold_right]; [rewrite Nat.add_0_r; lia|]. rewrite IH. replace (s + S m) with (S s + m) by lia. cbn [gDisp]. lia. }
  rewrite G. reflexivity.
Qed.
(** Joining, in any order on the command line, the files written by all Grids of a Domain gives the
    file of the Domain. *)
Theorem C88_join : forall e6 enc comment c ng ideal P bs M nl l d xmin xmax grids S qs fs,
  (0 <= ng)%Z -> (0 < P)%Z -> init_mesh ng ideal P bs = Ok M -> nth_error (ms_levels M) nl = Some l -> In d l -> (forall a, (xmin a < xmax a)%R) ->
  (forall a, (dm_NG d a <= dm_Nx d a)%Z) -> (1 < ngrids d)%Z ->
  (forall m n, (Z.of_nat m < dm_NG d X2)%Z -> (Z.of_nat n < dm_NG d X3)%Z -> gNx d X2 m = 1%Z -> gNx d X3 n = 1%Z) ->
  (Z.of_nat (vc_ns c) < 2 ^ 31)%Z -> printing e6 -> edges_apart e6 xmin xmax M d -> (forall x, length (enc x) = 4) -> sorts qs ->
  hold ng d grids S -> Permutation fs (map (grid_file e6 enc comment c ng xmin xmax M d grids) (all_grids d)) ->
  exists f, join_vtk e6 qs fs = Ok f /\ is_domain_file e6 enc comment c xmin xmax M d S f.
Proof.
  intros e6 enc comment c ng ideal P bs M nl l d xmin xmax grids S qs fs HN HP HI HL HD HB NL N2 TK NS (PI & PP) EA EN QS HO PF.
  pose proof (good ng ideal P bs M nl l d HN HP HI HL HD) as (_ & NG & _).
  assert (DX := dx_pos ng ideal P bs M nl l d xmin xmax HN HP HI HL HD HB).
  set (nx := Z.to_nat (dm_NG d X1)). set (ny := Z.to_nat (dm_NG d X2)). set (nz := Z.to_nat (dm_NG d X3)).
  assert (PX : 0 < nx) by (unfold nx; pose proof (NG X1); lia). assert (PY : 0 < ny) by (unfold ny; pose proof (NG X2); lia). assert (PZ : 0 < nz) by (unfold nz; pose proof (NG X3); lia).
  set (F := grid_file e6 enc comment c ng xmin xmax M d grids) in *. set (E := fun g => vdom_of (F g)).
  assert (AG : all_grids d = grid_list nx ny nz) by reflexivity.
  destruct (Permutation_map_inv F _ PF) as (gs & -> & PG). rewrite AG in PG, PF.
  unfold join_vtk.
  assert (LEN : length (map F gs) = nz * (ny * nx)) by (rewrite map_length, <- (Permutation_length PG); apply list_length).
  assert (L2 : 2 <= nz * (ny * nx)) by (unfold ngrids in N2; unfold nx, ny, nz; pose proof (NG X1); pose proof (NG X2); pose proof (NG X3); nia).
  rewrite LEN. destruct (Nat.ltb_spec (nz * (ny * nx)) 2); [lia|].
  pose proof (init_list e6 enc comment c ng xmin xmax M d grids NG NL TK gs) as IL. cbv beta zeta in IL. fold F in IL. change (fun g => vdom_of (F g)) with E in IL. rewrite IL; clear IL.
  2:{ intros g G. apply (grids_valid c d NG). eapply Permutation_in; [apply Permutation_sym; exact PG|exact G]. }
  cbn [bind].
  rewrite (sort_ok nx ny nz E (fun a k => e6 (grid_MinX xmin xmax M d a k)) qs PX PY PZ).
  2:{ intros g a. apply (E_origin e6 enc comment c ng xmin xmax M d grids). }
  2:{ intros a i j IJ JC. assert (JN : (Z.of_nat j < dm_NG d a)%Z) by (destruct a; cbn [cnt] in JC; unfold nx, ny, nz in JC; lia). clear JC. induction j as [|j IH]; [lia|].
      assert (A := EA a j JN). destruct (Nat.eq_dec i j) as [->|NE]; [exact A|]. apply Rlt_trans with (e6 (grid_MinX xmin xmax M d a j)); [apply IH; lia|exact A]. }
  2:{ exact QS. }
  2:{ apply Permutation_map. apply Permutation_sym. exact PG. }
  cbn [bind]. unfold write_joined_vtk.
  set (ds := map E (grid_list nx ny nz)).
  pose proof (ds_at e6 enc comment c ng xmin xmax M d grids) as AT. cbv zeta in AT. fold nx ny nz F in AT. change (fun g => vdom_of (F g)) with E in AT. fold ds in AT.
  pose proof (E_N e6 enc comment c ng xmin xmax M d grids NG NL TK) as EN'. fold F in EN'.
  assert (D0 : exists tl0, ds = E (Gi 0 0 0) :: tl0).
  { assert (A0 := AT 0 0 0 PZ PY PX). change (at3 nx ny 0 0 0) with 0 in A0. destruct ds as [|x t]; [discriminate|]. cbn in A0. injection A0 as ->. eauto. }
  destruct D0 as (tl0 & D0).
  assert (T1 : sum_N ds X1 (seq 0 nx) = dm_Nx d X1).
  { replace (dm_Nx d X1) with (gDisp d X1 nx - dm_Disp d X1)%Z by (unfold nx; rewrite gDisp_end by (pose proof (NG X1); pose proof (NL X1); lia); lia). rewrite <- axis_total. unfold sum_N. f_equal.
    apply map_ext_in. intros n I. apply in_seq in I. change n with (at3 nx ny 0 0 n) at 1. rewrite AT by lia. apply EN'. apply (in_valid c d); fold nx ny nz; lia. }
  assert (T2 : sum_N ds X2 (map (fun j => j * nx) (seq 0 ny)) = dm_Nx d X2).
  { replace (dm_Nx d X2) with (gDisp d X2 ny - dm_Disp d X2)%Z by (unfold ny; rewrite gDisp_end by (pose proof (NG X2); pose proof (NL X2); lia); lia). rewrite <- axis_total. unfold sum_N. rewrite map_map. f_equal.
    apply map_ext_in. intros n I. apply in_seq in I. replace (n * nx) with (at3 nx ny 0 n 0) by (unfold at3; nia). rewrite AT by lia. apply EN'. apply (in_valid c d); fold nx ny nz; lia. }
  assert (T3 : sum_N ds X3 (map (fun k => k * ny * nx) (seq 0 nz)) = dm_Nx d X3).
  { replace (dm_Nx d X3) with (gDisp d X3 nz - dm_Disp d X3)%Z by (unfold nz; rewrite gDisp_end by (pose proof (NG X3); pose proof (NL X3); lia); lia). rewrite <- axis_total. unfold sum_N. rewrite map_map. f_equal.
    apply map_ext_in. intros n I. apply in_seq in I. replace (n * ny * nx) with (at3 nx ny n 0 0) by (unfold at3; nia). rewrite AT by lia. apply EN'. apply (in_valid c d); fold nx ny nz; lia. }
  assert (JL : forall fuel, length (vtk_fields c S) < fuel -> join_loop fuel ds nx ny nz (fun _ => 0) [] = Ok (domain_body enc c d S)).
  { intros fuel FU. refine (join_loop_ok e6 enc comment c ng xmin xmax M d grids NG NL EN TK (vtk_fields c S) true (fun g => vtk_fields c (grids g)) (fun _ => 0) [] fuel FU _ _).
    - intros g V. apply fields_sim; auto.
    - intros kg jg ig K J I. cbn [skipn]. apply (ds_body e6 enc comment c ng xmin xmax M d grids); auto. }
  rewrite D0 in *. rewrite JL.
  2:{ cbn [E vdom_of vd_file]. unfold E, vdom_of. cbn [vd_file]. apply Nat.lt_succ_r.
      assert (LF : length (vtk_fields c S) = length (vtk_fields c (grids (Gi 0 0 0)))).
      { apply eq_sym. eapply F2_length. apply (fields_sim c ng d grids S (Gi 0 0 0)); auto. apply (in_valid c d); auto. }
      rewrite LF. apply body_long. }
  cbn [bind]. eexists. split; [reflexivity|]. unfold is_domain_file. cbn [v_comment v_dims v_origin v_spacing v_cells v_body].
  assert (SP : forall a, v_spacing (vd_file (E (Gi 0 0 0))) a = e6 (dom_dx xmin xmax M d a)) by reflexivity.
  rewrite T1, T2, T3. split; [reflexivity|]. split; [|split; [|split; [|split; reflexivity]]].
  - intros a. rewrite SP. destruct (Rlt_dec 0 (e6 (dom_dx xmin xmax M d a))) as [_|X]; [|exfalso; apply X; apply PP, DX]. rewrite andb_true_r.
    assert (1 <= dm_Nx d a)%Z by (pose proof (NG a); pose proof (NL a); lia). destruct a; rewrite ?T1, ?T2, ?T3.
    + destruct (Z.leb_spec 1 (dm_Nx d X1)); lia.
    + destruct (Z.leb_spec 1 (dm_Nx d X2)); lia.
    + destruct (Z.leb_spec 1 (dm_Nx d X3)); lia.
  - intros a. refine (eq_trans (f_equal e6 (E_origin e6 enc comment c ng xmin xmax M d grids (Gi 0 0 0) a)) _). rewrite PI. destruct a; reflexivity.
  - intros a. rewrite SP, PI. reflexivity.
Qed.
Print Assumptions C88_join.

(** ** Where a number is found *)
Lemma fields_width : forall c S f K J I, In f (vtk_fields c S) -> length (f_val f K J I) = width f.
Proof.
  intros c S f K J I H. unfold vtk_fields in H. unfold width.
  repeat (apply in_app_or in H; destruct H as [H|H]).
  all: try (repeat match type of H with context [if ?b then _ else _] => destruct b end; cbn in H; repeat (destruct H as [<-|H]); try destruct H; cbn [f_val f_vec]; try destruct (snd (vg_par S K J I)) as [[? ?] ?]; reflexivity).
  all: apply in_map_iff in H; destruct H as (n & <- & _); reflexivity.
Qed.
Lemma global_cube : forall enc d f, (forall a, (1 <= dm_Nx d a)%Z) -> global_data enc d f =
  cube (fun k j i => flat_map enc (f_val f (dm_Disp d X3 + Z.of_nat k)%Z (dm_Disp d X2 + Z.of_nat j)%Z (dm_Disp d X1 + Z.of_nat i)%Z)) (Z.to_nat (dm_Nx d X1)) (Z.to_nat (dm_Nx d X2)) (Z.to_nat (dm_Nx d X3)).
Proof.
  intros enc d f P. unfold global_data, cube, zr, last_cell.
  replace (Z.to_nat (dm_Disp d X3 + dm_Nx d X3 - 1 - dm_Disp d X3 + 1)) with (Z.to_nat (dm_Nx d X3)) by lia.
  replace (Z.to_nat (dm_Disp d X2 + dm_Nx d X2 - 1 - dm_Disp d X2 + 1)) with (Z.to_nat (dm_Nx d X2)) by lia.
  replace (Z.to_nat (dm_Disp d X1 + dm_Nx d X1 - 1 - dm_Disp d X1 + 1)) with (Z.to_nat (dm_Nx d X1)) by lia.
  rewrite flat_map_map. apply flat_map_ext_in. intros k _. rewrite flat_map_map. apply flat_map_ext_in. intros j _. rewrite flat_map_map. reflexivity.
Qed.
(** In the file of a Domain the number(s) of the cell [(i, j, k)], counted from the lower corner of
    the Domain, of data set number [q] begin [4*width*((k*Nx2 + j)*Nx1 + i)] bytes after the text of that data set. *)
Theorem C88_where : forall enc c d S q f k j i, (forall x, length (enc x) = 4) -> (forall a, (1 <= dm_Nx d a)%Z) ->
  nth_error (vtk_fields c S) q = Some f -> (Z.of_nat k < dm_Nx d X3)%Z -> (Z.of_nat j < dm_Nx d X2)%Z -> (Z.of_nat i < dm_Nx d X1)%Z ->
  firstn (4 * width f) (skipn (set_start c d S q + 4 * width f * ((k * Z.to_nat (dm_Nx d X2) + j) * Z.to_nat (dm_Nx d X1) + i)) (domain_body enc c d S)) =
  flat_map enc (f_val f (dm_Disp d X3 + Z.of_nat k)%Z (dm_Disp d X2 + Z.of_nat j)%Z (dm_Disp d X1 + Z.of_nat i)%Z).
Proof.
  intros enc c d S q f k j i EN PN Q K J I.
  change (domain_body enc c d S) with (flat_map (fun f => fld_text f ++ global_data enc d f) (vtk_fields c S)). unfold set_start. rewrite Q.
  assert (W : forall f K J I, In f (vtk_fields c S) -> length (f_val f K J I) = width f) by (intros; apply (fields_width c S); auto).
  assert (LG : forall f, In f (vtk_fields c S) -> length (global_data enc d f) = 4 * width f * cells d).
  { intros g G. rewrite global_cube by auto. rewrite (cube_length _ _ (4 * width g)); [reflexivity|]. intros. rewrite flat_map_len by auto. rewrite W by auto. reflexivity. }
  assert (IF : In f (vtk_fields c S)) by (eapply nth_error_In; exact Q).
  revert q Q IF W LG. generalize (vtk_fields c S) as fs. intros fs q. revert fs. induction q as [|q IH]; intros fs Q IF W LG; (destruct fs as [|g fs]; [discriminate|]).
  - injection Q as ->. cbn [firstn fold_right flat_map plus]. rewrite skipn_plus, <- app_assoc.
    assert (S1 : forall (r : str), skipn (length (fld_text f)) (fld_text f ++ r) = r) by (intros r; rewrite skipn_app, skipn_all, Nat.sub_diag; reflexivity).
    rewrite S1, global_cube by auto. rewrite (cube_cell _ (fun k j i => flat_map enc (f_val f (dm_Disp d X3 + Z.of_nat k)%Z (dm_Disp d X2 + Z.of_nat j)%Z (dm_Disp d X1 + Z.of_nat i)%Z)) (4 * width f)); try lia; [reflexivity|].
    intros. rewrite flat_map_len by auto. rewrite W by auto. reflexivity.
  - cbn [nth_error] in Q. cbn [firstn fold_right flat_map].
    match goal with |- context [skipn ?nn _] => replace nn with (length (fld_text g ++ global_data enc d g) +
      (fold_right (fun f n => length (fld_text f) + 4 * width f * cells d + n) 0 (firstn q fs) + length (fld_text f) + 4 * width f * ((k * Z.to_nat (dm_Nx d X2) + j) * Z.to_nat (dm_Nx d X1) + i)))
      by (rewrite app_length, LG by (left; auto); lia) end.
    rewrite skipn_plus. assert (S1 : forall (x r : str), skipn (length x) (x ++ r) = r) by (intros x r; rewrite skipn_app, skipn_all, Nat.sub_diag; reflexivity).
    rewrite S1. apply (IH fs Q); [eapply nth_error_In; exact Q|intros; apply W; right; auto|intros; apply LG; right; auto].
Qed.
Print Assumptions C88_where.

(** ** The file of a Domain held by one Grid *)
(** It holds the same data sets, with a new line between them which join_vtk leaves out. *)
Theorem C88_single_grid : forall e6 enc comment c ng xmin xmax M d grids S,
  (forall a, dm_NG d a = 1%Z) -> (forall a, (1 <= dm_Nx d a)%Z) -> (Z.of_nat (vc_ns c) < 2 ^ 31)%Z -> hold ng d grids S ->
  exists sets : list str, domain_body enc c d S = concat sets /\
    v_body (grid_file e6 enc comment c ng xmin xmax M d grids (Gi 0 0 0)) = match sets with [] => [] | s :: ss => s ++ flat_map (fun t => LF :: t) ss end.
Proof.
  intros e6 enc comment c ng xmin xmax M d grids S ONE PN NS HO.
  exists (map (fun f => fld_text f ++ global_data enc d f) (vtk_fields c S)). split; [apply flat_map_concat_map|].
  assert (V : valid d (Gi 0 0 0)) by (intros a; rewrite ONE; destruct a; cbn; lia).
  assert (GN : forall a, gNx d a 0 = dm_Nx d a /\ gDisp d a 0 = dm_Disp d a).
  { intros a. split; [|reflexivity]. assert (NE : (Z.to_nat (dm_NG d a) = 1)%nat) by (rewrite ONE; reflexivity).
    pose proof (gDisp_end d a) as GE. rewrite NE in GE. cbn [gDisp] in GE. specialize (PN a). specialize (ONE a). lia. }
  assert (SM := fields_sim c ng d grids S (Gi 0 0 0) NS HO V).
  unfold grid_file, dump_vtk. cbn [fc_pos v_body].
  assert (B : forall f Fd, sim ng d (Gi 0 0 0) f Fd -> fld_bytes enc (fun a => grid_s ng d a (gi_ax (Gi 0 0 0) a)) (fun a => grid_e ng d a (gi_ax (Gi 0 0 0) a)) f = fld_text Fd ++ global_data enc d Fd).
  { intros f Fd SF. unfold fld_bytes. f_equal.
    - unfold fld_text. rewrite (sim_vec _ _ _ _ _ SF), (sim_name _ _ _ _ _ SF). reflexivity.
    - rewrite global_cube by auto. unfold fld_data, cube, zr.
      assert (LN : forall a, Z.to_nat (grid_e ng d a (gi_ax (Gi 0 0 0) a) - grid_s ng d a (gi_ax (Gi 0 0 0) a) + 1) = Z.to_nat (dm_Nx d a)).
      { intros a. assert (GA : gi_ax (Gi 0 0 0) a = 0) by (destruct a; reflexivity). rewrite GA, grid_len; rewrite (proj1 (GN a)); [f_equal; lia|apply PN]. }
      rewrite !LN. rewrite flat_map_map. apply flat_map_ext_in. intros k KI. rewrite flat_map_map. apply flat_map_ext_in. intros j JI. rewrite flat_map_map. apply flat_map_ext_in. intros i II.
      apply in_seq in KI, JI, II. cbn [gi_ax gl gm gn].
      assert (AC : forall a m, (Z.of_nat m < dm_Nx d a)%Z -> gactive ng d (Gi 0 0 0) a (grid_s ng d a 0 + Z.of_nat m)%Z /\ gcell ng d (Gi 0 0 0) a (grid_s ng d a 0 + Z.of_nat m)%Z = (dm_Disp d a + Z.of_nat m)%Z).
      { intros a m ML. unfold gactive, gcell. assert (GA : gi_ax (Gi 0 0 0) a = 0) by (destruct a; reflexivity). rewrite GA. rewrite (proj2 (GN a)).
        assert (LL := grid_len ng d a 0). rewrite (proj1 (GN a)) in LL. specialize (LL (PN a)). lia. }
      destruct (AC X3 k ltac:(lia)) as (A3 & C3). destruct (AC X2 j ltac:(lia)) as (A2 & C2). destruct (AC X1 i ltac:(lia)) as (A1 & C1).
      rewrite (sim_val _ _ _ _ _ SF) by auto. rewrite C1, C2, C3. reflexivity. }
  destruct SM as [|f Fd fs Fds S1 SM]; [reflexivity|]. cbn [vtk_body map]. rewrite (B f Fd S1). f_equal.
  clear S1. induction SM as [|f' Fd' fs Fds S1 SM IH]; [reflexivity|]. cbn [flat_map map]. rewrite (B f' Fd' S1), IH. reflexivity.
Qed.
Print Assumptions C88_single_grid.

(** ** Example: a 10 x 6 Domain on 3 x 2 Grids, the files given in reverse order, sorted by insertion *)
Fixpoint insert_by (a : axis) (x : vdom) (l : list vdom) : list vdom :=
  match l with [] => [x] | y :: l' => if Rle_dec (v_origin (vd_file x) a) (v_origin (vd_file y) a) then x :: l else y :: insert_by a x l' end.
Definition isort (a : axis) (l : list vdom) : list vdom := fold_right (insert_by a) [] l.
Lemma insert_perm : forall a x l, Permutation (insert_by a x l) (x :: l).
Proof. induction l as [|y l IH]; cbn [insert_by]; [auto|]. destruct (Rle_dec _ _); [auto|]. rewrite IH. apply perm_swap. Qed.
Lemma isort_sorts : sorts isort.
Proof.
  intros a l. induction l as [|x l [IP IS]]; cbn [isort fold_right]; [split; [auto|constructor]|]. fold (isort a l). split.
  - rewrite insert_perm. constructor. exact IP.
  - revert IS. generalize (isort a l). clear IP. intros m. induction m as [|y m IH]; intros SS; cbn [insert_by]; [constructor; constructor|].
    inversion SS as [|? ? SS' FA]; subst. destruct (Rle_dec _ _) as [LE|GT].
    + constructor; [exact SS|]. constructor; [exact LE|]. eapply Forall_impl; [|exact FA]. intros z Z. eapply Rle_trans; [exact LE|exact Z].
    + constructor; [apply IH; exact SS'|]. assert (PM := insert_perm a x m). apply (Permutation_Forall (Permutation_sym PM)). constructor; [left; apply Rnot_le_lt; exact GT|exact FA].
Qed.
Definition vtk_state : vgrid := VG (fun K J I => Cons (1 + IZR (I * I)) 1 (IZR J) 0 5 1 0 2 [IZR I]) (fun K J I => Prim 1 0 0 0 1 0 0 0 [0%R]) (fun _ _ _ => 0%R) (fun _ _ _ => (0, (0, 0, 0)))%R.
Definition vtk_grids (ng : Z) (d : domain) (S : vgrid) (g : gidx) : vgrid :=
  let at_ {A} (f : Z -> Z -> Z -> A) := fun k j i => f (gcell ng d g X3 k) (gcell ng d g X2 j) (gcell ng d g X1 i) in
  VG (at_ (vg_U S)) (at_ (vg_W S)) (at_ (vg_Phi S)) (at_ (vg_par S)).
Lemma vtk_grids_hold : forall ng d S, hold ng d (vtk_grids ng d S) S.
Proof. intros ng d S g k j i _ _ _ _. cbv zeta. repeat split; reflexivity. Qed.
(** Four bytes that depend on the number. *)
Definition enc1 (x : R) : str := if Rlt_dec x 3 then S_ "low " else S_ "high".
Definition vtk_cfg : vcfg := VC true true false false 1 false.
Example C88_example : exists M d f, init_mesh 4 (fun _ _ _ => 1%Z) 6 [dom1] = Ok M /\ nth_error (ms_levels M) 0 = Some [d] /\ length (all_grids d) = 6 /\
  join_vtk (fun x => x) isort (rev (map (grid_file (fun x => x) enc1 (S_ "run") vtk_cfg 4 (fun _ => 0%R) (fun _ => 1%R) M d (vtk_grids 4 d vtk_state)) (all_grids d))) = Ok f /\
  is_domain_file (fun x => x) enc1 (S_ "run") vtk_cfg (fun _ => 0%R) (fun _ => 1%R) M d vtk_state f /\
  v_dims f X1 = 11%Z /\ v_dims f X2 = 7%Z.
Proof.
  destruct (init_mesh 4 (fun _ _ _ => 1%Z) 6 [dom1]) as [M| |] eqn:EM; [|vm_compute in EM; discriminate|vm_compute in EM; discriminate].
  assert (exists d, nth_error (ms_levels M) 0 = Some [d] /\ dm_NG d X1 = 3%Z /\ dm_NG d X2 = 2%Z /\ dm_NG d X3 = 1%Z /\ dm_Nx d X1 = 10%Z /\ dm_Nx d X2 = 6%Z /\ dm_Nx d X3 = 1%Z /\
    gNx d X2 0 = 3%Z /\ gNx d X2 1 = 3%Z /\ gNx d X1 0 = 4%Z /\ gNx d X1 1 = 3%Z) as (d & HL & N1 & N2 & N3 & A1 & A2 & A3 & G0 & G1 & G2 & G3).
  { assert (EM' := EM). vm_compute in EM'. injection EM' as <-. eexists. split; [reflexivity|]. repeat split; reflexivity. }
  destruct (C88_join (fun x => x) enc1 (S_ "run") vtk_cfg 4 (fun _ _ _ => 1%Z) 6 [dom1] M 0 [d] d (fun _ => 0%R) (fun _ => 1%R) (vtk_grids 4 d vtk_state) vtk_state isort
    (rev (map (grid_file (fun x => x) enc1 (S_ "run") vtk_cfg 4 (fun _ => 0%R) (fun _ => 1%R) M d (vtk_grids 4 d vtk_state)) (all_grids d)))) as (f & J & D).
  all: auto; try lia.
  - left. reflexivity.
  - intros _. lra.
  - intros []; rewrite ?N1, ?N2, ?N3, ?A1, ?A2, ?A3; lia.
  - unfold ngrids. rewrite N1, N2, N3. lia.
  - intros m n Hm _ H. rewrite N2 in Hm. assert (m = 0 \/ m = 1) as [-> | ->] by lia; lia.
  - reflexivity.
  - split; auto.
  - assert (DX := dx_pos 4 (fun _ _ _ => 1%Z) 6 [dom1] M 0 [d] d (fun _ => 0%R) (fun _ => 1%R) ltac:(lia) ltac:(lia) EM HL (or_introl eq_refl) ltac:(intros; lra)).
    intros a k K. cbn [grid_MinX]. specialize (DX a).
    assert (0 < IZR (gNx d a k))%R; [|nra]. apply IZR_lt.
    destruct a; [rewrite N1 in K|rewrite N2 in K|rewrite N3 in K]; [assert (k = 0 \/ k = 1) as [-> | ->] by lia|assert (k = 0) as -> by lia|]; lia.
  - intros x. unfold enc1. destruct (Rlt_dec x 3); reflexivity.
  - apply isort_sorts.
  - apply vtk_grids_hold.
  - apply Permutation_sym, Permutation_rev.
  - exists M, d, f. assert (DM := proj1 (proj2 D)). split; [reflexivity|]. split; [exact HL|]. split; [unfold all_grids; rewrite N1, N2, N3; reflexivity|]. split; [exact J|]. split; [exact D|].
    rewrite !DM, A1, A2. split; reflexivity.
Qed.

(** ** Where it fails *)
(** A 3D run whose Grids are one cell thick along x2 only: the files say DIMENSIONS n 1 1, contradicting
    their own CELL_DATA, and join_vtk stops. *)
Definition slab := Blk 0 (mk_vec 8 2 4) (mk_vec 0 0 0) (mk_vec 1 2 1) 0.
Theorem C88_thin_refuted : exists M d, init_mesh 4 (fun _ _ _ => 1%Z) 2 [slab] = Ok M /\ nth_error (ms_levels M) 0 = Some [d] /\
  (forall a, (dm_NG d a <= dm_Nx d a)%Z) /\ length (all_grids d) = 2 /\
  forall e6 enc comment c xmin xmax grids qs fs, Permutation fs (map (grid_file e6 enc comment c 4 xmin xmax M d grids) (all_grids d)) -> join_vtk e6 qs fs = Fatal.
Proof.
  destruct (init_mesh 4 (fun _ _ _ => 1%Z) 2 [slab]) as [M| |] eqn:EM; [|vm_compute in EM; discriminate|vm_compute in EM; discriminate].
  assert (exists d, nth_error (ms_levels M) 0 = Some [d] /\ (forall a, (dm_NG d a <= dm_Nx d a)%Z) /\ all_grids d = [Gi 0 0 0; Gi 0 1 0] /\
    (forall m, m < 2 -> gNx d X2 m = 1%Z /\ (grid_e 4 d X2 m - grid_s 4 d X2 m = 0)%Z) /\ gNx d X3 0 = 4%Z /\ (grid_e 4 d X3 0 - grid_s 4 d X3 0 = 3)%Z /\ (grid_e 4 d X1 0 - grid_s 4 d X1 0 = 7)%Z) as (d & HL & HF & AG & G2 & G3 & L3 & L1).
  { assert (EM' := EM). vm_compute in EM'. injection EM' as <-. eexists. split; [reflexivity|]. split; [intros []; vm_compute; discriminate|]. split; [reflexivity|]. split; [|repeat split; reflexivity].
    intros m Hm. assert (m = 0 \/ m = 1) as [-> | ->] by lia; split; reflexivity. }
  exists M, d. split; [reflexivity|]. split; [exact HL|]. split; [exact HF|]. split; [rewrite AG; reflexivity|].
  intros e6 enc comment c xmin xmax grids qs fs PF. destruct (Permutation_map_inv _ _ PF) as (gs & -> & PG). rewrite AG in PG.
  assert (BAD : forall g, In g gs -> init_domain (grid_file e6 enc comment c 4 xmin xmax M d grids g) = Fatal).
  { intros g G. apply (Permutation_in g (Permutation_sym PG)) in G. assert (exists m, m < 2 /\ g = Gi 0 m 0) as (m & Hm & ->) by (cbn in G; destruct G as [<-|[<-|[]]]; [exists 0|exists 1]; split; auto).
    destruct (G2 m Hm) as (N2 & L2). unfold init_domain, grid_file, dump_vtk. cbn [fc_pos v_cells v_dims vtk_dims gi_ax gl gm gn]. rewrite N2, L1, L2, L3. cbn [Z.eqb Pos.eqb].
    replace (grid_e 4 d X1 0 - grid_s 4 d X1 0 + 2)%Z with 9%Z by lia. reflexivity. }
  assert (L2 := Permutation_length PG). destruct gs as [|g1 [|g2 gs]]; try discriminate. unfold join_vtk. cbn [map length Nat.ltb Nat.leb]. cbn [init_domains]. rewrite BAD by (left; auto). reflexivity.
Qed.
Print Assumptions C88_thin_refuted.

(** Two Grids along x2 whose lower edges print the same with seven digits: whatever file join_vtk
    writes, it has twice as many cells along x1 as the Domain. *)
Lemma count_up_same : forall a o n l, (forall x, In x l -> vorigin a x = o) -> count_up a o n l = n.
Proof. intros a o n l H. induction l as [|x l IH]; [reflexivity|]. cbn [count_up]. rewrite (H x) by (left; auto). destruct (Rlt_dec o o) as [L|_]; [exfalso; lra|]. apply IH. intros; apply H; right; auto. Qed.
Lemma sort_same : forall qs l o, sorts qs -> l <> [] -> (forall a x, In x l -> vorigin a x = o a) -> exists l', sort_domain_1d qs l = Ok (l', length l, 1, 1) /\ Permutation l' l.
Proof.
  intros qs l o QS NE H. assert (P := fun a l => proj1 (QS a l)).
  assert (CD : forall a m, Permutation m l -> count_distinct a m = Ok 1).
  { intros a m PM. destruct m as [|x m]; [apply Permutation_nil in PM; contradiction|]. cbn [count_distinct]. f_equal.
    assert (HX : forall y, In y (x :: m) -> vorigin a y = o a) by (intros y I; apply H; eapply Permutation_in; eauto).
    rewrite (HX x) by (left; auto). apply count_up_same. intros; apply HX; right; auto. }
  unfold sort_domain_1d. rewrite CD by apply P. cbn [bind]. rewrite Nat.mod_1_r, Nat.div_1_r. cbn [Nat.eqb negb groups seq map Nat.mul skipn hd concat].
  rewrite firstn_all, app_nil_r. rewrite CD by (rewrite !P; auto). cbn [bind]. rewrite Nat.mod_1_r, Nat.div_1_r. cbn [Nat.eqb negb Nat.mul Nat.add groups seq map skipn concat]. rewrite app_nil_r.
  assert (LX : length (qs X3 l) = length (qs X2 (qs X3 l))) by (symmetry; apply Permutation_length, P). assert (L3 : length (qs X3 l) = length l) by (apply Permutation_length, P).
  exists (qs X1 (qs X2 (qs X3 l))). split; [|rewrite !P; auto]. rewrite (firstn_all2 (qs X2 (qs X3 l))) by (rewrite LX; auto). rewrite L3. reflexivity.
Qed.
Lemma Rplus_0_r_mul : forall x y, (x + 0 * y)%R = x. Proof. intros. ring. Qed.
Definition two_rows := Blk 0 (mk_vec 8 4 1) (mk_vec 0 0 0) (mk_vec 1 2 1) 0.
Definition far_min (a : axis) : R := match a with X2 => 1000%R | _ => 0%R end.
Definition far_max (a : axis) : R := match a with X2 => (1000 + 8 / 100000)%R | _ => 1%R end.
Theorem C88_digits_refuted : exists M d, init_mesh 4 (fun _ _ _ => 1%Z) 2 [two_rows] = Ok M /\ nth_error (ms_levels M) 0 = Some [d] /\ dm_Nx d X1 = 8%Z /\
  forall e6 enc comment c grids qs fs f, e6 1000%R = e6 (1000 + 4 / 100000)%R -> sorts qs ->
    Permutation fs (map (grid_file e6 enc comment c 4 far_min far_max M d grids) (all_grids d)) -> join_vtk e6 qs fs = Ok f -> (16 <= v_dims f X1)%Z.
Proof.
  destruct (init_mesh 4 (fun _ _ _ => 1%Z) 2 [two_rows]) as [M| |] eqn:EM; [|vm_compute in EM; discriminate|vm_compute in EM; discriminate].
  assert (exists d, nth_error (ms_levels M) 0 = Some [d] /\ (forall a, dm_Nx d a = match a with X1 => 8%Z | X2 => 4%Z | X3 => 1%Z end) /\ (forall a, ms_Nx M a = dm_Nx d a) /\ dm_level d = 0 /\ (forall a, dm_Disp d a = 0%Z) /\ all_grids d = [Gi 0 0 0; Gi 0 1 0] /\
    (forall m, m < 2 -> gNx d X2 m = 2%Z) /\ gNx d X1 0 = 8%Z /\ gNx d X3 0 = 1%Z /\ (forall a, dm_NG d a = match a with X2 => 2%Z | _ => 1%Z end)) as (d & HL & N & MN & LV & DS & AG & G2 & G1 & G3 & NG).
  { assert (EM' := EM). vm_compute in EM'. injection EM' as <-. eexists. split; [reflexivity|]. split; [intros []; reflexivity|]. split; [intros []; reflexivity|]. split; [reflexivity|]. split; [intros []; reflexivity|]. split; [reflexivity|].
    split; [|split; [reflexivity|split; [reflexivity|intros []; reflexivity]]]. intros m Hm. assert (m = 0 \/ m = 1) as [-> | ->] by lia; reflexivity. }
  exists M, d. split; [reflexivity|]. split; [exact HL|]. split; [apply N|].
  intros e6 enc comment c grids qs fs f SAME QS PF J. destruct (Permutation_map_inv _ _ PF) as (gs & -> & PG). rewrite AG in PG.
  assert (ING : forall g, In g gs -> exists m, m < 2 /\ g = Gi 0 m 0).
  { intros g G. apply (Permutation_in g (Permutation_sym PG)) in G. cbn in G. destruct G as [<-|[<-|[]]]; [exists 0|exists 1]; split; auto. }
  assert (NGP : forall a, (0 < dm_NG d a)%Z) by (intros a; rewrite NG; destruct a; lia).
  assert (NGL : forall a, (dm_NG d a <= dm_Nx d a)%Z) by (intros a; rewrite NG, N; destruct a; lia).
  assert (TK : forall m n, (Z.of_nat m < dm_NG d X2)%Z -> (Z.of_nat n < dm_NG d X3)%Z -> gNx d X2 m = 1%Z -> gNx d X3 n = 1%Z).
  { intros m n Hm Hn H. rewrite NG in Hm. rewrite G2 in H by lia. discriminate. }
  assert (VA : forall g, In g gs -> valid d g).
  { intros g G. destruct (ING g G) as (m & Hm & ->). intros a. rewrite NG. destruct a; cbn [gi_ax gl gm gn]; lia. }
  unfold join_vtk in J. rewrite map_length, <- (Permutation_length PG) in J. cbn [length Nat.ltb Nat.leb] in J.
  rewrite (init_list e6 enc comment c 4 far_min far_max M d grids NGP NGL TK gs VA) in J. cbn [bind] in J.
  set (E := fun g => vdom_of (grid_file e6 enc comment c 4 far_min far_max M d grids g)) in *.
  destruct (sort_same qs (map E gs) (fun a => e6 (far_min a)) QS) as (l' & SO & PL).
  - intros Q. apply map_eq_nil in Q. subst gs. apply Permutation_length in PG. discriminate.
  - intros a x I. apply in_map_iff in I. destruct I as (g & <- & G). destruct (ING g G) as (m & Hm & ->). unfold vorigin. refine (eq_trans (E_origin e6 enc comment c 4 far_min far_max M d grids (Gi 0 m 0) a) _).
    assert (M0 : forall a, grid_MinX far_min far_max M d a 0 = far_min a) by (intros b; rewrite grid_MinX_eq; cbn [gDisp]; rewrite DS; apply Rplus_0_r_mul).
    destruct a; cbn [gi_ax gl gm gn]; try (rewrite M0; reflexivity). assert (m = 0 \/ m = 1) as [-> | ->] by lia; [rewrite M0; reflexivity|].
    cbn [grid_MinX]. fold (grid_MinX far_min far_max M d X2 0). rewrite M0, (G2 0) by lia. cbn [far_min]. rewrite SAME. f_equal. unfold dom_dx, root_dx. rewrite LV, MN, N. cbn. lra.
  - rewrite SO in J. cbn [bind] in J. rewrite map_length, <- (Permutation_length PG) in J. cbn [length] in J.
    assert (L2 := Permutation_length PL). rewrite map_length, <- (Permutation_length PG) in L2. destruct l' as [|d0 [|d1 [|]]]; try discriminate.
    assert (N8 : forall x, In x [d0; d1] -> vd_N x X1 = 8%Z).
    { intros x I. apply (Permutation_in x PL) in I. apply in_map_iff in I. destruct I as (g & <- & G). refine (eq_trans (E_N e6 enc comment c 4 far_min far_max M d grids NGP NGL TK g X1 (VA g G)) _). destruct (ING g G) as (m & Hm & ->). exact G1. }
    unfold write_joined_vtk in J. destruct (join_loop _ _ _ _ _ _ _) as [b| |]; try discriminate. cbn [bind] in J. injection J as <-. cbn [v_dims].
    assert (SN : sum_N [d0; d1] X1 (seq 0 2) = 16%Z) by (unfold sum_N; cbn [seq map nth_error fold_right]; rewrite !N8 by (cbn; auto); reflexivity).
    change (seq 0 2) with [0; 1] in SN. cbn [seq]. rewrite SN. destruct (_ && _); lia.
Qed.
Print Assumptions C88_digits_refuted.
