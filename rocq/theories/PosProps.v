(** Property C30 of the positions of cells and faces. *)
From Coq Require Import ZArith List Bool Reals R_Ifp Lra Lia.
From Verif Require Import CStr MeshModel MeshProps PosModel.
Import ListNotations.
Open Scope R_scope.

(** Vocabulary: the coordinate of face [i] (lower edge of cell [i]) and of the middle of
    cell [i] along one axis. *)
Definition face (pG : pgrid) (a : axis) (i : Z) : R := p_MinX pG a + IZR (i - p_s pG a) * p_dx pG a.
Definition middle (pG : pgrid) (a : axis) (i : Z) : R := (face pG a i + face pG a (i + 1)) / 2.
Definition cell_of (a : axis) : pgrid -> R -> R -> res (Z * R * Z) := match a with X1 => celli | X2 => cellj | X3 => cellk end.

Theorem C30_positions : forall pG i j k,
  fc_pos pG i j k = (face pG X1 i, face pG X2 j, face pG X3 k) /\
  cc_pos pG i j k = (middle pG X1 i, middle pG X2 j, middle pG X3 k).
Proof.
  intros. unfold fc_pos, cc_pos, middle, face. split; [reflexivity|]. rewrite !minus_IZR, !plus_IZR.
  f_equal; [f_equal|]; field.
Qed.
Print Assumptions C30_positions.

Lemma int_part_bounds : forall a, IZR (Int_part a) <= a < IZR (Int_part a) + 1.
Proof. intros a. destruct (base_Int_part a) as [H1 H2]. lra. Qed.
Lemma int_part_unique : forall a z, IZR z <= a < IZR z + 1 -> Int_part a = z.
Proof.
  intros a z [H1 H2]. destruct (int_part_bounds a) as [B1 B2].
  assert (A : IZR (Int_part a) < IZR (z + 1)) by (rewrite plus_IZR; lra). assert (B : IZR z < IZR (Int_part a + 1)) by (rewrite plus_IZR; lra).
  apply lt_IZR in A, B. lia.
Qed.
Lemma face_step : forall pG a i, face pG a (i + 1) = face pG a i + p_dx pG a.
Proof. intros. unfold face. rewrite !minus_IZR, plus_IZR. ring. Qed.
Lemma coord_eq : forall pG a x i, p_dx pG a <> 0 ->
  (x - p_MinX pG a) * (1 / p_dx pG a) + IZR (p_s pG a) = IZR i + (x - face pG a i) / p_dx pG a.
Proof. intros. unfold face. rewrite minus_IZR. field. auto. Qed.
(** A position inside the array (to the right of face 0): the index is that of the cell
    containing it; the second result is the index plus the fractional offset, which lies in
    [0,1); the third tells the half. *)
Theorem C30_cell_contains_position : forall pG a x i b h, 0 < p_dx pG a -> face pG a 0 <= x ->
  cell_of a pG x (1 / p_dx pG a) = Ok (i, b, h) ->
  face pG a i <= x < face pG a (i + 1) /\
  b = IZR i + (x - face pG a i) / p_dx pG a /\ 0 <= b - IZR i < 1 /\
  (h = 0%Z <-> x < middle pG a i) /\ (h = 1%Z <-> middle pG a i <= x).
Proof.
  intros pG a x i b h D X H.
  assert (E : cell_of a pG x (1 / p_dx pG a) = (i <- c_int ((x - p_MinX pG a) * (1 / p_dx pG a) + IZR (p_s pG a));;
    Ok (i, (x - p_MinX pG a) * (1 / p_dx pG a) + IZR (p_s pG a), if Rlt_dec ((x - p_MinX pG a) * (1 / p_dx pG a) + IZR (p_s pG a) - IZR i) (1/2) then 0%Z else 1%Z)))
    by (destruct a; reflexivity).
  rewrite E in H. clear E. set (g := (x - p_MinX pG a) * (1 / p_dx pG a) + IZR (p_s pG a)) in *.
  assert (G0 : 0 <= g).
  { unfold g. rewrite (coord_eq pG a x 0) by lra. assert (0 <= (x - face pG a 0) / p_dx pG a); [|lra].
    apply Rmult_le_pos; [lra|]. apply Rlt_le, Rinv_0_lt_compat. auto. }
  apply bind_ok in H. destruct H as (z & C & H). unfold c_int in C. cbv zeta in C. destruct (Rle_dec 0 g) as [_|]; [|contradiction].
  destruct ((_ && _)%bool); [|discriminate]. injection C as <-. injection H as H1 H2 H3. subst i b.
  assert (B := int_part_bounds g). set (i := Int_part g) in *.
  assert (GE : g = IZR i + (x - face pG a i) / p_dx pG a) by (apply coord_eq; lra).
  assert (Q : x = face pG a i + (g - IZR i) * p_dx pG a).
  { rewrite GE. replace (IZR i + (x - face pG a i) / p_dx pG a - IZR i) with ((x - face pG a i) / p_dx pG a) by ring. unfold Rdiv. rewrite Rmult_assoc, Rinv_l by lra. ring. }
  assert (B1 : 0 <= (g - IZR i) * p_dx pG a) by (apply Rmult_le_pos; lra).
  assert (B2 : (g - IZR i) * p_dx pG a < 1 * p_dx pG a) by (apply Rmult_lt_compat_r; lra).
  split; [rewrite face_step; lra|]. split; [exact GE|]. split; [lra|].
  assert (MM : middle pG a i = face pG a i + 1/2 * p_dx pG a) by (unfold middle; rewrite face_step; lra).
  assert (K : x < middle pG a i <-> g - IZR i < 1/2).
  { rewrite MM, Q. split; intros L.
    - apply Rmult_lt_reg_r with (p_dx pG a); lra.
    - assert ((g - IZR i) * p_dx pG a < 1/2 * p_dx pG a) by (apply Rmult_lt_compat_r; auto). lra. }
  rewrite <- H3. destruct (Rlt_dec (g - IZR i) (1/2)) as [L|L].
  - split; split; intros Y; try reflexivity; try discriminate; [tauto|]. apply K in L. lra.
  - split; split; intros Y; try reflexivity; try discriminate; [tauto|]. destruct (Rlt_dec x (middle pG a i)); [tauto|lra].
Qed.
Print Assumptions C30_cell_contains_position.
(** Conversely, for an index of an array of fewer than 2^31 cells: the functions are
    inverse to cc_pos and fc_pos, and any position in cell [i] is found there. *)
Theorem C30_found_in_its_cell : forall pG a x i, 0 < p_dx pG a -> (0 <= i < 2 ^ 31)%Z ->
  face pG a i <= x < face pG a (i + 1) ->
  exists b h, cell_of a pG x (1 / p_dx pG a) = Ok (i, b, h).
Proof.
  intros pG a x i D I X. rewrite face_step in X.
  set (g := (x - p_MinX pG a) * (1 / p_dx pG a) + IZR (p_s pG a)).
  assert (GE : g = IZR i + (x - face pG a i) / p_dx pG a) by (apply coord_eq; lra).
  assert (Q : IZR i <= g < IZR i + 1).
  { rewrite GE. assert (IP := Rinv_0_lt_compat _ D). split.
    - assert (0 <= (x - face pG a i) / p_dx pG a) by (apply Rmult_le_pos; lra). lra.
    - assert ((x - face pG a i) / p_dx pG a < 1); [|lra]. apply Rmult_lt_reg_r with (p_dx pG a); auto. unfold Rdiv. rewrite Rmult_assoc, Rinv_l by lra. lra. }
  assert (C : c_int g = Ok i).
  { unfold c_int. cbv zeta. assert (0 <= IZR i) by (apply IZR_le; lia). destruct (Rle_dec 0 g); [|lra]. rewrite (int_part_unique g i) by auto.
    unfold INT_MIN, INT_MAX. destruct (Z.leb_spec (- 2 ^ 31) i); [|lia]. destruct (Z.leb_spec i (2 ^ 31 - 1)); [|lia]. reflexivity. }
  destruct a; cbn [cell_of]; unfold celli, cellj, cellk; cbv zeta; fold g; rewrite C; cbn [bind]; eauto.
Qed.
Print Assumptions C30_found_in_its_cell.
Theorem C30_inverse : forall pG a i, 0 < p_dx pG a -> (0 <= i < 2 ^ 31)%Z ->
  cell_of a pG (middle pG a i) (1 / p_dx pG a) = Ok (i, IZR i + 1/2, 1%Z) /\
  cell_of a pG (face pG a i) (1 / p_dx pG a) = Ok (i, IZR i, 0%Z).
Proof.
  intros pG a i D I.
  assert (MM : middle pG a i = face pG a i + 1/2 * p_dx pG a) by (unfold middle; rewrite face_step; lra).
  assert (F0 : face pG a 0 <= face pG a i).
  { unfold face. rewrite !minus_IZR. assert (0 <= IZR i * p_dx pG a) by (apply Rmult_le_pos; [apply IZR_le; lia|lra]). lra. }
  split.
  - destruct (C30_found_in_its_cell pG a (middle pG a i) i D I) as (b & h & E); [rewrite face_step; lra|]. rewrite E.
    apply C30_cell_contains_position in E; auto; [|lra]. destruct E as (_ & B & _ & H0 & H1). subst b. rewrite (proj2 H1) by lra.
    rewrite MM. do 3 f_equal. field. lra.
  - destruct (C30_found_in_its_cell pG a (face pG a i) i D I) as (b & h & E); [rewrite face_step; lra|]. rewrite E.
    apply C30_cell_contains_position in E; auto. destruct E as (_ & B & _ & H0 & H1). subst b. rewrite (proj2 H0) by lra.
    do 3 f_equal. field. lra.
Qed.
Print Assumptions C30_inverse.
Example C30_example : exists pG, 0 < p_dx pG X1 /\ celli pG (3/4) (1 / p_dx pG X1) = Ok (5%Z, IZR 5 + 1/2, 1%Z).
Proof.
  exists (PG (fun _ => 4%Z) (fun _ => 0) (fun _ => 1/2)). split; [cbn; lra|].
  destruct (C30_inverse (PG (fun _ => 4%Z) (fun _ => 0) (fun _ => 1/2)) X1 5) as [H _]; [cbn; lra|lia|].
  rewrite <- H. cbn [cell_of]. unfold middle, face. cbn [p_s p_MinX p_dx]. f_equal. cbn. lra.
Qed.
(** To the left of face 0 the index returned is that of the cell to the right. *)
Theorem C30_left_of_array_refuted : exists pG x i b h, 0 < p_dx pG X1 /\ celli pG x (1 / p_dx pG X1) = Ok (i, b, h) /\
  x < face pG X1 i.
Proof.
  exists (PG (fun _ => 0%Z) (fun _ => 0) (fun _ => 1)), (- (1/2)), 0%Z, (- (1/2)), 0%Z. cbn [p_dx].
  split; [lra|]. split; [|unfold face; cbn; lra].
  unfold celli. cbn [p_MinX p_s]. replace ((- (1/2) - 0) * (1/1) + 0) with (- (1/2)) by lra.
  assert (C : c_int (- (1/2)) = Ok 0%Z).
  { unfold c_int. cbv zeta. destruct (Rle_dec 0 (- (1/2))); [lra|]. rewrite (int_part_unique (- - (1/2)) 0) by lra. reflexivity. }
  rewrite C. cbn [bind]. destruct (Rlt_dec (- (1/2) - 0) (1/2)); [reflexivity|lra].
Qed.
Print Assumptions C30_left_of_array_refuted.

(** Grids of one Domain, and Domains of different levels, agree on positions.  The global
    number of face [i] of a Grid counts faces of its level from the edge of the root
    Domain. *)
Definition global_face (nghost : Z) (d : domain) (g : gidx) (a : axis) (i : Z) : Z :=
  (gDisp d a (gi_ax g a) + (i - grid_s nghost d a (gi_ax g a)))%Z.
Definition active (M : mesh) (a : axis) : Prop := (1 < ms_Nx M a)%Z.
Lemma accepted_dom : forall ng P bs M nl l d, accepted_facts ng P bs M -> nth_error (ms_levels M) nl = Some l -> In d l ->
  (forall a, (1 < dm_Nx d a)%Z <-> active M a) /\ (forall a, ~ active M a -> dm_Disp d a = 0%Z) /\ dm_level d = nl /\
  (forall a, (1 <= dm_Nx d a)%Z) /\ (forall a, (1 <= ms_Nx M a)%Z) /\
  (forall a, active M a -> Z.rem (dm_Nx d a) (irefine nl) = 0%Z /\ Z.rem (dm_Disp d a) (irefine nl) = 0%Z) /\
  (nl = O -> forall a, dm_Disp d a = 0%Z).
Proof.
  intros ng P bs M nl l d (lv & NZ & W & _ & _ & F & _) L I. destruct (geo_lev _ _ _ _ F L) as (l0 & L0 & F0).
  apply In_nth_error in I. destruct I as [j I]. destruct (geo_in _ _ _ _ F0 I) as (d0 & I0 & (_ & LV & N & D)). apply nth_error_In in I0.
  destruct (W nl l0 d0 L0 I0) as ((W1 & W2 & W3 & W4 & W5 & W6 & W7) & E). rewrite E in W6, W7. unfold active. rewrite N, D.
  split; [intros a; rewrite <- W2, W3; tauto|]. split; [intros a A; apply W5; rewrite W3; auto|]. split; [congruence|].
  split; auto. split; auto. split; [intros a A; apply W6, W3, A|auto].
Qed.
Theorem C30_global_positions : forall ng ideal P bs M nl l d nghost xmin xmax g a i, (0 <= ng)%Z -> (0 < P)%Z ->
  init_mesh ng ideal P bs = Ok M -> nth_error (ms_levels M) nl = Some l -> In d l -> active M a ->
  face (mk_pgrid nghost xmin xmax M d g) a i =
    xmin a + IZR (global_face nghost d g a i) * ((xmax a - xmin a) / (IZR (ms_Nx M a) * 2 ^ nl)).
Proof.
  intros ng ideal P bs M nl l d nghost xmin xmax g a i G HP H L I A. apply init_mesh_facts in H; auto.
  destruct (accepted_dom _ _ _ _ _ _ _ H L I) as (D1 & _ & D3 & _ & D4 & _).
  assert (NX : IZR (ms_Nx M a) <> 0) by (specialize (D4 a); apply not_0_IZR; lia).
  assert (T : 2 ^ nl <> 0) by (apply pow_nonzero; lra).
  assert (IR : IZR (irefine (dm_level d)) = 2 ^ nl).
  { rewrite D3. unfold irefine. symmetry. apply pow_IZR. }
  assert (DX : dom_dx xmin xmax M d a = (xmax a - xmin a) / (IZR (ms_Nx M a) * 2 ^ nl)).
  { unfold dom_dx, root_dx. destruct (Z.ltb_spec 1 (dm_Nx d a)) as [_|X]; [|apply D1 in A; lia]. rewrite IR. field. auto. }
  unfold face, global_face. cbn [mk_pgrid p_MinX p_s p_dx]. rewrite <- DX.
  assert (MN : forall k, grid_MinX xmin xmax M d a k = xmin a + IZR (gDisp d a k) * dom_dx xmin xmax M d a).
  { induction k as [|k IH]; cbn [grid_MinX gDisp].
    - unfold dom_MinX. destruct (Z.eqb_spec (dm_Disp d a) 0) as [->|]; [lra|reflexivity].
    - rewrite IH, plus_IZR. ring. }
  rewrite MN, plus_IZR. ring.
Qed.
Print Assumptions C30_global_positions.
(** Two Grids of a level give a face they share the same position; so do a coarse Grid
    and a refined one. *)
Theorem C30_grids_agree : forall ng ideal P bs M nl l d e nghost xmin xmax g h a i j, (0 <= ng)%Z -> (0 < P)%Z ->
  init_mesh ng ideal P bs = Ok M -> nth_error (ms_levels M) nl = Some l -> In d l -> In e l -> active M a ->
  global_face nghost d g a i = global_face nghost e h a j ->
  face (mk_pgrid nghost xmin xmax M d g) a i = face (mk_pgrid nghost xmin xmax M e h) a j.
Proof. intros until j. intros G HP H L I J A E. rewrite (C30_global_positions ng ideal P bs M nl l d), (C30_global_positions ng ideal P bs M nl l e), E; auto. Qed.
Print Assumptions C30_grids_agree.
Theorem C30_levels_agree : forall ng ideal P bs M nl l l' d e nghost xmin xmax g h a i j, (0 <= ng)%Z -> (0 < P)%Z ->
  init_mesh ng ideal P bs = Ok M -> nth_error (ms_levels M) nl = Some l -> nth_error (ms_levels M) (S nl) = Some l' -> In d l -> In e l' -> active M a ->
  global_face nghost e h a j = (2 * global_face nghost d g a i)%Z ->
  face (mk_pgrid nghost xmin xmax M d g) a i = face (mk_pgrid nghost xmin xmax M e h) a j.
Proof.
  intros until j. intros G HP H L L' I J A E. rewrite (C30_global_positions ng ideal P bs M nl l d), (C30_global_positions ng ideal P bs M (S nl) l' e), E; auto.
  apply init_mesh_facts in H; auto. destruct (accepted_dom _ _ _ _ _ _ _ H L I) as (_ & _ & _ & _ & D4 & _).
  rewrite mult_IZR. cbn [pow]. field. split; [apply pow_nonzero; lra|]. specialize (D4 a). apply not_0_IZR. lia.
Qed.
Print Assumptions C30_levels_agree.
(** The extents: a Domain has MaxX - MinX = Nx dx, the root Domain fills the box given in
    the input, and each Grid's extent is that of its cells. *)
Theorem C30_domain_extent : forall ng ideal P bs M nl l d xmin xmax a, (0 <= ng)%Z -> (0 < P)%Z ->
  init_mesh ng ideal P bs = Ok M -> nth_error (ms_levels M) nl = Some l -> In d l ->
  dom_MaxX xmin xmax M d a = dom_MinX xmin xmax M d a + IZR (dm_Nx d a) * dom_dx xmin xmax M d a /\
  (nl = O -> dm_Nx d a = ms_Nx M a -> dom_MinX xmin xmax M d a = xmin a /\ dom_MaxX xmin xmax M d a = xmax a).
Proof.
  intros ng ideal P bs M nl l d xmin xmax a G HP H L I. apply init_mesh_facts in H; auto.
  destruct (accepted_dom _ _ _ _ _ _ _ H L I) as (D1 & D2 & D3 & D4 & D5 & D6 & D7).
  assert (NX : IZR (ms_Nx M a) <> 0) by (specialize (D5 a); apply not_0_IZR; lia).
  assert (E1 : dom_MinX xmin xmax M d a = xmin a + IZR (dm_Disp d a) * dom_dx xmin xmax M d a).
  { unfold dom_MinX. destruct (Z.eqb_spec (dm_Disp d a) 0) as [->|]; [lra|reflexivity]. }
  assert (IRP : (0 < irefine nl)%Z) by apply irefine_pos.
  split.
  - unfold dom_MaxX. rewrite D3. destruct (Z.eqb_spec (Z.quot (dm_Disp d a + dm_Nx d a) (irefine nl)) (ms_Nx M a)) as [E|]; [|reflexivity].
    rewrite E1. unfold dom_dx, root_dx. rewrite D3. assert (IR : IZR (irefine nl) <> 0) by (apply not_0_IZR; lia).
    destruct (Z.ltb_spec 1 (dm_Nx d a)) as [X|X].
    + apply D1 in X. destruct (D6 a X) as [R1 R2]. apply rem0_mult in R1; [|lia]. apply rem0_mult in R2; [|lia].
      destruct R1 as [k1 R1], R2 as [k2 R2]. rewrite R1, R2 in E. replace (k2 * irefine nl + k1 * irefine nl)%Z with ((k1 + k2) * irefine nl)%Z in E by ring.
      rewrite Z.quot_mul in E by lia. rewrite R1, R2, !mult_IZR, <- E. rewrite <- E in NX. rewrite plus_IZR in *. field. split; auto.
    + assert (N1 : dm_Nx d a = 1%Z) by (specialize (D4 a); lia). assert (NA : ~ active M a) by (rewrite <- D1; lia).
      rewrite N1, (D2 a NA). unfold active in NA. assert (M1 : ms_Nx M a = 1%Z) by (specialize (D5 a); lia). rewrite M1. field.
  - intros Z0 E. rewrite E1, (D7 Z0 a). split; [ring|]. unfold dom_MaxX. rewrite D3, (D7 Z0 a), E, Z0.
    unfold irefine. cbn [Z.of_nat Z.pow]. rewrite Z.quot_1_r, Z.add_0_l, Z.eqb_refl. reflexivity.
Qed.
Print Assumptions C30_domain_extent.
Example C30_mesh_example : exists M d, init_mesh 4 (fun _ _ _ => 1%Z) 6 [dom1] = Ok M /\ nth_error (ms_levels M) 0 = Some [d] /\ active M X1 /\
  global_face 4 d (Gi 1 0 0) X1 4 = global_face 4 d (Gi 0 0 0) X1 (4 + gNx d X1 0)%Z.
Proof. eexists. eexists. split; [vm_compute; reflexivity|]. split; [reflexivity|]. split; reflexivity. Qed.
(** The upper edge of a Grid is the face after its last active cell, is the lower edge of the
    next Grid, and for the last Grid of the axis is the upper edge of the Domain. *)
Theorem C30_grid_edges : forall ng ideal P bs M nl l d nghost xmin xmax g a, (0 <= ng)%Z -> (0 < P)%Z ->
  init_mesh ng ideal P bs = Ok M -> nth_error (ms_levels M) nl = Some l -> In d l ->
  ((1 <= gNx d a (gi_ax g a))%Z ->
    face (mk_pgrid nghost xmin xmax M d g) a (grid_e nghost d a (gi_ax g a) + 1) = grid_MaxX xmin xmax M d a (gi_ax g a)) /\
  grid_MaxX xmin xmax M d a (gi_ax g a) = grid_MinX xmin xmax M d a (S (gi_ax g a)) /\
  (Z.of_nat (S (gi_ax g a)) = dm_NG d a -> grid_MaxX xmin xmax M d a (gi_ax g a) = dom_MaxX xmin xmax M d a).
Proof.
  intros ng ideal P bs M nl l d nghost xmin xmax g a G HP H L I. split; [|split; [reflexivity|]].
  - intros N. unfold face, grid_MaxX, grid_e. cbn [mk_pgrid p_MinX p_s p_dx]. unfold grid_s.
    destruct (Z.ltb_spec 1 (gNx d a (gi_ax g a))).
    + do 3 f_equal. lia.
    + replace (gNx d a (gi_ax g a)) with 1%Z by lia. reflexivity.
  - intros LAST. destruct (C30_domain_extent ng ideal P bs M nl l d xmin xmax a G HP H L I) as [-> _].
    assert (ID : In d (domains M)) by (unfold domains; apply in_concat; exists l; split; [eapply nth_error_In; eassumption|assumption]).
    change (grid_MaxX xmin xmax M d a (gi_ax g a)) with (grid_MinX xmin xmax M d a (S (gi_ax g a))).
    assert (MN : forall k, grid_MinX xmin xmax M d a k = dom_MinX xmin xmax M d a + IZR (gDisp d a k - dm_Disp d a) * dom_dx xmin xmax M d a).
    { induction k as [|k IH]; cbn [grid_MinX gDisp]; [rewrite Z.sub_diag; ring|]. rewrite IH, !minus_IZR, plus_IZR. ring. }
    rewrite MN. do 3 f_equal. rewrite gDisp_sum.
    destruct (C23_sizes ng ideal P bs M d a G HP H ID) as (_ & _ & S0 & _).
    replace (Z.to_nat (dm_NG d a)) with (S (gi_ax g a)) in S0 by lia. rewrite S0. lia.
Qed.
Print Assumptions C30_grid_edges.
