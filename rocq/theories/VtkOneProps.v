(** * C107: VTK files of one variable *)
From Coq Require Import ZArith List Bool Reals Lia Lra.
From Verif Require Import CStr MeshModel PosModel PosProps GasModel UtilModel UtilProps VtkModel ImageModel ImageProps SliceModel SliceSpec SliceProps IntegSpec VtkOneModel VtkOneSpec.
Import ListNotations.
Open Scope R_scope.

(** ** Layout *)
Lemma rows_len : forall A (f : Z -> list A) m n, (forall j, length (f j) = m) -> length (flat_map f (zr 0 (n - 1))) = (Z.to_nat n * m)%nat.
Proof.
  intros A f m n H. rewrite <- (zr_len0 n). generalize (zr 0 (n - 1)). induction l; cbn [flat_map length]; [reflexivity|]. rewrite app_length, H, IHl. reflexivity.
Qed.
Lemma row_at : forall (f : Z -> R) n i, (0 <= i < n)%Z -> nth_error (map f (zr 0 (n - 1))) (Z.to_nat i) = Some (f i).
Proof. intros f n i H. rewrite nth_error_map, zr_nth by lia. cbn [option_map]. rewrite Z2Nat.id by lia. reflexivity. Qed.
Lemma row_len : forall (f : Z -> R) n, length (map f (zr 0 (n - 1))) = Z.to_nat n.
Proof. intros. rewrite map_length. apply zr_len0. Qed.
Lemma plane_at : forall (D : Z -> Z -> R) n1 n2 j i, (0 <= i < n1)%Z -> (0 <= j < n2)%Z ->
  nth_error (flat_map (fun j => map (D j) (zr 0 (n1 - 1))) (zr 0 (n2 - 1))) (Z.to_nat j * Z.to_nat n1 + Z.to_nat i) = Some (D j i).
Proof.
  intros D n1 n2 j i I J. rewrite (nth_flat _ _ _ (Z.to_nat n1)); [|intros; apply row_len|lia]. rewrite zr_nth by lia. rewrite Z2Nat.id by lia. apply row_at. exact I.
Qed.
Lemma plane_len : forall (D : Z -> Z -> R) n1 n2, length (flat_map (fun j => map (D j) (zr 0 (n1 - 1))) (zr 0 (n2 - 1))) = (Z.to_nat n2 * Z.to_nat n1)%nat.
Proof. intros. apply rows_len. intros. apply row_len. Qed.
Lemma volume_at : forall (D : Z -> Z -> Z -> R) n1 n2 n3 k j i, (0 <= i < n1)%Z -> (0 <= j < n2)%Z -> (0 <= k < n3)%Z ->
  nth_error (flat_map (fun k => flat_map (fun j => map (D k j) (zr 0 (n1 - 1))) (zr 0 (n2 - 1))) (zr 0 (n3 - 1))) (Z.to_nat ((k * n2 + j) * n1 + i)) = Some (D k j i).
Proof.
  intros D n1 n2 n3 k j i I J K.
  assert (Q : (0 <= (k * n2 + j) * n1)%Z) by (apply Z.mul_nonneg_nonneg; [apply Z.add_nonneg_nonneg; [apply Z.mul_nonneg_nonneg|]|]; lia).
  assert (P : Z.to_nat ((k * n2 + j) * n1 + i) = (Z.to_nat k * (Z.to_nat n2 * Z.to_nat n1) + (Z.to_nat j * Z.to_nat n1 + Z.to_nat i))%nat).
  { apply Nat2Z.inj. rewrite !Nat2Z.inj_add, !Nat2Z.inj_mul. rewrite !Z2Nat.id by lia. ring. }
  rewrite P.
  rewrite (nth_flat _ _ _ (Z.to_nat n2 * Z.to_nat n1)); [|intros; apply plane_len|].
  - rewrite zr_nth by lia. rewrite Z2Nat.id by lia. apply plane_at; assumption.
  - assert (Z.to_nat j < Z.to_nat n2)%nat by lia. assert (Z.to_nat i < Z.to_nat n1)%nat by lia. nia.
Qed.
Lemma volume_len : forall (D : Z -> Z -> Z -> R) n1 n2 n3,
  length (flat_map (fun k => flat_map (fun j => map (D k j) (zr 0 (n1 - 1))) (zr 0 (n2 - 1))) (zr 0 (n3 - 1))) = (Z.to_nat n3 * (Z.to_nat n2 * Z.to_nat n1))%nat.
Proof. intros. apply rows_len. intros. apply plane_len. Qed.

(** The file of a plane of n1 by n2 values. *)
Definition plane_file (G : ogrid) (o : slice) (n1 n2 : Z) (D : Z -> Z -> R) : vtkone :=
  VO (three (n1 + 1) (n2 + 1) 1)%Z (p_MinX (og_p G)) (three (spacing2 G o X1) (spacing2 G o X2) (spacing2 G o X3)) (n1 * n2)%Z
     (flat_map (fun j => map (fun i => D j i) (zr 0 (n1 - 1))) (zr 0 (n2 - 1))).
Lemma plane_cells : forall G o n1 n2 D, (1 <= n1)%Z -> (1 <= n2)%Z -> forall a, cells (plane_file G o n1 n2 D) a = three n1 n2 1%Z a.
Proof. intros G o n1 n2 D H1 H2 []; unfold cells, plane_file, three; cbn [vo_dims]; lia. Qed.
Lemma plane_complete : forall G o n1 n2 D, (1 <= n1)%Z -> (1 <= n2)%Z -> complete (plane_file G o n1 n2 D).
Proof.
  intros G o n1 n2 D H1 H2. unfold complete. rewrite !plane_cells by assumption. unfold three. cbn [plane_file vo_cells vo_data].
  rewrite plane_len, Nat2Z.inj_mul, !Z2Nat.id by lia. split; ring.
Qed.
Lemma plane_value : forall G o n1 n2 D, (1 <= n1)%Z -> (1 <= n2)%Z -> forall v, inside (cells (plane_file G o n1 n2 D)) v ->
  value_at (plane_file G o n1 n2 D) v = Some (D (v X2) (v X1)).
Proof.
  intros G o n1 n2 D H1 H2 v I. pose proof (I X1) as I1. pose proof (I X2) as I2. pose proof (I X3) as I3. rewrite plane_cells in I1, I2, I3 by assumption.
  unfold value_at. rewrite !plane_cells by assumption. unfold three in *. replace (v X3) with 0%Z by lia. cbn [plane_file vo_data].
  replace (Z.to_nat ((0 * n2 + v X2) * n1 + v X1)) with (Z.to_nat (v X2) * Z.to_nat n1 + Z.to_nat (v X1))%nat
    by (apply Nat2Z.inj; rewrite !Nat2Z.inj_add, !Nat2Z.inj_mul, !Z2Nat.id by nia; ring).
  apply plane_at; assumption.
Qed.

Section One.
Variables (wg : bool) (ng : Z) (G : ogrid) (o : slice) (expr : Z -> Z -> Z -> R) (Nx : axis -> Z) (g : R * R).
Hypotheses (HN : (0 <= ng)%Z) (HS : sound_grid G) (HA : accepted_output Nx o G).
Notation first := (lo wg ng G).
Notation count a := (hi wg ng G a - lo wg ng G a + 1)%Z.

Lemma count_pos : forall a, (1 <= count a)%Z.
Proof. intros a. destruct (HS a) as (_ & N & E & _). pose proof (lo_hi wg ng G a HN N E). lia. Qed.

(** Three dimensions, with or without ghost cells. *)
Lemma volume_any : sl_ndim o = 3%Z -> exists V g', output_vtk_grid wg ng G o expr g = Ok (Some V, g') /\
  complete V /\ (forall a, cells V a = count a) /\
  forall v, inside (cells V) v -> value_at V v = Some (at_cell expr (fun a => first a + v a)%Z) /\
    forall a, from_ V a (v a) = face (og_p G) a (p_s (og_p G) a + v a) /\ to_ V a (v a) = face (og_p G) a (p_s (og_p G) a + v a + 1).
Proof.
  intros H3. destruct (C86_volume wg ng G o expr Nx HA H3) as (D & E & HD).
  unfold output_vtk_grid. rewrite H3. cbn [Z.eqb Pos.eqb]. unfold output_vtk_3d. rewrite E. cbn [bind].
  pose proof (count_pos X1) as P1. pose proof (count_pos X2) as P2. pose proof (count_pos X3) as P3.
  eexists. eexists. split; [reflexivity|]. set (n1 := count X1) in *. set (n2 := count X2) in *. set (n3 := count X3) in *.
  match goal with |- complete ?v /\ _ => set (V := v) end.
  assert (C : forall a, cells V a = three n1 n2 n3 a) by (intros []; unfold cells, V, three; cbn [vo_dims]; lia).
  split; [|split].
  - unfold complete. rewrite !C. unfold three, V. cbn [vo_cells vo_data]. split; [reflexivity|].
    rewrite volume_len, !Nat2Z.inj_mul, !Z2Nat.id by lia. ring.
  - intros []; rewrite C; reflexivity.
  - intros v I. pose proof (I X1) as I1. pose proof (I X2) as I2. pose proof (I X3) as I3. rewrite C in I1, I2, I3. split.
    + unfold value_at. rewrite !C. unfold three in *. unfold V. cbn [vo_data]. rewrite volume_at by assumption. rewrite HD. reflexivity.
    + intros a. unfold to_, from_, face, V. cbn [vo_origin vo_spacing].
      replace (p_s (og_p G) a + v a - p_s (og_p G) a)%Z with (v a) by lia. replace (p_s (og_p G) a + v a + 1 - p_s (og_p G) a)%Z with (v a + 1)%Z by lia.
      split; reflexivity.
Qed.
Lemma plane_of : forall n1 n2 D, sl_ndim o = 2%Z -> OutData2 wg ng G o expr = Ok (Some (n1, n2, D)) ->
  exists g', output_vtk_grid wg ng G o expr g = Ok (Some (plane_file G o n1 n2 D), g').
Proof.
  intros n1 n2 D H2 E. unfold output_vtk_grid. rewrite H2. cbn [Z.eqb Pos.eqb]. unfold output_vtk_2d. rewrite E. cbn [bind]. eexists. reflexivity.
Qed.
Lemma plane_none : sl_ndim o = 2%Z -> OutData2 wg ng G o expr = Ok None -> output_vtk_grid wg ng G o expr g = Ok (None, g).
Proof. intros H2 E. unfold output_vtk_grid. rewrite H2. cbn [Z.eqb Pos.eqb]. unfold output_vtk_2d. rewrite E. reflexivity. Qed.
Lemma plane_place : forall n1 n2 D a n, sl_red o a = false -> from_ (plane_file G o n1 n2 D) a n = face (og_p G) a (p_s (og_p G) a + n).
Proof.
  intros n1 n2 D a n E. unfold from_, face, plane_file. cbn [vo_origin vo_spacing]. replace (p_s (og_p G) a + n - p_s (og_p G) a)%Z with n by lia.
  destruct a; unfold three, spacing2; rewrite E; reflexivity.
Qed.
Lemma width : forall a, p_dx (og_p G) a * IZR (og_Nx G a) = og_MaxX G a - p_MinX (og_p G) a.
Proof. intros a. destruct (HS a) as (_ & _ & E & ->). unfold face. replace (og_e G a + 1 - p_s (og_p G) a)%Z with (og_Nx G a) by lia. lra. Qed.
Lemma plane_wide : forall n1 n2 D a n, sl_red o a = true -> from_ (plane_file G o n1 n2 D) a n = p_MinX (og_p G) a + IZR n * (og_MaxX G a - p_MinX (og_p G) a).
Proof.
  intros n1 n2 D a n E. rewrite <- width. unfold from_, plane_file. cbn [vo_origin vo_spacing]. destruct a; unfold three, spacing2; rewrite E; reflexivity.
Qed.
Lemma layer : forall n1 n2 D, sl_red o X3 = true \/ og_Nx G X3 = 1%Z ->
  from_ (plane_file G o n1 n2 D) X3 0 = p_MinX (og_p G) X3 /\ to_ (plane_file G o n1 n2 D) X3 0 = og_MaxX G X3.
Proof.
  intros n1 n2 D H. unfold to_, from_. change (0 + 1)%Z with 1%Z. cbn [plane_file vo_origin vo_spacing three]. unfold spacing2. split; [lra|].
  pose proof (width X3) as W. destruct (sl_red o X3) eqn:R; [lra|]. destruct H as [H|H]; [discriminate|]. rewrite H in W. lra.
Qed.
End One.

(** A volume: each cell of the Grid has its value, and lies between its faces. *)
Theorem C107_volume : forall ng G o expr Nx g, (0 <= ng)%Z -> sound_grid G -> accepted_output Nx o G -> sl_ndim o = 3%Z ->
  exists V g', output_vtk_grid false ng G o expr g = Ok (Some V, g') /\ complete V /\ (forall a, cells V a = og_Nx G a) /\
  forall v, inside (og_Nx G) v -> let c := fun a => (p_s (og_p G) a + v a)%Z in
    value_at V v = Some (expr (c X1) (c X2) (c X3)) /\
    forall a, from_ V a (v a) = face (og_p G) a (c a) /\ to_ V a (v a) = face (og_p G) a (c a + 1).
Proof.
  intros ng G o expr Nx g HN HS HA H3. destruct (volume_any false ng G o expr Nx g HN HS HA H3) as (V & g' & E & C & N & K).
  assert (N' : forall a, cells V a = og_Nx G a).
  { intros a. rewrite N. unfold lo, hi. cbn [andb]. destruct (HS a) as (_ & _ & Ee & _). lia. }
  exists V, g'. split; [exact E|]. split; [exact C|]. split; [exact N'|]. intros v I c.
  destruct (K v) as (K1 & K2); [intros a; rewrite N'; apply I|]. split; [exact K1|]. exact K2.
Qed.
Print Assumptions C107_volume.

(** A plane across x3, or the plane of a two-dimensional run: each cell has its value, or the mean over the cells
    that the range touches, and lies between its faces along x1 and x2; its layer has the thickness of the Grid.
    No file is written for a Grid outside the range. *)
Theorem C107_plane : forall ng G o expr Nx g, (0 <= ng)%Z -> sound_grid G -> accepted_output Nx o G -> sl_ndim o = 2%Z ->
  sl_red o X1 = false -> sl_red o X2 = false ->
  ((1 < Nx X3)%Z -> misses G o X3 -> output_vtk_grid false ng G o expr g = Ok (None, g)) /\
  (Nx X3 = 1%Z \/ ~ misses G o X3 ->
   exists V g' ks ke, output_vtk_grid false ng G o expr g = Ok (Some V, g') /\ complete V /\
     cells V X1 = og_Nx G X1 /\ cells V X2 = og_Nx G X2 /\ cells V X3 = 1%Z /\
     ((Nx X3 = 1)%Z -> ks = p_s (og_p G) X3 /\ ke = ks) /\
     ((1 < Nx X3)%Z -> touched G (p_s (og_p G) X3) (og_e G X3) X3 (sl_l o X3) (sl_u o X3) ks ke) /\
     from_ V X3 0 = p_MinX (og_p G) X3 /\ to_ V X3 0 = og_MaxX G X3 /\
     forall v, inside (cells V) v -> let c := fun a => (p_s (og_p G) a + v a)%Z in
       value_at V v = Some (mean ks ke (fun k => expr (c X1) (c X2) k)) /\
       forall a, a <> X3 -> from_ V a (v a) = face (og_p G) a (c a) /\ to_ V a (v a) = face (og_p G) a (c a + 1)).
Proof.
  intros ng G o expr Nx g HN HS HA H2 R1 R2.
  destruct (C86_plane false ng G o expr Nx HN HS HA H2) as (P1 & P2). pose proof HA as (_ & HX & _ & HG & _).
  assert (CN : forall a, (hi false ng G a - lo false ng G a + 1)%Z = og_Nx G a).
  { intros a. unfold lo, hi. cbn [andb]. destruct (HS a) as (_ & _ & Ee & _). lia. }
  assert (NP : forall a, (1 <= og_Nx G a)%Z) by (intros a; apply HS).
  assert (AX : forall n1 n2 D v a, a <> X3 -> from_ (plane_file G o n1 n2 D) a (v a) = face (og_p G) a (p_s (og_p G) a + v a) /\
      to_ (plane_file G o n1 n2 D) a (v a) = face (og_p G) a (p_s (og_p G) a + v a + 1)).
  { intros n1 n2 D v a NE. assert (RA : sl_red o a = false) by (destruct a; congruence). unfold to_. rewrite !plane_place by exact RA. split; [reflexivity|]. f_equal. lia. }
  split.
  - intros H3 M. destruct (P2 H3) as (a & RA & U & K). assert (a = X3) by (destruct a; congruence). subst a. cbn [others] in K. apply plane_none; [exact H2|]. apply K. exact M.
  - intros H. destruct (Z.eq_dec (Nx X3) 1) as [N3|N3].
    + destruct (P1 N3) as (D & E & HD). rewrite !CN in E. destruct (plane_of _ _ _ _ _ g _ _ _ H2 E) as (g' & EV).
      exists (plane_file G o (og_Nx G X1) (og_Nx G X2) D), g', (p_s (og_p G) X3), (p_s (og_p G) X3).
      split; [exact EV|]. split; [apply plane_complete; apply NP|]. rewrite !plane_cells by apply NP. do 3 (split; [reflexivity|]).
      split; [auto|]. split; [intros; lia|].
      destruct (layer G o HS (og_Nx G X1) (og_Nx G X2) D (or_intror (proj2 (HG X3) N3))) as (L1 & L2). split; [exact L1|]. split; [exact L2|].
      intros v I c. split; [|intros a; apply AX]. rewrite plane_value by (try apply NP; exact I). f_equal. rewrite HD. unfold mean, c.
      rewrite IntegFacts.sumZ_last, IntegFacts.sumZ_empty by lia. rewrite Z.sub_diag. cbn [Z.add]. unfold lo. cbn [andb]. lra.
    + destruct (P2 ltac:(pose proof (HX X3); lia)) as (a & RA & U & K). assert (a = X3) by (destruct a; congruence). subst a. cbn [others] in K.
      destruct K as (_ & K). destruct K as (ks & ke & D & T & E & HD); [tauto|]. rewrite !CN in E.
      destruct (plane_of _ _ _ _ _ g _ _ _ H2 E) as (g' & EV).
      exists (plane_file G o (og_Nx G X1) (og_Nx G X2) D), g', ks, ke.
      split; [exact EV|]. split; [apply plane_complete; apply NP|]. rewrite !plane_cells by apply NP. do 3 (split; [reflexivity|]).
      split; [intros; lia|]. split; [intros _; exact T|].
      destruct (layer G o HS (og_Nx G X1) (og_Nx G X2) D (or_introl RA)) as (L1 & L2). split; [exact L1|]. split; [exact L2|].
      intros v I c. split; [|intros b; apply AX]. rewrite plane_value by (try apply NP; exact I). f_equal. rewrite HD. reflexivity.
Qed.
Print Assumptions C107_plane.

(** Refuted for planes across x1 and x2: the values have the order of the other two axes, but the file
    places them along x1 and x2.  Along the reduced axis every value but the first lies outside the Grid. *)
Theorem C107_other_planes_refuted : forall ng G o expr Nx g a, (0 <= ng)%Z -> sound_grid G -> accepted_output Nx o G -> sl_ndim o = 2%Z ->
  (1 < Nx X3)%Z -> a = X1 \/ a = X2 -> sl_red o a = true -> ~ misses G o a ->
  exists V g' ks ke, output_vtk_grid false ng G o expr g = Ok (Some V, g') /\
    (let (b, c) := others a in cells V X1 = og_Nx G b /\ cells V X2 = og_Nx G c /\
     forall v, inside (cells V) v -> value_at V v = Some (mean ks ke (fun k => at_cell expr (put a k (p_s (og_p G) b + v X1) (p_s (og_p G) c + v X2))))) /\
    (1 < cells V a)%Z /\ forall n, (1 <= n)%Z -> og_MaxX G a <= from_ V a n.
Proof.
  intros ng G o expr Nx g a HN HS HA H2 H3 Ha RA M.
  destruct (C86_plane false ng G o expr Nx HN HS HA H2) as (_ & P2). destruct (P2 H3) as (a' & RA' & U & K). rewrite <- (U a RA) in *. clear a' RA' U P2.
  pose proof HA as (_ & HX & H23 & HG & _).
  assert (CN : forall a, (hi false ng G a - lo false ng G a + 1)%Z = og_Nx G a).
  { intros b. unfold lo, hi. cbn [andb]. destruct (HS b) as (_ & _ & Ee & _). lia. }
  assert (NP : forall a, (1 <= og_Nx G a)%Z) by (intros b; apply HS).
  assert (N2 : (1 < og_Nx G X2)%Z). { pose proof (NP X2). destruct (Z.eq_dec (og_Nx G X2) 1) as [C|]; [|lia]. apply HG in C. lia. }
  assert (N3 : (1 < og_Nx G X3)%Z). { pose proof (NP X3). destruct (Z.eq_dec (og_Nx G X3) 1) as [C|]; [|lia]. apply HG in C. lia. }
  assert (OUT : forall n1 n2 D n, (1 <= n)%Z -> og_MaxX G a <= from_ (plane_file G o n1 n2 D) a n).
  { intros n1 n2 D n Hn. rewrite plane_wide by assumption. apply IZR_le in Hn. pose proof (width G HS a) as W. destruct (HS a) as (DX & NX & _). apply IZR_le in NX.
    assert (0 <= og_MaxX G a - p_MinX (og_p G) a) by (rewrite <- W; apply Rmult_le_pos; lra). nra. }
  destruct Ha as [-> | ->]; cbn [others] in *; destruct K as (_ & K); destruct (K M) as (ks & ke & D & T & E & HD); rewrite !CN in E;
    destruct (plane_of _ _ _ _ _ g _ _ _ H2 E) as (g' & EV); (eexists; exists g', ks, ke; split; [exact EV|]);
    rewrite !plane_cells by apply NP; (split; [split; [reflexivity|split; [reflexivity|]]; intros v I; rewrite plane_value by (try apply NP; exact I); rewrite HD; reflexivity|]);
    (split; [cbn [three]; lia|]); apply OUT.
Qed.
Print Assumptions C107_other_planes_refuted.

(** Refuted with ghost cells (WRITE_GHOST_CELLS): the origin is that of the first active cell, so each value is placed [ng]
    cells too far. *)
Theorem C107_ghost_refuted : forall ng G o expr Nx g, (0 < ng)%Z -> sound_grid G -> accepted_output Nx o G -> sl_ndim o = 3%Z -> (1 < og_Nx G X1)%Z ->
  exists V g', output_vtk_grid true ng G o expr g = Ok (Some V, g') /\ (forall a, cells V a = og_Nx G a + 2 * ng)%Z /\
  forall v, inside (cells V) v -> let c := fun a => (p_s (og_p G) a - ng + v a)%Z in
    value_at V v = Some (expr (c X1) (c X2) (c X3)) /\
    forall a, from_ V a (v a) = face (og_p G) a (c a + ng).
Proof.
  intros ng G o expr Nx g HN HS HA H3 H1. destruct (volume_any true ng G o expr Nx g ltac:(lia) HS HA H3) as (V & g' & E & C & N & K).
  assert (BIG : forall a, (1 < og_Nx G a)%Z).
  { pose proof HA as (HD & HX & _ & HG & _). unfold slice_ndim in HD. rewrite H3 in HD. intros a.
    destruct (1 <? Nx X2)%Z eqn:N2, (1 <? Nx X3)%Z eqn:N3; destruct (sl_red o X1), (sl_red o X2), (sl_red o X3); cbn in HD; try discriminate HD.
    apply Z.ltb_lt in N2, N3. destruct a; [exact H1| |].
    - destruct (HS X2) as (_ & P & _); destruct (Z.eq_dec (og_Nx G X2) 1) as [Q|]; [apply HG in Q; lia|lia].
    - destruct (HS X3) as (_ & P & _); destruct (Z.eq_dec (og_Nx G X3) 1) as [Q|]; [apply HG in Q; lia|lia]. }
  assert (LO : forall a, lo true ng G a = (p_s (og_p G) a - ng)%Z).
  { intros a. unfold lo. cbn [andb]. rewrite (proj2 (Z.ltb_lt _ _) (BIG a)). reflexivity. }
  exists V, g'. split; [exact E|]. split.
  { intros a. rewrite N, LO. unfold hi. cbn [andb]. rewrite (proj2 (Z.ltb_lt _ _) (BIG a)). destruct (HS a) as (_ & _ & Ee & _). lia. }
  intros v I c. destruct (K v I) as (K1 & K2). split.
  - rewrite K1. unfold at_cell, c. rewrite !LO. reflexivity.
  - intros a. rewrite (proj1 (K2 a)). f_equal. unfold c. lia.
Qed.
Print Assumptions C107_ghost_refuted.

(** ** The range of values reported at the end of the run *)
Definition within (g : R * R) (x : R) : Prop := fst g <= x <= snd g.
(** [g'] is the smallest range that holds [g] and the values [xs]. *)
Definition joined (g : R * R) (xs : list R) (g' : R * R) : Prop :=
  fst g' <= fst g /\ snd g <= snd g' /\ (forall x, In x xs -> within g' x) /\
  (fst g' = fst g \/ In (fst g') xs) /\ (snd g' = snd g \/ In (snd g') xs).
Lemma track_joined : forall g xs d, In (fst d) xs -> In (snd d) xs -> (forall x, In x xs -> within d x) -> joined g xs (track g d).
Proof.
  intros [gl gu] xs [dl du] Hl Hu H. unfold joined, within, track in *. cbn [fst snd] in *.
  assert (A : MIN dl gl <= gl /\ MIN dl gl <= dl /\ (MIN dl gl = gl \/ MIN dl gl = dl)) by (unfold MIN; destruct (Rlt_dec dl gl); lra).
  assert (B : gu <= MAX du gu /\ du <= MAX du gu /\ (MAX du gu = gu \/ MAX du gu = du)) by (unfold MAX; destruct (Rlt_dec gu du); lra).
  split; [tauto|]. split; [tauto|]. split; [intros x I; specialize (H x I); lra|].
  split; [destruct A as (_ & _ & [-> | ->])|destruct B as (_ & _ & [-> | ->])]; auto.
Qed.
Lemma in_zr : forall n i, In i (zr 0 (n - 1)) <-> (0 <= i < n)%Z.
Proof.
  intros n i. unfold zr. rewrite in_map_iff. split.
  - intros (m & <- & I). apply in_seq in I. lia.
  - intros I. exists (Z.to_nat i). split; [lia|]. apply in_seq. lia.
Qed.
Lemma joined_trans : forall g xs g' ys g'', joined g xs g' -> joined g' ys g'' -> joined g (xs ++ ys) g''.
Proof.
  intros g xs g' ys g'' (A1 & A2 & A3 & A4 & A5) (B1 & B2 & B3 & B4 & B5). unfold joined, within in *.
  split; [lra|]. split; [lra|]. split.
  - intros x I. apply in_app_iff in I. destruct I as [I|I]; [specialize (A3 x I); lra|auto].
  - split.
    + destruct B4 as [-> |B4]; [destruct A4 as [-> |A4]; [auto|]|]; right; apply in_app_iff; auto.
    + destruct B5 as [-> |B5]; [destruct A5 as [-> |A5]; [auto|]|]; right; apply in_app_iff; auto.
Qed.
Lemma joined_nil : forall g, joined g [] g.
Proof. intros g. unfold joined. split; [lra|]. split; [lra|]. split; [intros x []|auto]. Qed.
Definition data_of (f : option vtkone) : list R := match f with Some V => vo_data V | None => [] end.
Lemma grid_joined : forall wg ng G o expr Nx g f g', (0 <= ng)%Z -> sound_grid G -> accepted_output Nx o G ->
  output_vtk_grid wg ng G o expr g = Ok (f, g') -> joined g (data_of f) g'.
Proof.
  intros wg ng G o expr Nx g f g' HN HS HA. unfold output_vtk_grid. pose proof (count_pos wg ng G HN HS) as CP.
  destruct (sl_ndim o =? 3)%Z eqn:E3; [|destruct (sl_ndim o =? 2)%Z eqn:E2; [|discriminate]].
  - apply Z.eqb_eq in E3. destruct (C86_volume wg ng G o expr Nx HA E3) as (D & E & _). unfold output_vtk_3d. rewrite E. cbn [bind]. intros H. injection H as <- <-.
    cbn [data_of vo_data]. pose proof (CP X1) as P1. pose proof (CP X2) as P2. pose proof (CP X3) as P3. clear E.
    set (n1 := (hi wg ng G X1 - lo wg ng G X1 + 1)%Z) in *. set (n2 := (hi wg ng G X2 - lo wg ng G X2 + 1)%Z) in *. set (n3 := (hi wg ng G X3 - lo wg ng G X3 + 1)%Z) in *.
    pose proof (C48_minmax3 D n3 n2 n1 P3 P2 P1) as MM. destruct (minmax3 D n3 n2 n1) as [dl du]. destruct MM as ((k & j & i & K & J & I & <-) & (k' & j' & i' & K' & J' & I' & <-) & B).
    apply track_joined; cbn [fst snd].
    + apply in_flat_map. exists k. rewrite in_zr. split; [exact K|]. apply in_flat_map. exists j. rewrite in_zr. split; [exact J|]. apply in_map_iff. exists i. rewrite in_zr. auto.
    + apply in_flat_map. exists k'. rewrite in_zr. split; [exact K'|]. apply in_flat_map. exists j'. rewrite in_zr. split; [exact J'|]. apply in_map_iff. exists i'. rewrite in_zr. auto.
    + intros x X. apply in_flat_map in X. destruct X as (c & Hc & X). apply in_flat_map in X. destruct X as (b & Hb & X). apply in_map_iff in X. destruct X as (a & <- & Ha).
      rewrite in_zr in *. apply B; assumption.
  - apply Z.eqb_eq in E2. unfold output_vtk_2d.
    assert (SZ : forall n1 n2 D, OutData2 wg ng G o expr = Ok (Some (n1, n2, D)) -> (1 <= n1)%Z /\ (1 <= n2)%Z).
    { intros n1 n2 D E. destruct (C86_plane wg ng G o expr Nx HN HS HA E2) as (Q1 & Q2). pose proof HA as (_ & HX & _). destruct (Z.eq_dec (Nx X3) 1) as [N|N].
      - destruct (Q1 N) as (D' & E' & _). rewrite E in E'. injection E' as -> -> _. split; apply CP.
      - destruct (Q2 ltac:(pose proof (HX X3); lia)) as (a & _ & _ & K). destruct (others a) as [b c]. destruct K as (K1 & K2).
        destruct (out_of_range G o a) eqn:O; [rewrite K1 in E by (apply oor; exact O); discriminate|].
        destruct (K2 (proj1 (oor_false _ _ _) O)) as (ks & ke & D' & _ & E' & _). rewrite E in E'. injection E' as -> -> _. split; apply CP. }
    destruct (OutData2 wg ng G o expr) as [[[[n1 n2] D]|]| |] eqn:E; cbn [bind]; try discriminate; intros H; injection H as <- <-; [|apply joined_nil].
    destruct (SZ n1 n2 D eq_refl) as (P1 & P2). cbn [data_of vo_data].
    pose proof (C48_minmax2 D n2 n1 P2 P1) as MM. destruct (minmax2 D n2 n1) as [dl du]. destruct MM as ((j & i & J & I & <-) & (j' & i' & J' & I' & <-) & B).
    apply track_joined; cbn [fst snd].
    + apply in_flat_map. exists j. rewrite in_zr. split; [exact J|]. apply in_map_iff. exists i. rewrite in_zr. auto.
    + apply in_flat_map. exists j'. rewrite in_zr. split; [exact J'|]. apply in_map_iff. exists i'. rewrite in_zr. auto.
    + intros x X. apply in_flat_map in X. destruct X as (b & Hb & X). apply in_map_iff in X. destruct X as (a & <- & Ha). rewrite in_zr in *. apply B; assumption.
Qed.

(** ** The whole mesh *)
(** Domain [nd] of level [nl] has a Grid [G] on this process. *)
Definition grid_of (mesh : list (list (option ogrid))) (nl nd : Z) (G : ogrid) : Prop :=
  (0 <= nl)%Z /\ (0 <= nd)%Z /\ exists ds, nth_error mesh (Z.to_nat nl) = Some ds /\ nth_error ds (Z.to_nat nd) = Some (Some G).
(** -1 is every level, or every Domain. *)
Definition asked (want n : Z) : Prop := want = (-1)%Z \/ want = n.
Definition values (files : list (Z * Z * vtkone)) : list R := flat_map (fun f => vo_data (snd f)) files.

Section MeshProofs.
Variables (wg : bool) (ng : Z) (o : slice) (nlevel ndomain : Z) (expr : Z -> Z -> Z -> Z -> Z -> R) (Nx : axis -> Z).
Hypothesis (HN : (0 <= ng)%Z).
Notation good G := (sound_grid G /\ accepted_output Nx o G).
Lemma wanted_asked : forall nl nd, wanted nlevel ndomain nl nd = true <-> asked nlevel nl /\ asked ndomain nd.
Proof. intros. unfold wanted, asked. rewrite andb_true_iff, !orb_true_iff, !Z.eqb_eq. tauto. Qed.
Lemma one_ok : forall nl nd d g fs g', one_domain wg ng o nlevel ndomain expr nl nd d g = Ok (fs, g') ->
  (forall x y V, In (x, y, V) fs <-> x = nl /\ y = nd /\ exists G, d = Some G /\ asked nlevel nl /\ asked ndomain nd /\ exists r r', output_vtk_grid wg ng G o (expr nl nd) r = Ok (Some V, r')) /\
  ((forall G, d = Some G -> good G) -> joined g (values fs) g').
Proof.
  intros nl nd d g fs g' H. unfold one_domain in H. destruct d as [G|].
  2:{ injection H as <- <-. split; [|intros _; apply joined_nil]. intros x y V. split; [intros []|]. intros (_ & _ & G & C & _). discriminate. }
  destruct (wanted nlevel ndomain nl nd) eqn:W.
  2:{ injection H as <- <-. split; [|intros _; apply joined_nil]. intros x y V. split; [intros []|]. intros (_ & _ & G' & C & A1 & A2 & _). rewrite (proj2 (wanted_asked nl nd)) in W by auto. discriminate. }
  apply wanted_asked in W. destruct (output_vtk_grid wg ng G o (expr nl nd) g) as [[f r]| |] eqn:E; cbn [bind] in H; try discriminate. injection H as <- <-.
  assert (UNI : forall r1 r1' V r2 r2' f2, output_vtk_grid wg ng G o (expr nl nd) r1 = Ok (Some V, r1') -> output_vtk_grid wg ng G o (expr nl nd) r2 = Ok (f2, r2') -> f2 = Some V).
  { intros r1 r1' V r2 r2' f2 Q1 Q2. unfold output_vtk_grid, output_vtk_3d, output_vtk_2d in Q1, Q2.
    destruct (sl_ndim o =? 3)%Z; [destruct (OutData3 wg ng G o (expr nl nd)) as [[[[? ?] ?] ?]| |]; cbn [bind] in *; congruence|].
    destruct (sl_ndim o =? 2)%Z; [|discriminate]. destruct (OutData2 wg ng G o (expr nl nd)) as [[[[? ?] ?]|]| |]; cbn [bind] in *; congruence. }
  split.
  - intros x y V. split.
    + intros I. destruct f as [V'|]; [|destruct I]. destruct I as [I|[]]. injection I as <- <- <-. split; [auto|]. split; [auto|]. exists G. repeat split; try tauto. eauto.
    + intros (-> & -> & G' & EG & _ & _ & r1 & r1' & Q). injection EG as <-. rewrite (UNI _ _ _ _ _ _ Q E). left. reflexivity.
  - intros HG. destruct (HG G eq_refl) as (HS & HA). pose proof (grid_joined _ _ _ _ _ Nx _ _ _ HN HS HA E) as J. destruct f; cbn [data_of] in J; unfold values; cbn [flat_map snd]; [rewrite app_nil_r|]; exact J.
Qed.
Lemma values_app : forall a b, values (a ++ b) = values a ++ values b.
Proof. intros. unfold values. apply flat_map_app. Qed.
Lemma dom_ok : forall ds nl nd g fs g', domain_loop wg ng o nlevel ndomain expr nl nd ds g = Ok (fs, g') ->
  (forall x y V, In (x, y, V) fs <-> x = nl /\ (nd <= y)%Z /\ exists G, nth_error ds (Z.to_nat (y - nd)) = Some (Some G) /\ asked nlevel nl /\ asked ndomain y /\ exists r r', output_vtk_grid wg ng G o (expr nl y) r = Ok (Some V, r')) /\
  ((forall G, In (Some G) ds -> good G) -> joined g (values fs) g').
Proof.
  induction ds as [|d ds IH]; intros nl nd g fs g' H; cbn [domain_loop] in H.
  - injection H as <- <-. split; [|intros _; apply joined_nil]. intros x y V. split; [intros []|]. intros (_ & _ & G & C & _). destruct (Z.to_nat (y - nd)); discriminate.
  - destruct (one_domain wg ng o nlevel ndomain expr nl nd d g) as [[f r]| |] eqn:E1; cbn [bind] in H; try discriminate.
    destruct (domain_loop wg ng o nlevel ndomain expr nl (nd + 1) ds r) as [[fs' r']| |] eqn:E2; cbn [bind] in H; try discriminate. injection H as <- <-.
    destruct (one_ok _ _ _ _ _ _ E1) as (A1 & A2). destruct (IH _ _ _ _ _ E2) as (B1 & B2). split.
    + intros x y V. rewrite in_app_iff, A1, B1. split.
      * intros [(-> & -> & G & -> & K)|(-> & L & G & EN & K)].
        -- split; [auto|]. split; [lia|]. exists G. rewrite Z.sub_diag. split; [reflexivity|exact K].
        -- split; [auto|]. split; [lia|]. exists G. replace (Z.to_nat (y - nd)) with (S (Z.to_nat (y - (nd + 1)))) by lia. split; [exact EN|exact K].
      * intros (-> & L & G & EN & K). destruct (Z.eq_dec y nd) as [->|NE].
        -- left. rewrite Z.sub_diag in EN. injection EN as ->. eauto 10.
        -- right. split; [auto|]. split; [lia|]. exists G. replace (Z.to_nat (y - nd)) with (S (Z.to_nat (y - (nd + 1)))) in EN by lia. split; [exact EN|exact K].
    + intros HG. rewrite values_app. apply joined_trans with r; [apply A2|apply B2]; intros G I; apply HG; [left|right]; auto.
Qed.
Lemma lev_ok : forall mesh nl g fs g', level_loop wg ng o nlevel ndomain expr nl mesh g = Ok (fs, g') ->
  (forall x y V, In (x, y, V) fs <-> (nl <= x)%Z /\ (0 <= y)%Z /\ exists ds G, nth_error mesh (Z.to_nat (x - nl)) = Some ds /\ nth_error ds (Z.to_nat y) = Some (Some G) /\ asked nlevel x /\ asked ndomain y /\ exists r r', output_vtk_grid wg ng G o (expr x y) r = Ok (Some V, r')) /\
  ((forall ds G, In ds mesh -> In (Some G) ds -> good G) -> joined g (values fs) g').
Proof.
  induction mesh as [|ds mesh IH]; intros nl g fs g' H; cbn [level_loop] in H.
  - injection H as <- <-. split; [|intros _; apply joined_nil]. intros x y V. split; [intros []|]. intros (_ & _ & ds & G & C & _). destruct (Z.to_nat (x - nl)); discriminate.
  - destruct (domain_loop wg ng o nlevel ndomain expr nl 0 ds g) as [[f r]| |] eqn:E1; cbn [bind] in H; try discriminate.
    destruct (level_loop wg ng o nlevel ndomain expr (nl + 1) mesh r) as [[fs' r']| |] eqn:E2; cbn [bind] in H; try discriminate. injection H as <- <-.
    destruct (dom_ok _ _ _ _ _ _ E1) as (A1 & A2). destruct (IH _ _ _ _ E2) as (B1 & B2). split.
    + intros x y V. rewrite in_app_iff, A1, B1. split.
      * intros [(-> & L & G & EN & K)|(L & Ly & ds' & G & E & EN & K)].
        -- split; [lia|]. split; [lia|]. exists ds, G. rewrite Z.sub_diag. split; [reflexivity|]. rewrite Z.sub_0_r in EN. split; [exact EN|exact K].
        -- split; [lia|]. split; [lia|]. exists ds', G. replace (Z.to_nat (x - nl)) with (S (Z.to_nat (x - (nl + 1)))) by lia. split; [exact E|]. split; [exact EN|exact K].
      * intros (L & Ly & ds' & G & E & EN & K). destruct (Z.eq_dec x nl) as [->|NE].
        -- left. rewrite Z.sub_diag in E. injection E as ->. split; [auto|]. split; [lia|]. exists G. rewrite Z.sub_0_r. split; [exact EN|exact K].
        -- right. split; [lia|]. split; [lia|]. exists ds', G. replace (Z.to_nat (x - nl)) with (S (Z.to_nat (x - (nl + 1)))) in E by lia. split; [exact E|]. split; [exact EN|exact K].
    + intros HG. rewrite values_app. apply joined_trans with r; [apply A2|apply B2]; intros; eapply HG; eauto; [left|right]; eauto.
Qed.
End MeshProofs.

(** One call: a file is written for a Domain exactly when this process has a Grid of it, the output block asks for its level and
    number, and the slice meets the Grid; the reported range grows by just the values written. *)
Theorem C107_files : forall wg ng o nlevel ndomain expr Nx mesh g files g', (0 <= ng)%Z ->
  (forall nl nd G, grid_of mesh nl nd G -> sound_grid G /\ accepted_output Nx o G) ->
  output_vtk wg ng o nlevel ndomain expr mesh g = Ok (files, g') ->
  (forall nl nd V, In (nl, nd, V) files <-> asked nlevel nl /\ asked ndomain nd /\
     exists G, grid_of mesh nl nd G /\ exists r r', output_vtk_grid wg ng G o (expr nl nd) r = Ok (Some V, r')) /\
  joined g (values files) g'.
Proof.
  intros wg ng o nlevel ndomain expr Nx mesh g files g' HN HG H. unfold output_vtk in H. destruct (lev_ok wg ng o nlevel ndomain expr Nx HN _ _ _ _ _ H) as (A & B). split.
  - intros nl nd V. rewrite A. rewrite Z.sub_0_r. unfold grid_of. split.
    + intros (L1 & L2 & ds & G & E1 & E2 & K1 & K2 & K3). split; [exact K1|]. split; [exact K2|]. exists G. split; [|exact K3]. eauto 6.
    + intros (K1 & K2 & G & (L1 & L2 & ds & E1 & E2) & K3). split; [exact L1|]. split; [exact L2|]. exists ds, G. auto.
  - apply B. intros ds G I1 I2. apply In_nth_error in I1, I2. destruct I1 as (a & E1), I2 as (b & E2). apply (HG (Z.of_nat a) (Z.of_nat b)).
    split; [lia|]. split; [lia|]. exists ds. rewrite !Nat2Z.id. auto.
Qed.
Print Assumptions C107_files.

(** A call does not fail if the output is two- or three-dimensional; one-dimensional output stops the run. *)
Theorem C107_works : forall wg ng o nlevel ndomain expr Nx mesh g, (0 <= ng)%Z ->
  (forall nl nd G, grid_of mesh nl nd G -> sound_grid G /\ accepted_output Nx o G) -> (2 <= sl_ndim o)%Z ->
  exists files g', output_vtk wg ng o nlevel ndomain expr mesh g = Ok (files, g').
Proof.
  intros wg ng o nlevel ndomain expr Nx mesh g HN HG H2.
  assert (ONE : forall G e r, sound_grid G -> accepted_output Nx o G -> exists f r', output_vtk_grid wg ng G o e r = Ok (f, r')).
  { intros G e r HS HA. assert (D : sl_ndim o = 3%Z \/ sl_ndim o = 2%Z).
    { destruct HA as (HD & _). unfold slice_ndim in HD. destruct (1 <? Nx X2)%Z, (1 <? Nx X3)%Z, (sl_red o X1), (sl_red o X2), (sl_red o X3); cbn in HD; try discriminate; injection HD as HD; lia. }
    destruct D as [D|D].
    - destruct (volume_any wg ng G o e Nx r HN HS HA D) as (V & r' & E & _). eauto.
    - destruct (C86_plane wg ng G o e Nx HN HS HA D) as (Q1 & Q2). pose proof HA as (_ & HX & _). destruct (Z.eq_dec (Nx X3) 1) as [N|N].
      + destruct (Q1 N) as (D' & E' & _). destruct (plane_of wg ng G o e r _ _ _ D E') as (r' & E). eauto.
      + destruct (Q2 ltac:(pose proof (HX X3); lia)) as (a & _ & _ & K). destruct (others a) as [b c]. destruct K as (K1 & K2).
        destruct (out_of_range G o a) eqn:O.
        * rewrite (plane_none wg ng G o e r D (K1 (proj1 (oor _ _ _) O))). eauto.
        * destruct (K2 (proj1 (oor_false _ _ _) O)) as (ks & ke & D' & _ & E' & _). destruct (plane_of wg ng G o e r _ _ _ D E') as (r' & E). eauto. }
  assert (DOM : forall ds nl nd r, (forall G, In (Some G) ds -> sound_grid G /\ accepted_output Nx o G) -> exists f r', domain_loop wg ng o nlevel ndomain expr nl nd ds r = Ok (f, r')).
  { induction ds as [|d ds IH]; intros nl nd r HD; cbn [domain_loop]; [eauto|].
    assert (O : exists f r', one_domain wg ng o nlevel ndomain expr nl nd d r = Ok (f, r')).
    { unfold one_domain. destruct d as [G|]; [|eauto]. destruct (wanted nlevel ndomain nl nd); [|eauto]. destruct (HD G (or_introl eq_refl)) as (HS & HA).
      destruct (ONE G (expr nl nd) r HS HA) as (f & r' & ->). cbn [bind]. eauto. }
    destruct O as (f & r' & ->). cbn [bind]. destruct (IH nl (nd + 1)%Z r') as (f' & r'' & ->); [intros G I; apply HD; right; exact I|]. cbn [bind]. eauto. }
  assert (LEV : forall ms nl r, (forall ds G, In ds ms -> In (Some G) ds -> sound_grid G /\ accepted_output Nx o G) -> exists f r', level_loop wg ng o nlevel ndomain expr nl ms r = Ok (f, r')).
  { induction ms as [|ds ms IH]; intros nl r HD; cbn [level_loop]; [eauto|].
    destruct (DOM ds nl 0%Z r) as (f & r' & ->); [intros G I; apply (HD ds); [left; auto|exact I]|]. cbn [bind].
    destruct (IH (nl + 1)%Z r') as (f' & r'' & ->); [intros ds' G I1 I2; apply (HD ds'); [right; auto|exact I2]|]. cbn [bind]. eauto. }
  apply LEV. intros ds G I1 I2. apply In_nth_error in I1, I2. destruct I1 as (a & E1), I2 as (b & E2). apply (HG (Z.of_nat a) (Z.of_nat b)).
  split; [lia|]. split; [lia|]. exists ds. rewrite !Nat2Z.id. auto.
Qed.
Print Assumptions C107_works.
(** One-dimensional output is refused. *)
Theorem C107_line : forall wg ng G o expr g, (sl_ndim o < 2)%Z -> output_vtk_grid wg ng G o expr g = Fatal.
Proof.
  intros wg ng G o expr g H. unfold output_vtk_grid. rewrite (proj2 (Z.eqb_neq (sl_ndim o) 3)), (proj2 (Z.eqb_neq (sl_ndim o) 2)) by lia. reflexivity.
Qed.
Print Assumptions C107_line.

(** The Grid of 8 x 8 x 8 cells of the unit box (C86): a volume, a plane across x3 and a plane across x2 meet the hypotheses.  In
    the file of the last, whose values are those at 0.3 <= x2 <= 0.6, the second row (1/8 <= x3 <= 1/4) is placed at 1 <= x2 <= 2. *)
Definition all_slice : slice := SL 3 (fun _ => 0) (fun _ => 1) (fun _ => false).
Definition x3_slice : slice := SL 2 (fun _ => 1/2) (fun _ => 1/2) (fun a => match a with X3 => true | _ => false end).
Lemma ex_sound : sound_grid ex_grid.
Proof. apply C86_example. Qed.
Example C107_volume_case : accepted_output (fun _ => 8%Z) all_slice ex_grid /\ sl_ndim all_slice = 3%Z.
Proof. split; [|reflexivity]. split; [reflexivity|]. split; [intros; lia|]. split; [intros; lia|]. split; [intros; cbn; lia|]. intros []; cbn; lra. Qed.
Example C107_plane_case : accepted_output (fun _ => 8%Z) x3_slice ex_grid /\ ~ misses ex_grid x3_slice X3 /\ sl_red x3_slice X1 = false /\ sl_red x3_slice X2 = false.
Proof.
  split; [|split; [unfold misses; cbn; lra|split; reflexivity]]. split; [reflexivity|]. split; [intros; lia|]. split; [intros; lia|]. split; [intros; cbn; lia|]. intros []; cbn; lra.
Qed.
Example C107_x2_case : forall expr g, exists V g', output_vtk_grid false 4 ex_grid ex_slice expr g = Ok (Some V, g') /\
  cells V X2 = 8%Z /\ from_ V X2 1 = 1 /\ to_ V X2 1 = 2.
Proof.
  intros expr g. destruct C86_example as (_ & _ & K). destruct (K expr) as (D & E & _).
  destruct (plane_of false 4 ex_grid ex_slice expr g 8%Z 8%Z D eq_refl E) as (g' & EV). eexists. exists g'. split; [exact EV|].
  split; [apply plane_cells; lia|]. unfold to_. rewrite !plane_wide by (try exact ex_sound; reflexivity). cbn. lra.
Qed.
(** Two levels with a Grid each; the output block asks for level 1. *)
Example C107_files_case : forall expr g, exists V g', output_vtk false 4 all_slice 1 (-1) expr [[Some ex_grid]; [None; Some ex_grid]] g = Ok ([(1%Z, 1%Z, V)], g').
Proof.
  intros expr g. destruct C107_volume_case as (HA & H3).
  destruct (volume_any false 4 ex_grid all_slice (expr 1%Z 1%Z) (fun _ => 8%Z) g ltac:(lia) ex_sound HA H3) as (V & g' & E & _).
  exists V, g'. unfold output_vtk. cbn [level_loop domain_loop one_domain bind]. change (wanted 1 (-1) 0 0) with false. cbn [bind app].
  change (0 + 1)%Z with 1%Z. change (wanted 1 (-1) 1 1) with true. cbn [bind]. rewrite E. reflexivity.
Qed.
