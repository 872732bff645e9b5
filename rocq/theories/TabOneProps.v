(** * C110: tables of one variable *)
From Coq Require Import ZArith List Bool Reals Lia Lra.
From Verif Require Import CStr MeshModel PosModel PosProps GasModel UtilModel UtilProps VtkModel ImageModel ImageProps SliceModel SliceSpec SliceProps IntegSpec VtkOneModel VtkOneProps TabOneModel TabOneSpec HistMain.
Import ListNotations.
Open Scope R_scope.

Lemma float_exact : forall n, (0 <= n < 2 ^ 24)%Z -> to_float n = n.
Proof.
  intros n H. unfold to_float. cbv zeta. assert (L : (Z.log2 n < 24)%Z).
  { destruct (Z.eq_dec n 0) as [->|N]; [cbn; lia|]. apply Z.log2_lt_pow2; lia. }
  rewrite (proj2 (Z.leb_le _ _)) by lia. reflexivity.
Qed.
Section Layout.
Variable A : Type.
Lemma line_at : forall (f : Z -> A) n i, (0 <= i < n)%Z -> nth_error (map f (zr 0 (n - 1))) (Z.to_nat i) = Some (f i).
Proof. intros f n i H. rewrite nth_error_map, zr_nth by lia. cbn [option_map]. rewrite Z2Nat.id by lia. reflexivity. Qed.
Lemma line_len : forall (f : Z -> A) n, length (map f (zr 0 (n - 1))) = Z.to_nat n.
Proof. intros. rewrite map_length. apply zr_len0. Qed.
Lemma sheet_at : forall (D : Z -> Z -> A) n1 n2 j i, (0 <= i < n1)%Z -> (0 <= j < n2)%Z ->
  nth_error (flat_map (fun j => map (D j) (zr 0 (n1 - 1))) (zr 0 (n2 - 1))) (Z.to_nat j * Z.to_nat n1 + Z.to_nat i) = Some (D j i).
Proof.
  intros D n1 n2 j i I J. rewrite (nth_flat _ _ _ (Z.to_nat n1)); [|intros; apply line_len|lia]. rewrite zr_nth by lia. rewrite Z2Nat.id by lia. apply line_at. exact I.
Qed.
Lemma sheet_len : forall (D : Z -> Z -> A) n1 n2, length (flat_map (fun j => map (D j) (zr 0 (n1 - 1))) (zr 0 (n2 - 1))) = (Z.to_nat n2 * Z.to_nat n1)%nat.
Proof. intros. apply rows_len. intros. apply line_len. Qed.
Lemma block_at : forall (D : Z -> Z -> Z -> A) n1 n2 n3 k j i, (0 <= i < n1)%Z -> (0 <= j < n2)%Z -> (0 <= k < n3)%Z ->
  nth_error (flat_map (fun k => flat_map (fun j => map (D k j) (zr 0 (n1 - 1))) (zr 0 (n2 - 1))) (zr 0 (n3 - 1))) (Z.to_nat ((k * n2 + j) * n1 + i)) = Some (D k j i).
Proof.
  intros D n1 n2 n3 k j i I J K.
  assert (Q : (0 <= (k * n2 + j) * n1)%Z) by (apply Z.mul_nonneg_nonneg; [apply Z.add_nonneg_nonneg; [apply Z.mul_nonneg_nonneg|]|]; lia).
  assert (P : Z.to_nat ((k * n2 + j) * n1 + i) = (Z.to_nat k * (Z.to_nat n2 * Z.to_nat n1) + (Z.to_nat j * Z.to_nat n1 + Z.to_nat i))%nat).
  { apply Nat2Z.inj. rewrite !Nat2Z.inj_add, !Nat2Z.inj_mul. rewrite !Z2Nat.id by lia. ring. }
  rewrite P. assert (B : (Z.to_nat j * Z.to_nat n1 + Z.to_nat i < Z.to_nat n2 * Z.to_nat n1)%nat) by (apply Nat.lt_le_trans with (S (Z.to_nat j) * Z.to_nat n1)%nat; [cbn [Nat.mul]; lia|apply Nat.mul_le_mono_r; lia]).
  rewrite (nth_flat _ _ _ (Z.to_nat n2 * Z.to_nat n1)); [|intros; apply sheet_len|exact B].
  rewrite zr_nth by lia. rewrite Z2Nat.id by lia. apply sheet_at; assumption.
Qed.
Lemma block_len : forall (D : Z -> Z -> Z -> A) n1 n2 n3,
  length (flat_map (fun k => flat_map (fun j => map (D k j) (zr 0 (n1 - 1))) (zr 0 (n2 - 1))) (zr 0 (n3 - 1))) = (Z.to_nat n3 * (Z.to_nat n2 * Z.to_nat n1))%nat.
Proof. intros. apply rows_len. intros. apply sheet_len. Qed.
End Layout.

Lemma tab1 : forall n D val, (n <= 2 ^ 24)%Z -> (forall i, D i = val i) -> lists1 (map (fun i => ([to_float i], D i)) (zr 0 (n - 1))) n val.
Proof.
  intros n D val B HV. split; [apply line_len|]. intros i I. rewrite (line_at _ (fun i => ([to_float i], D i)) n i I). rewrite float_exact by lia. rewrite HV. reflexivity.
Qed.
Lemma tab2 : forall n m D val, (1 <= n <= 2 ^ 24)%Z -> (1 <= m <= 2 ^ 24)%Z -> (forall i j, D j i = val i j) ->
  lists2 (flat_map (fun j => map (fun i => ([to_float i; to_float j], D j i)) (zr 0 (n - 1))) (zr 0 (m - 1))) n m val.
Proof.
  intros n m D val B1 B2 HV. split.
  - rewrite (sheet_len _ (fun j i => ([to_float i; to_float j], D j i))). rewrite Z2Nat.inj_mul by lia. apply Nat.mul_comm.
  - intros i j I J. replace (Z.to_nat (j * n + i)) with (Z.to_nat j * Z.to_nat n + Z.to_nat i)%nat
      by (rewrite Z2Nat.inj_add, Z2Nat.inj_mul by (try apply Z.mul_nonneg_nonneg; lia); reflexivity).
    rewrite (sheet_at _ (fun j i => ([to_float i; to_float j], D j i)) n m j i I J). rewrite !float_exact by lia. rewrite HV. reflexivity.
Qed.
Lemma tab3 : forall n m l D val, (1 <= n <= 2 ^ 24)%Z -> (1 <= m <= 2 ^ 24)%Z -> (1 <= l <= 2 ^ 24)%Z -> (forall i j k, D k j i = val i j k) ->
  lists3 (flat_map (fun k => flat_map (fun j => map (fun i => ([to_float i; to_float j; to_float k], D k j i)) (zr 0 (n - 1))) (zr 0 (m - 1))) (zr 0 (l - 1))) n m l val.
Proof.
  intros n m l D val B1 B2 B3 HV. split.
  - rewrite (block_len _ (fun k j i => ([to_float i; to_float j; to_float k], D k j i))). rewrite !Z2Nat.inj_mul by (try apply Z.mul_nonneg_nonneg; lia). ring.
  - intros i j k I J K. rewrite (block_at _ (fun k j i => ([to_float i; to_float j; to_float k], D k j i)) n m l k j i I J K). rewrite !float_exact by lia. rewrite HV. reflexivity.
Qed.
Lemma lo_first : forall wg ng G a, lo wg ng G a = first_cell wg ng G a.
Proof. intros. unfold lo, first_cell, extra. destruct (wg && _)%bool; lia. Qed.
Lemma hi_last : forall wg ng G a, sound_grid G -> hi wg ng G a = last_cell wg ng G a.
Proof. intros wg ng G a HS. destruct (HS a) as (_ & _ & E & _). unfold hi, last_cell, number, first_cell, extra. destruct (wg && _)%bool; lia. Qed.
Lemma count_number : forall wg ng G a, sound_grid G -> (hi wg ng G a - lo wg ng G a + 1 = number wg ng G a)%Z.
Proof. intros wg ng G a HS. rewrite (hi_last _ _ _ _ HS), lo_first. unfold last_cell. lia. Qed.
Lemma number_pos : forall wg ng G a, (0 <= ng)%Z -> sound_grid G -> (1 <= number wg ng G a)%Z.
Proof. intros wg ng G a HN HS. destruct (HS a) as (_ & N & _). unfold number, extra. destruct (wg && _)%bool; lia. Qed.

(** Three dimensions: a row for every cell. *)
Theorem C110_volume : forall wg ng num G o expr Nx g, (0 <= ng)%Z -> sound_grid G -> accepted_output Nx o G -> (forall a, number wg ng G a <= 2 ^ 24)%Z -> sl_ndim o = 3%Z ->
  exists rows g', output_tab_grid wg ng num G o expr g = Ok (Some rows, g') /\
  lists3 rows (number wg ng G X1) (number wg ng G X2) (number wg ng G X3) (fun i j k => expr (first_cell wg ng G X1 + i) (first_cell wg ng G X2 + j) (first_cell wg ng G X3 + k))%Z.
Proof.
  intros wg ng num G o expr Nx g HN HS HA HB H3. destruct (C86_volume wg ng G o expr Nx HA H3) as (D & E & HD). cbv beta in E. rewrite !(count_number wg ng G _ HS) in E.
  unfold output_tab_grid. rewrite H3. cbn [Z.eqb Pos.eqb]. unfold output_tab_3d. rewrite E. cbn [bind]. eexists. eexists. split; [reflexivity|].
  apply tab3; try (split; [apply number_pos; assumption|apply HB]). intros i j k. rewrite HD, !lo_first. reflexivity.
Qed.
Print Assumptions C110_volume.
(** A plane: all cells of a two-dimensional run; else, across the one axis the user reduces, the mean over the cells its range touches, if any. *)
Theorem C110_plane : forall wg ng num G o expr Nx g, (0 <= ng)%Z -> sound_grid G -> accepted_output Nx o G -> (forall a, number wg ng G a <= 2 ^ 24)%Z -> sl_ndim o = 2%Z ->
  ((Nx X3 = 1)%Z -> exists rows g', output_tab_grid wg ng num G o expr g = Ok (Some rows, g') /\
     lists2 rows (number wg ng G X1) (number wg ng G X2) (fun i j => expr (first_cell wg ng G X1 + i) (first_cell wg ng G X2 + j) (first_cell wg ng G X3))%Z) /\
  ((1 < Nx X3)%Z -> exists a, sl_red o a = true /\ (forall b, sl_red o b = true -> b = a) /\
     let (b, c) := others a in
     (misses G o a -> output_tab_grid wg ng num G o expr g = Ok (None, g)) /\
     (~ misses G o a -> exists rows g' ks ke, output_tab_grid wg ng num G o expr g = Ok (Some rows, g') /\
        touched G (first_cell wg ng G a) (last_cell wg ng G a) a (sl_l o a) (sl_u o a) ks ke /\
        lists2 rows (number wg ng G b) (number wg ng G c) (fun i j => mean ks ke (fun k => at_cell expr (put a k (first_cell wg ng G b + i) (first_cell wg ng G c + j)))))).
Proof.
  intros wg ng num G o expr Nx g HN HS HA HB H2. destruct (C86_plane wg ng G o expr Nx HN HS HA H2) as (P1 & P2).
  assert (NB : forall a, (1 <= number wg ng G a <= 2 ^ 24)%Z) by (intros a; split; [apply number_pos; assumption|apply HB]).
  unfold output_tab_grid. rewrite H2. cbn [Z.eqb Pos.eqb]. unfold output_tab_2d. split.
  - intros H. destruct (P1 H) as (D & E & HD). cbv beta in E. rewrite !(count_number wg ng G _ HS) in E. rewrite E. cbn [bind]. eexists. eexists. split; [reflexivity|].
    apply tab2; auto. intros i j. rewrite HD, !lo_first. reflexivity.
  - intros H. destruct (P2 H) as (a & RA & U & K). exists a. split; [exact RA|]. split; [exact U|]. destruct (others a) as [b c]. destruct K as (K1 & K2). split.
    + intros M. rewrite (K1 M). reflexivity.
    + intros M. destruct (K2 M) as (ks & ke & D & T & E & HD). cbv beta in E. rewrite !(count_number wg ng G _ HS) in E. rewrite E. cbn [bind]. eexists. eexists. exists ks, ke. split; [reflexivity|].
      rewrite lo_first, (hi_last _ _ _ _ HS) in T. split; [exact T|]. apply tab2; auto. intros i j. rewrite HD, !lo_first. reflexivity.
Qed.
Print Assumptions C110_plane.
(** A line: all cells of a one-dimensional run; else along the axis that is left, means over the cells that the ranges of the others touch. *)
Theorem C110_line : forall wg ng num G o expr Nx g, (0 <= ng)%Z -> sound_grid G -> accepted_output Nx o G -> (forall a, number wg ng G a <= 2 ^ 24)%Z -> sl_ndim o = 1%Z ->
  ((Nx X2 = 1)%Z -> exists rows g', output_tab_grid wg ng num G o expr g = Ok (Some rows, g') /\
     lists1 rows (number wg ng G X1) (fun i => expr (first_cell wg ng G X1 + i) (first_cell wg ng G X2) (first_cell wg ng G X3))%Z) /\
  ((1 < Nx X2)%Z -> exists a, sl_red o a = false /\ (a = X3 -> (1 < Nx X3)%Z) /\ (forall b, b <> a -> sl_red o b = true \/ (Nx b = 1)%Z) /\
     let (b, c) := others a in
     (misses G o b \/ misses G o c -> output_tab_grid wg ng num G o expr g = Ok (None, g)) /\
     (~ misses G o b -> ~ misses G o c -> exists rows g' bs be cs ce, output_tab_grid wg ng num G o expr g = Ok (Some rows, g') /\
        touched G (first_cell wg ng G b) (last_cell wg ng G b) b (sl_l o b) (sl_u o b) bs be /\ touched G (first_cell wg ng G c) (last_cell wg ng G c) c (sl_l o c) (sl_u o c) cs ce /\
        lists1 rows (number wg ng G a) (fun i => mean cs ce (fun z => mean bs be (fun y => at_cell expr (put a (first_cell wg ng G a + i) y z)))))).
Proof.
  intros wg ng num G o expr Nx g HN HS HA HB H1. destruct (C86_line wg ng G o expr Nx HN HS HA H1) as (P1 & P2).
  unfold output_tab_grid. rewrite H1. cbn [Z.eqb Pos.eqb]. unfold output_tab_1d. split.
  - intros H. destruct (P1 H) as (D & E & HD). cbv beta in E. rewrite !(count_number wg ng G _ HS) in E. rewrite E. cbn [bind]. eexists. eexists. split; [reflexivity|].
    apply tab1; auto. intros i. rewrite HD, !lo_first. reflexivity.
  - intros H. destruct (P2 H) as (a & RA & U & V & K). exists a. split; [exact RA|]. split; [exact U|]. split; [exact V|]. destruct (others a) as [b c]. destruct K as (K1 & K2). split.
    + intros M. rewrite (K1 M). reflexivity.
    + intros M N. destruct (K2 M N) as (bs & be & cs & ce & D & T1 & T2 & E & HD). cbv beta in E. rewrite !(count_number wg ng G _ HS) in E. rewrite E. cbn [bind]. eexists. eexists. exists bs, be, cs, ce. split; [reflexivity|].
      rewrite lo_first, (hi_last _ _ _ _ HS) in T1. rewrite lo_first, (hi_last _ _ _ _ HS) in T2. split; [exact T1|]. split; [exact T2|]. apply tab1; auto. intros i. rewrite HD, !lo_first. reflexivity.
Qed.
Print Assumptions C110_line.

(** Refuted for lines of more than 2^24 cells: indices are converted to float, and cells 2^24 and 2^24 + 1 have the same. *)
Theorem C110_index_refuted : forall ng num G o expr Nx g, (0 <= ng)%Z -> sound_grid G -> accepted_output Nx o G -> sl_ndim o = 1%Z -> (Nx X2 = 1)%Z -> (2 ^ 24 + 2 <= og_Nx G X1)%Z ->
  let at_ n := expr (p_s (og_p G) X1 + n)%Z (p_s (og_p G) X2) (p_s (og_p G) X3) in
  exists rows g', output_tab_grid false ng num G o expr g = Ok (Some rows, g') /\
  nth_error rows (Z.to_nat (2 ^ 24)) = Some ([2 ^ 24]%Z, at_ (2 ^ 24)%Z) /\ nth_error rows (Z.to_nat (2 ^ 24 + 1)) = Some ([2 ^ 24]%Z, at_ (2 ^ 24 + 1)%Z).
Proof.
  intros ng num G o expr Nx g HN HS HA H1 N2 HB at_. destruct (C86_line false ng G o expr Nx HN HS HA H1) as (P1 & _). destruct (P1 N2) as (D & E & HD). cbv beta in E.
  rewrite (count_number false ng G _ HS) in E. assert (NE : number false ng G X1 = og_Nx G X1) by (unfold number, extra; cbn [andb]; lia). rewrite NE in E.
  unfold output_tab_grid. rewrite H1. cbn [Z.eqb Pos.eqb]. unfold output_tab_1d. rewrite E. cbn [bind]. eexists. eexists. split; [reflexivity|].
  assert (F1 : to_float (2 ^ 24) = (2 ^ 24)%Z) by (vm_compute; reflexivity). assert (F2 : to_float (2 ^ 24 + 1) = (2 ^ 24)%Z) by (vm_compute; reflexivity).
  rewrite !(line_at _ (fun i => ([to_float i], D i)) (og_Nx G X1)) by lia. rewrite F1, F2, !HD, !lo_first. unfold first_cell, extra, at_. cbn [andb]. rewrite !Z.sub_0_r. split; reflexivity.
Qed.
Print Assumptions C110_index_refuted.

(** The range reported at the end of the run grows to hold the values of the file; the first file of a plane or volume starts it anew (see C96 for what that means with several Grids). *)
Definition spans (g : R * R) (xs : list R) : Prop := In (fst g) xs /\ In (snd g) xs /\ forall x, In x xs -> within g x.
Lemma track_num_spans : forall num g xs d, spans d xs -> (num = 0%nat -> spans (track_num num g d) xs) /\ (num <> 0%nat -> joined g xs (track_num num g d)).
Proof.
  intros num g xs d (A & B & C). split; intros H; [subst num; exact (conj A (conj B C))|]. destruct num; [congruence|]. apply track_joined; assumption.
Qed.
Theorem C110_range : forall wg ng num G o expr Nx g rows g', (0 <= ng)%Z -> sound_grid G -> accepted_output Nx o G ->
  output_tab_grid wg ng num G o expr g = Ok (Some rows, g') ->
  (num = 0%nat /\ sl_ndim o <> 1%Z -> spans g' (map snd rows)) /\ (num <> 0%nat \/ sl_ndim o = 1%Z -> joined g (map snd rows) g').
Proof.
  intros wg ng num G o expr Nx g rows g' HN HS HA. unfold output_tab_grid. assert (NP : forall a, (1 <= number wg ng G a)%Z) by (intros; apply number_pos; assumption).
  destruct (Z.eqb_spec (sl_ndim o) 3) as [E3|E3]; [|destruct (Z.eqb_spec (sl_ndim o) 2) as [E2|E2]; [|destruct (Z.eqb_spec (sl_ndim o) 1) as [E1|E1]; [|discriminate]]].
  - destruct (C86_volume wg ng G o expr Nx HA E3) as (D & E & _). cbv beta in E. rewrite !(count_number wg ng G _ HS) in E. unfold output_tab_3d. rewrite E. cbn [bind]. intros H. injection H as <- <-.
    pose proof (C48_minmax3 D _ _ _ (NP X3) (NP X2) (NP X1)) as MM. destruct (minmax3 D _ _ _) as [dl du]. destruct MM as ((k & j & i & K & J & I & <-) & (k' & j' & i' & K' & J' & I' & <-) & B).
    match goal with |- context [map snd ?r] => assert (IN : forall x, In x (map snd r) <-> exists k j i, (0 <= k < number wg ng G X3)%Z /\ (0 <= j < number wg ng G X2)%Z /\ (0 <= i < number wg ng G X1)%Z /\ D k j i = x) end.
    { intros x. rewrite in_map_iff. split.
      - intros ((ix & y) & <- & Q). apply in_flat_map in Q. destruct Q as (c & Hc & Q). apply in_flat_map in Q. destruct Q as (b & Hb & Q). apply in_map_iff in Q. destruct Q as (a & [= _ <-] & Ha).
        apply in_zr in Ha. apply in_zr in Hb. apply in_zr in Hc. exists c, b, a. auto.
      - intros (c & b & a & Hc & Hb & Ha & <-). exists ([to_float a; to_float b; to_float c], D c b a). split; [reflexivity|]. apply in_flat_map. exists c. rewrite in_zr. split; [exact Hc|].
        apply in_flat_map. exists b. rewrite in_zr. split; [exact Hb|]. apply in_map_iff. exists a. rewrite in_zr. auto. }
    match goal with |- context [map snd ?r] => pose proof (track_num_spans num g (map snd r) (D k j i, D k' j' i')) as T; set (xs := map snd r) in * end.
    destruct T as (T1 & T2). { split; [apply IN; exists k, j, i; auto|]. split; [apply IN; exists k', j', i'; auto|]. intros x X. apply IN in X. destruct X as (c & b & a & Hc & Hb & Ha & <-). apply B; assumption. }
    split; [intros (N & _); apply T1; exact N|intros [N|N]; [apply T2; exact N|congruence]].
  - unfold output_tab_2d.
    assert (SZ : forall n1 n2 D, OutData2 wg ng G o expr = Ok (Some (n1, n2, D)) -> (1 <= n1)%Z /\ (1 <= n2)%Z).
    { intros n1 n2 D E. destruct (C86_plane wg ng G o expr Nx HN HS HA E2) as (Q1 & Q2). pose proof HA as (_ & HX & _). pose proof (count_pos wg ng G HN HS) as CP. destruct (Z.eq_dec (Nx X3) 1) as [N|N].
      - destruct (Q1 N) as (D' & E' & _). rewrite E in E'. injection E' as -> -> _. split; apply CP.
      - destruct (Q2 ltac:(pose proof (HX X3); lia)) as (a & _ & _ & K). destruct (others a) as [b c]. destruct K as (K1 & K2).
        destruct (out_of_range G o a) eqn:O; [rewrite K1 in E by (apply oor; exact O); discriminate|].
        destruct (K2 (proj1 (oor_false _ _ _) O)) as (ks & ke & D' & _ & E' & _). rewrite E in E'. injection E' as -> -> _. split; apply CP. }
    destruct (OutData2 wg ng G o expr) as [[[[n1 n2] D]|]| |] eqn:E; cbn [bind]; try discriminate; intros H; injection H as <- <-.
    destruct (SZ n1 n2 D eq_refl) as (P1 & P2).
    pose proof (C48_minmax2 D n2 n1 P2 P1) as MM. destruct (minmax2 D n2 n1) as [dl du]. destruct MM as ((j & i & J & I & <-) & (j' & i' & J' & I' & <-) & B).
    match goal with |- context [map snd ?r] => assert (IN : forall x, In x (map snd r) <-> exists j i, (0 <= j < n2)%Z /\ (0 <= i < n1)%Z /\ D j i = x) end.
    { intros x. rewrite in_map_iff. split.
      - intros ((ix & y) & <- & Q). apply in_flat_map in Q. destruct Q as (b & Hb & Q). apply in_map_iff in Q. destruct Q as (a & [= _ <-] & Ha).
        apply in_zr in Ha. apply in_zr in Hb. exists b, a. auto.
      - intros (b & a & Hb & Ha & <-). exists ([to_float a; to_float b], D b a). split; [reflexivity|]. apply in_flat_map. exists b. rewrite in_zr. split; [exact Hb|]. apply in_map_iff. exists a. rewrite in_zr. auto. }
    match goal with |- context [map snd ?r] => pose proof (track_num_spans num g (map snd r) (D j i, D j' i')) as T; set (xs := map snd r) in * end.
    destruct T as (T1 & T2). { split; [apply IN; exists j, i; auto|]. split; [apply IN; exists j', i'; auto|]. intros x X. apply IN in X. destruct X as (b & a & Hb & Ha & <-). apply B; assumption. }
    split; [intros (N & _); apply T1; exact N|intros [N|N]; [apply T2; exact N|congruence]].
  - unfold output_tab_1d.
    assert (SZ : forall n1 D, OutData1 wg ng G o expr = Ok (Some (n1, D)) -> (1 <= n1)%Z).
    { intros n1 D E. destruct (C86_line wg ng G o expr Nx HN HS HA E1) as (Q1 & Q2). pose proof HA as (_ & HX & _). pose proof (count_pos wg ng G HN HS) as CP. destruct (Z.eq_dec (Nx X2) 1) as [N|N].
      - destruct (Q1 N) as (D' & E' & _). rewrite E in E'. injection E' as -> _. apply CP.
      - destruct (Q2 ltac:(pose proof (HX X2); lia)) as (a & _ & _ & _ & K). destruct (others a) as [b c]. destruct K as (K1 & K2).
        destruct (out_of_range G o b) eqn:O1; [rewrite K1 in E by (left; apply oor; exact O1); discriminate|].
        destruct (out_of_range G o c) eqn:O2; [rewrite K1 in E by (right; apply oor; exact O2); discriminate|].
        destruct (K2 (proj1 (oor_false _ _ _) O1) (proj1 (oor_false _ _ _) O2)) as (bs & be & cs & ce & D' & _ & _ & E' & _). rewrite E in E'. injection E' as -> _. apply CP. }
    destruct (OutData1 wg ng G o expr) as [[[n1 D]|]| |] eqn:E; cbn [bind]; try discriminate; intros H; injection H as <- <-.
    pose proof (C48_minmax1 D n1 (SZ n1 D eq_refl)) as MM. destruct (minmax1 D n1) as [dl du]. destruct MM as ((i & I & <-) & (i' & I' & <-) & B).
    split; [intros (_ & C); congruence|]. intros _. rewrite map_map. cbn [snd]. apply track_joined; cbn [fst snd].
    + apply in_map_iff. exists i. rewrite in_zr. auto.
    + apply in_map_iff. exists i'. rewrite in_zr. auto.
    + intros x X. apply in_map_iff in X. destruct X as (a & <- & Ha). apply in_zr in Ha. apply B. exact Ha.
Qed.
Print Assumptions C110_range.

Example C110_volume_case : forall a, (number true 4 ex_grid a = 16 /\ first_cell true 4 ex_grid a = 0 /\ number true 4 ex_grid a <= 2 ^ 24)%Z.
Proof. intros []; cbn; lia. Qed.
(** The line x2 = x3 = 1/2 of the Grid of 8 cells a side; a value that is the same everywhere is tabulated as it is. *)
Definition x1_line : slice := SL 1 (fun _ => 1/2) (fun _ => 1/2) (fun a => match a with X1 => false | _ => true end).
Example C110_line_case : accepted_output (fun _ => 8%Z) x1_line ex_grid /\ ~ misses ex_grid x1_line X2 /\ ~ misses ex_grid x1_line X3 /\
  exists rows g', output_tab_grid false 4 1 ex_grid x1_line (fun i _ _ => IZR i) (0, 0) = Ok (Some rows, g') /\ nth_error rows 3 = Some ([3%Z], 7).
Proof.
  assert (HA : accepted_output (fun _ => 8%Z) x1_line ex_grid).
  { split; [reflexivity|]. split; [intros; lia|]. split; [intros; lia|]. split; [intros; cbn; lia|]. intros []; cbn; lra. }
  assert (M2 : ~ misses ex_grid x1_line X2) by (unfold misses; cbn; lra). assert (M3 : ~ misses ex_grid x1_line X3) by (unfold misses; cbn; lra).
  split; [exact HA|]. split; [exact M2|]. split; [exact M3|].
  destruct (C110_line false 4 1 ex_grid x1_line (fun i _ _ => IZR i) (fun _ => 8%Z) (0, 0) ltac:(lia) ex_sound HA ltac:(intros []; cbn; lia) eq_refl) as (_ & K).
  destruct (K ltac:(lia)) as (a & RA & _ & _ & Q). destruct a; try discriminate RA. cbn [others] in Q. destruct Q as (_ & Q). destruct (Q M2 M3) as (rows & g' & bs & be & cs & ce & E & (T1 & _) & (T2 & _) & _ & L).
  exists rows, g'. split; [exact E|]. change 3%nat with (Z.to_nat 3). rewrite L by (cbn; lia). do 2 f_equal. unfold at_cell. cbn [put]. change (first_cell false 4 ex_grid X1 + 3)%Z with 7%Z.
  assert (MC : forall s e c, (s <= e)%Z -> mean s e (fun _ => c) = c).
  { intros s e c H. unfold mean. rewrite HistMain.sumZ_const by lia. field. apply not_0_IZR. lia. }
  rewrite !MC by lia. reflexivity.
Qed.
