(** Property C85 of the history file. *)
From Coq Require Import ZArith List Bool Arith Reals Lia Lra.
From Verif Require Import CStr MeshModel MeshProps PosModel PosProps GasModel HistModel HistSpec SumFacts HistFacts HistMain IntegSpec IntegFacts.
Import ListNotations.
Open Scope R_scope.

(** The number of user columns for which the arrays are large enough. *)
Definition fits (c : hcfg) (u : nat) : Prop :=
  (u <= 30)%nat /\ (u = 30%nat -> h_adb c && h_mhd c && h_selfg c && h_cyl c = false).
Lemma fits_size : forall c u, fits c u -> (total_hst_cnt c u <= hst_size c)%nat.
Proof.
  intros c u (L & N). unfold total_hst_cnt, hst_size, NSCAL, MAX_USR_H_COUNT.
  destruct (h_adb c), (h_mhd c), (h_selfg c), (h_cyl c); cbn [b2n andb] in *; try lia.
Qed.

Lemma nth_error_eq : forall A (l l' : list A), (forall m, nth_error l m = nth_error l' m) -> l = l'.
Proof.
  intros A. induction l as [|x l IH]; intros [|y l'] H; auto; try discriminate (H 0%nat).
  f_equal; [injection (H 0%nat); auto|apply IH; intros m; exact (H (S m))].
Qed.
(** One line is written; under each label of the header stands the volume average over the
    Domain of the quantity the label names, however the Domain is cut into Grids; in
    addition it is multiplied by the thickness of the box along axes with one cell. *)
Theorem C85_history : forall c u ng ideal P bs M nl l d nghost xmin xmax time dt junk grids S, (0 <= ng)%Z -> (0 < P)%Z ->
  init_mesh ng ideal P bs = Ok M -> nth_error (ms_levels M) nl = Some l -> In d l ->
  (forall a, xmin a < xmax a) -> (h_cyl c = true -> 0 <= dom_MinX xmin xmax M d X1) -> (forall a, (dm_NG d a <= dm_Nx d a)%Z) ->
  grids_hold nghost d grids u S -> fits c u -> (forall p, length (junk p) = hst_size c) ->
  ~ In 0%Z (tl (dm_ids d)) ->
  exists line, dump_history c u nghost xmin xmax M d time dt junk grids = Ok [line] /\ length line = length (hst_header c u) /\
    forall m lab, nth_error (hst_header c u) m = Some lab ->
      nth_error line m = Some (entry c xmin xmax M d time dt S lab * match lab with Ltime | Ldt => 1 | _ => thickness xmin xmax d end).
Proof.
  intros c u ng ideal P bs M nl l d nghost xmin xmax time dt junk grids S HN HP HI HL HD HB HC HF HG FT JL NW.
  pose proof (good ng ideal P bs M nl l d HN HP HI HL HD) as (G1 & G2 & _ & _ & _ & GL).
  assert (LP : (0 < length (dm_ids d))%nat).
  { rewrite GL. unfold ngrids. pose proof (G2 X1). pose proof (G2 X2). pose proof (G2 X3). assert (0 < dm_NG d X1 * dm_NG d X2)%Z by nia. assert (0 < dm_NG d X1 * dm_NG d X2 * dm_NG d X3)%Z by nia. lia. }
  assert (NW' : forall p, (0 < p < length (dm_ids d))%nat -> nth p (dm_ids d) (-1)%Z <> 0%Z).
  { intros p Lp E. apply NW. rewrite <- E. destruct (dm_ids d) as [|x xs]; [cbn in Lp; lia|]. cbn [tl]. destruct p as [|p]; [lia|]. cbn [nth]. apply nth_In. cbn [length] in Lp. lia. }
  assert (TS := fits_size c u FT).
  eexists. split; [apply dump_ok; [intros p; rewrite JL; exact TS|exact NW'|exact LP]|].
  assert (N9 : (9 <= total_hst_cnt c u)%nat) by (unfold total_hst_cnt; lia).
  split; [unfold sum_line; rewrite app_length, row_length, header_len; cbn [length]; lia|].
  intros m lab NL. unfold sum_line.
  assert (ML : (m < total_hst_cnt c u)%nat) by (rewrite <- header_len; apply nth_error_Some; congruence).
  destruct m as [|[|m]]; [injection NL as <-; cbn; f_equal; lra|injection NL as <-; cbn; f_equal; lra|].
  cbn [app nth_error]. assert (NL' : nth_error (skipn 2 (hst_header c u)) m = Some lab) by exact NL.
  unfold row. rewrite (map_nth_error _ m (seq 0 (total_hst_cnt c u - 2)) (d := m)).
  2:{ rewrite (nth_error_nth' _ 0%nat) by (rewrite seq_length; lia). rewrite seq_nth by lia. reflexivity. }
  f_equal. rewrite (column_sum c ng ideal P bs M nl l d xmin xmax HN HP HI HL HD HB u nghost grids S HG HF m lab NL').
  pose proof (volume_sum c ng ideal P bs M nl l d xmin xmax HN HP HI HL HD) as V.
  pose proof (vol_pos c ng ideal P bs M nl l d xmin xmax HN HP HI HL HD HB HC) as VP. rewrite V in VP.
  assert (D0 : dom_dVol c xmin xmax M d <> 0) by (intros E; rewrite E in VP; lra).
  assert (T0 : thickness xmin xmax d <> 0) by (intros E; rewrite E in VP; lra).
  assert (LB : lab <> Ltime /\ lab <> Ldt).
  { apply nth_error_In in NL'. unfold hst_header in NL'. cbn [app skipn] in NL'. split; intros ->;
    cbn [In] in NL'; rewrite ?in_app_iff in NL'; cbn [In app] in NL'; rewrite ?in_app_iff in NL'; cbn [In app] in NL'; rewrite ?in_app_iff in NL';
    repeat match goal with
    | H : _ \/ _ |- _ => destruct H as [H|H]
    | H : In _ (if ?b then _ else _) |- _ => destruct b
    | H : In _ (map _ _) |- _ => apply in_map_iff in H; destruct H as (? & ? & _)
    | H : In _ (_ :: _) |- _ => cbn [In] in H
    | H : In _ [] |- _ => destruct H
    | H : _ = _ |- _ => discriminate H
    | H : False |- _ => destruct H
    end. }
  destruct LB as [LB1 LB2]. destruct lab; try congruence; unfold entry, vol_average; rewrite V; field; auto.
Qed.
Print Assumptions C85_history.
(** When the box is one unit thick along axes with one cell (or has none), the columns are
    the volume averages. *)
Theorem C85_average : forall c u ng ideal P bs M nl l d nghost xmin xmax time dt junk grids S, (0 <= ng)%Z -> (0 < P)%Z ->
  init_mesh ng ideal P bs = Ok M -> nth_error (ms_levels M) nl = Some l -> In d l ->
  (forall a, xmin a < xmax a) -> (h_cyl c = true -> 0 <= dom_MinX xmin xmax M d X1) -> (forall a, (dm_NG d a <= dm_Nx d a)%Z) ->
  grids_hold nghost d grids u S -> fits c u -> (forall p, length (junk p) = hst_size c) ->
  ~ In 0%Z (tl (dm_ids d)) -> (forall a, dm_Nx d a = 1%Z -> xmax a - xmin a = 1) ->
  dump_history c u nghost xmin xmax M d time dt junk grids = Ok [map (entry c xmin xmax M d time dt S) (hst_header c u)].
Proof.
  intros c u ng ideal P bs M nl l d nghost xmin xmax time dt junk grids S HN HP HI HL HD HB HC HF HG FT JL NW H1.
  destruct (C85_history c u ng ideal P bs M nl l d nghost xmin xmax time dt junk grids S HN HP HI HL HD HB HC HF HG FT JL NW) as (line & E & LL & V).
  rewrite E. f_equal. f_equal. assert (T : thickness xmin xmax d = 1).
  { unfold thickness. pose proof (H1 X2). pose proof (H1 X3). destruct (Z.eqb_spec (dm_Nx d X2) 1), (Z.eqb_spec (dm_Nx d X3) 1); rewrite ?H, ?H0 by auto; lra. }
  apply nth_error_eq. intros m. destruct (nth_error (hst_header c u) m) as [lab|] eqn:NL.
  - rewrite (V m lab NL), T. rewrite (map_nth_error _ m _ NL). f_equal. destruct lab; lra.
  - rewrite (proj2 (nth_error_None _ _)). symmetry. apply nth_error_None. rewrite map_length. apply nth_error_None. auto. rewrite LL. apply nth_error_None. auto.
Qed.
Print Assumptions C85_average.
(** The condition on the writing process holds for single-process runs and without mesh
    refinement. *)
Theorem C85_one_writer : forall ng ideal P bs M d, (0 <= ng)%Z -> (0 < P)%Z -> init_mesh ng ideal P bs = Ok M -> In d (domains M) ->
  P = 1%Z \/ length (domains M) = 1%nat -> ~ In 0%Z (tl (dm_ids d)).
Proof.
  intros ng ideal P bs M d HN HP HI HD [->|L1] I0; pose proof (init_mesh_facts _ _ _ _ _ HN HP HI) as A; pose proof (accepted_good _ _ _ _ A d HD) as (_ & G2 & _ & _ & GP & GL).
  - assert (length (dm_ids d) <= 1)%nat by (rewrite GL; lia). destruct (dm_ids d) as [|x [|y r]]; cbn in *; auto; lia.
  - destruct A as (lv & _ & _ & _ & _ & _ & _ & IDS & _). destruct (domains M) as [|e [|e' r]]; try discriminate L1. destruct HD as [->|[]].
    cbn [ids_from] in IDS. destruct IDS as [IDS _]. rewrite IDS in I0. destruct (length (dm_ids d)) as [|len] eqn:LL; [destruct I0|].
    cbn [seq map tl] in I0. apply in_map_iff in I0. destruct I0 as (k & E & K). apply in_seq in K. rewrite Z.add_0_l in E.
    rewrite Z.mod_small in E by lia. lia.
Qed.
Print Assumptions C85_one_writer.

(** ** Example: a 10 x 6 Domain on 3 x 2 Grids, adiabatic MHD with one scalar and one user
    column. *)
Definition usr1 (n : nat) (K J I : Z) : R := IZR (I + J).
Definition hst_state : dstate := DS (fun K J I => Cons (1 + IZR (I * I)) 1 (IZR J) 0 5 1 0 2 [IZR I]) (fun _ _ _ => 0) usr1.
Definition hst_grids (nghost : Z) (d : domain) (S : dstate) (g : gidx) : hgrid :=
  let at_ {A} (f : Z -> Z -> Z -> A) := fun k j i => f (gcell nghost d g X3 k) (gcell nghost d g X2 j) (gcell nghost d g X1 i) in
  HG (at_ (ds_U S)) (at_ (ds_Phi S)) (fun n => at_ (ds_usr S n)).
Lemma hst_grids_hold : forall nghost d u S, grids_hold nghost d (hst_grids nghost d S) u S.
Proof. intros nghost d u S g k j i _ _ _ _. cbv zeta. split; [reflexivity|]. split; [reflexivity|]. intros n _. reflexivity. Qed.
Definition ex_cfg : hcfg := HC true true false false 1.
Definition unit_min (a : axis) : R := 0.
Definition unit_max (a : axis) : R := 1.
Example C85_example : exists M d, init_mesh 4 (fun _ _ _ => 1%Z) 6 [dom1] = Ok M /\ nth_error (ms_levels M) 0 = Some [d] /\
  length (dm_ids d) = 6%nat /\ hst_header ex_cfg 1 = [Ltime; Ldt; Lmass; LtotalE; Lmom X1; Lmom X2; Lmom X3; LKE X1; LKE X2; LKE X3; LME X1; LME X2; LME X3; Lscalar 0; Lusr 0] /\
  dump_history ex_cfg 1 4 unit_min unit_max M d 2 (1/10) (fun _ => repeat 0 (hst_size ex_cfg)) (hst_grids 4 d hst_state) =
    Ok [map (entry ex_cfg unit_min unit_max M d 2 (1/10) hst_state) (hst_header ex_cfg 1)].
Proof.
  destruct (init_mesh 4 (fun _ _ _ => 1%Z) 6 [dom1]) as [M| |] eqn:EM; [|vm_compute in EM; discriminate|vm_compute in EM; discriminate].
  assert (exists d, nth_error (ms_levels M) 0 = Some [d] /\ (forall a, (dm_NG d a <= dm_Nx d a)%Z) /\ ~ In 0%Z (tl (dm_ids d)) /\ length (dm_ids d) = 6%nat) as (d & HL & HF & NW & L6).
  { assert (EM' := EM). vm_compute in EM'. injection EM' as <-. eexists. split; [reflexivity|]. split; [intros []; vm_compute; discriminate|]. split; [vm_compute; intuition discriminate|]. reflexivity. }
  exists M, d. split; [reflexivity|]. split; [exact HL|]. split; [exact L6|]. split; [reflexivity|].
  apply (C85_average ex_cfg 1 4 (fun _ _ _ => 1%Z) 6 [dom1] M 0 [d] d); auto; try lia; try discriminate.
  - left. reflexivity.
  - intros a. unfold unit_min, unit_max. lra.
  - apply hst_grids_hold.
  - split; [lia|discriminate].
  - intros a _. unfold unit_min, unit_max. lra.
Qed.

(** ** Where the claim fails *)
(** The volume average of a uniform quantity is that quantity. *)
Lemma entry_uniform : forall c ng ideal P bs M nl l d xmin xmax time dt S r, (0 <= ng)%Z -> (0 < P)%Z ->
  init_mesh ng ideal P bs = Ok M -> nth_error (ms_levels M) nl = Some l -> In d l ->
  (forall a, xmin a < xmax a) -> (h_cyl c = true -> 0 <= dom_MinX xmin xmax M d X1) ->
  (forall K J I, cd (ds_U S K J I) = r) -> entry c xmin xmax M d time dt S Lmass = r.
Proof.
  intros c ng ideal P bs M nl l d xmin xmax time dt S r HN HP HI HL HD HB HC U.
  unfold entry, vol_average, column. cbv zeta. rewrite (dom_sum_ext d _ (fun K J I => r * cell_vol c xmin xmax M d K J I)) by (intros; rewrite U; ring).
  pose proof (vol_pos c ng ideal P bs M nl l d xmin xmax HN HP HI HL HD HB HC) as V.
  assert (E : dom_sum d (fun K J I => r * cell_vol c xmin xmax M d K J I) = r * dom_sum d (cell_vol c xmin xmax M d)).
  { unfold dom_sum. rewrite <- sumZ_scal. apply sumZ_ext. intros. rewrite <- sumZ_scal. apply sumZ_ext. intros. rewrite <- sumZ_scal. reflexivity. }
  rewrite E. field. lra.
Qed.
Definition ones : dstate := DS (fun _ _ _ => Cons 1 0 0 0 0 0 0 0 []) (fun _ _ _ => 0) (fun _ _ _ _ => 0).
Definition plain : hcfg := HC false false false false 0.
Definition thick_max (a : axis) : R := match a with X3 => 2 | _ => 1 end.
(** A two-dimensional run (10 x 6 x 1) in a box with 0 < x3 < 2 and density 1 everywhere:
    the history file says that the mass is 2. *)
Theorem C85_thickness_refuted : exists M d line, init_mesh 4 (fun _ _ _ => 1%Z) 6 [dom1] = Ok M /\ nth_error (ms_levels M) 0 = Some [d] /\
  dump_history plain 0 4 unit_min thick_max M d 0 1 (fun _ => repeat 0 (hst_size plain)) (hst_grids 4 d ones) = Ok [line] /\
  nth_error (hst_header plain 0) 2 = Some Lmass /\ entry plain unit_min thick_max M d 0 1 ones Lmass = 1 /\
  nth_error line 2 = Some 2.
Proof.
  destruct (init_mesh 4 (fun _ _ _ => 1%Z) 6 [dom1]) as [M| |] eqn:EM; [|vm_compute in EM; discriminate|vm_compute in EM; discriminate].
  assert (exists d, nth_error (ms_levels M) 0 = Some [d] /\ (forall a, (dm_NG d a <= dm_Nx d a)%Z) /\ ~ In 0%Z (tl (dm_ids d)) /\ (1 < dm_Nx d X2)%Z /\ dm_Nx d X3 = 1%Z) as (d & HL & HF & NW & N2 & N3).
  { assert (EM' := EM). vm_compute in EM'. injection EM' as <-. eexists. split; [reflexivity|]. split; [intros []; vm_compute; discriminate|]. split; [vm_compute; intuition discriminate|]. split; reflexivity. }
  assert (HB : forall a, unit_min a < thick_max a) by (intros []; unfold unit_min, thick_max; lra).
  assert (HC : h_cyl plain = true -> 0 <= dom_MinX unit_min thick_max M d X1) by discriminate.
  destruct (C85_history plain 0 4 (fun _ _ _ => 1%Z) 6 [dom1] M 0 [d] d 4 unit_min thick_max 0 1 (fun _ => repeat 0 (hst_size plain)) (hst_grids 4 d ones) ones) as (line & E & _ & V); auto; try lia.
  - left. reflexivity.
  - apply hst_grids_hold.
  - split; [lia|discriminate].
  - assert (U : entry plain unit_min thick_max M d 0 1 ones Lmass = 1).
    { apply (entry_uniform plain 4 (fun _ _ _ => 1%Z) 6 [dom1] M 0 [d] d); auto; try lia. left. reflexivity. }
    exists M, d, line. split; [reflexivity|]. split; [exact HL|]. split; [exact E|]. split; [reflexivity|]. split; [exact U|].
    rewrite (V 2%nat Lmass eq_refl), U. unfold thickness. rewrite N3. destruct (Z.eqb_spec (dm_Nx d X2) 1); [lia|]. cbn [Z.eqb Pos.eqb].
    unfold thick_max, unit_min. f_equal. lra.
Qed.
Print Assumptions C85_thickness_refuted.

(** With refinement, process 0 may have a Grid of a Domain without being the first process
    of that Domain: it then writes a second line, with its own sums only. *)
Lemma dump_two : forall c u ng xmin xmax M d time dt junk grids r, (forall p, (total_hst_cnt c u <= length (junk p))%nat) -> dm_ids d = [r; 0%Z] ->
  dump_history c u ng xmin xmax M d time dt junk grids =
  Ok [sum_line c u xmin xmax M d time dt (fun m => lsum (seq 0 (length (dm_ids d))) (fun p => sums_of c u ng xmin xmax M d grids p m));
      sum_line c u xmin xmax M d time dt (sums_of c u ng xmin xmax M d grids 1)].
Proof.
  intros c u ng xmin xmax M d time dt junk grids r JL IDS.
  set (l1 := sum_line c u xmin xmax M d time dt (fun m => lsum _ _)). unfold dump_history.
  destruct (locals_ok c u ng xmin xmax M d time dt junk grids JL) as (mine & -> & F). cbn [bind]. assert (F' := F). rewrite IDS in F' |- *.
  cbn [length seq] in F'. inversion F' as [|p0 s0 ps ss (rest0 & E0) F0]; subst p0 ps mine. inversion F0 as [|p1 s1 ps1 ss1 (rest1 & E1) F1]; subst p1 ps1 ss. inversion F1; subst ss1.
  assert (LE : hst_line (total_hst_cnt c u) (dom_dVol c xmin xmax M d) s1 = Ok (sum_line c u xmin xmax M d time dt (sums_of c u ng xmin xmax M d grids 1))) by (rewrite E1; apply line_ok).
  assert (RE := reduce_ok c u ng xmin xmax M d time dt grids rest0 _ F). rewrite <- E0 in RE.
  cbn [length seq fold_right Nat.eqb orb nth bind]. cbv zeta. cbn [nth Z.eqb]. rewrite LE. cbn [bind].
  rewrite RE. cbn [bind]. rewrite line_ok. cbn [bind]. reflexivity.
Qed.
Definition two_r := Blk 0 (mk_vec 32 1 1) (mk_vec 0 0 0) (mk_vec 1 1 1) 0.
Definition two_A := Blk 1 (mk_vec 16 1 1) (mk_vec 8 0 0) (mk_vec 2 1 1) 0.
Definition two_B := Blk 1 (mk_vec 8 1 1) (mk_vec 40 0 0) (mk_vec 1 1 1) 0.
Theorem C85_two_writers_refuted : exists M A B line1 line2, init_mesh 4 (fun _ _ _ => 1%Z) 2 [two_r; two_A; two_B] = Ok M /\
  nth_error (ms_levels M) 1 = Some [A; B] /\ grids_hold 4 A (hst_grids 4 A ones) 0 ones /\
  dump_history plain 0 4 unit_min unit_max M A 0 1 (fun _ => repeat 0 (hst_size plain)) (hst_grids 4 A ones) = Ok [line1; line2] /\
  entry plain unit_min unit_max M A 0 1 ones Lmass = 1 /\ nth_error line2 2 = Some (1/2).
Proof.
  destruct (init_mesh 4 (fun _ _ _ => 1%Z) 2 [two_r; two_A; two_B]) as [M| |] eqn:EM; [|vm_compute in EM; discriminate|vm_compute in EM; discriminate].
  assert (exists A B, nth_error (ms_levels M) 1 = Some [A; B] /\ dm_ids A = [1; 0]%Z /\ dm_Nx A X1 = 16%Z /\ dm_Nx A X2 = 1%Z /\ dm_Nx A X3 = 1%Z /\ dm_level A = 1%nat /\ ms_Nx M X1 = 32%Z /\ ms_Nx M X2 = 1%Z /\ ms_Nx M X3 = 1%Z /\
     idx_of_pos A 1 = Gi 1 0 0 /\ gNx A X1 1 = 8%Z /\ gNx A X2 0 = 1%Z /\ gNx A X3 0 = 1%Z) as (A & B & HL & IDS & N1 & N2 & N3 & LV & R1 & R2 & R3 & IX & G1 & G2 & G3).
  { assert (EM' := EM). vm_compute in EM'. injection EM' as <-. eexists. eexists. split; [reflexivity|]. repeat (split; [reflexivity|]). reflexivity. }
  assert (HB : forall a, unit_min a < unit_max a) by (intros; unfold unit_min, unit_max; lra).
  assert (DX : dom_dx unit_min unit_max M A X1 = 1/64 /\ dom_dx unit_min unit_max M A X2 = 1 /\ dom_dx unit_min unit_max M A X3 = 1).
  { unfold dom_dx, root_dx. rewrite N1, N2, N3, LV, R1, R2, R3. cbn [Z.ltb Z.compare Pos.compare Pos.compare_cont]. unfold unit_min, unit_max, irefine.
    change (2 ^ Z.of_nat 1)%Z with 2%Z. split; [lra|split; lra]. }
  destruct DX as (DX1 & DX2 & DX3).
  exists M, A, B. eexists. eexists. split; [reflexivity|]. split; [exact HL|]. split; [apply hst_grids_hold|].
  split; [eapply dump_two; [intros; rewrite repeat_length; vm_compute; lia|exact IDS]|]. split.
  - apply (entry_uniform plain 4 (fun _ _ _ => 1%Z) 2 [two_r; two_A; two_B] M 1 [A; B] A); auto; try lia; try discriminate. left. reflexivity.
  - unfold sum_line. cbn [app nth_error]. unfold row. change (total_hst_cnt plain 0 - 2)%nat with 7%nat. cbn [seq map nth_error]. f_equal.
    unfold sums_of. cbv zeta. rewrite IX, lsum_cells. cbn [gi_ax gl gm gn]. cbn [term].
    assert (T : forall k j i, (let x1 := fst (fst (cc_pos (mk_pgrid 4 unit_min unit_max M A (Gi 1 0 0)) i j k)) in
      nth 0 (hst_terms plain 0 (hst_grids 4 A ones (Gi 1 0 0)) (cell_dVol plain (mk_pgrid 4 unit_min unit_max M A (Gi 1 0 0)) x1) x1 k j i) 0) = 1/64).
    { intros. cbv zeta. unfold hst_terms. cbn [app nth]. unfold cell_dVol. cbn [mk_pgrid p_dx h_cyl plain hg_U hst_grids ones ds_U cd]. rewrite DX1, DX2, DX3.
      destruct (Rlt_dec 0 (1/64)); [|lra]. destruct (Rlt_dec 0 1); lra. }
    cbv zeta in T. rewrite (sumZ_ext _ _ _ (fun _ => 1/8)).
    2:{ intros k _. rewrite (sumZ_ext _ _ _ (fun _ => 1/8)).
      - unfold grid_s, grid_e. rewrite G2. cbn [Z.ltb Z.compare Pos.compare Pos.compare_cont]. rewrite sumZ_const by lia. change (0 - 0 + 1)%Z with 1%Z. lra.
      - intros j _. rewrite (sumZ_ext _ _ _ (fun _ => 1/64)) by (intros; apply T). unfold grid_s, grid_e. rewrite G1. cbn [Z.ltb Z.compare Pos.compare Pos.compare_cont].
        rewrite sumZ_const by lia. change (8 + 4 - 1 - 4 + 1)%Z with 8%Z. lra. }
    unfold grid_s, grid_e. rewrite G3. cbn [Z.ltb Z.compare Pos.compare Pos.compare_cont]. rewrite sumZ_const by lia. change (0 - 0 + 1)%Z with 1%Z.
    unfold dom_dVol. cbv zeta. cbn [h_cyl plain]. rewrite N2, N3. cbn [Z.ltb Z.compare Pos.compare Pos.compare_cont].
    rewrite (extent 4 (fun _ _ _ => 1%Z) 2 [two_r; two_A; two_B] M 1 [A; B] A) by (auto; try lia; left; reflexivity). rewrite N1, DX1. lra.
Qed.
Print Assumptions C85_two_writers_refuted.

(** With all four options and the 30 user columns that dump_history_enroll accepts, the
    arrays are one element short. *)
Theorem C85_overflow_refuted : forall n ng xmin xmax M d time dt junk grids, dm_ids d <> [] ->
  let c := HC true true true true n in (forall p, length (junk p) = hst_size c) ->
  (forall u, (u < 30)%nat -> dump_history_enroll u = Ok (S u)) /\
  dump_history c 30 ng xmin xmax M d time dt junk grids = UB.
Proof.
  intros n ng xmin xmax M d time dt junk grids ID c JL. split.
  - intros u L. unfold dump_history_enroll, MAX_USR_H_COUNT. destruct (Nat.leb_spec 30 u); [lia|reflexivity].
  - unfold dump_history, hst_locals. destruct (dm_ids d) as [|x xs]; [congruence|]. cbn [length seq fold_right]. cbv zeta.
    specialize (JL 0%nat). destruct (junk 0%nat) as [|a [|b r]]; [discriminate JL|discriminate JL|].
    cbn [set_at length Nat.ltb Nat.leb firstn skipn app bind]. unfold hst_local.
    assert (SO := set_over (fun _ => 0) r [time; dt] 0). cbn [length app] in SO, JL. 
    replace (total_hst_cnt c 30 - 2)%nat with (S (length r) + 0)%nat.
    + rewrite SO. reflexivity.
    + unfold total_hst_cnt, hst_size, NSCAL, MAX_USR_H_COUNT, c in *. cbn [h_adb h_mhd h_selfg h_cyl h_nscal b2n] in *. lia.
Qed.
Print Assumptions C85_overflow_refuted.
