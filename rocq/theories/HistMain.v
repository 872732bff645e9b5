(** * dump_history writes volume averages *)
From Coq Require Import ZArith List Bool Arith Reals Lia Lra.
From Verif Require Import CStr MeshModel MeshProps PosModel PosProps GasModel HistModel HistSpec SumFacts HistFacts IntegSpec IntegFacts.
Import ListNotations.
Open Scope R_scope.

Lemma bind_assoc : forall A B C (x : res A) (f : A -> res B) (g : B -> res C), bind (bind x f) g = bind x (fun a => bind (f a) g).
Proof. intros. destruct x; reflexivity. Qed.
Lemma collect_ok : forall (F : nat -> res (list R)) (Q : nat -> list R -> Prop) ps, (forall p, In p ps -> exists s, F p = Ok s /\ Q p s) ->
  exists l, fold_right (fun p r => s <- F p;; l <- r;; Ok (s :: l)) (Ok []) ps = Ok l /\ Forall2 Q ps l.
Proof.
  intros F Q ps. induction ps as [|p ps IH]; intros H; [exists []; split; auto|].
  destruct (H p) as (s & E & S); [left; auto|]. destruct IH as (l & EL & FL); [intros; apply H; right; auto|].
  exists (s :: l). cbn [fold_right]. rewrite E. cbn [bind]. rewrite EL. cbn [bind]. split; auto.
Qed.
Definition sums_of (c : hcfg) (u : nat) (ng : Z) (xmin xmax : axis -> R) (M : mesh) (d : domain) (grids : gidx -> hgrid) (p m : nat) : R :=
  let g := idx_of_pos d p in
  lsum (cells (fun a => grid_s ng d a (gi_ax g a)) (fun a => grid_e ng d a (gi_ax g a))) (term c u (mk_pgrid ng xmin xmax M d g) (grids g) m).
Section Dump.
Variables (c : hcfg) (u : nat) (ng : Z) (xmin xmax : axis -> R) (M : mesh) (d : domain) (time dt : R) (junk : nat -> list R) (grids : gidx -> hgrid).
Let n := total_hst_cnt c u.
Let Sm := sums_of c u ng xmin xmax M d grids.
Hypothesis JL : forall p, (n <= length (junk p))%nat.
Lemma locals_ok : exists mine, hst_locals c u ng xmin xmax M d time dt junk grids = Ok mine /\
  Forall2 (fun p s => exists rest, s = [time; dt] ++ row (n - 2) (Sm p) ++ rest) (seq 0 (length (dm_ids d))) mine.
Proof.
  destruct (collect_ok (fun p => s <- set_at (junk p) 0 time;; s <- set_at s 1 dt;; hst_local c u ng (mk_pgrid ng xmin xmax M d (idx_of_pos d p)) d (idx_of_pos d p) (grids (idx_of_pos d p)) s)
    (fun p s => exists rest, s = [time; dt] ++ row (n - 2) (Sm p) ++ rest) (seq 0 (length (dm_ids d)))) as (l & E & F).
  - intros p _. destruct (local_ok c u ng (mk_pgrid ng xmin xmax M d (idx_of_pos d p)) d (idx_of_pos d p) (grids (idx_of_pos d p)) time dt (junk p) (JL p)) as (rest & E & _).
    eexists. split; [exact E|]. exists rest. reflexivity.
  - exists l. split; auto. rewrite <- E. unfold hst_locals. generalize (seq 0 (length (dm_ids d))). induction l0 as [|p ps IH]; [reflexivity|].
    cbn [fold_right]. rewrite IH. cbv zeta. rewrite bind_assoc. destruct (set_at (junk p) 0 time); cbn [bind]; auto.
    match goal with |- context [set_at ?x 1 dt] => destruct (set_at x 1 dt); cbn [bind]; auto end.
Qed.
Definition sum_line (f : nat -> R) : list R := [time; dt] ++ row (n - 2) (fun m => f m / dom_dVol c xmin xmax M d).
Lemma reduce_ok : forall rest mine, Forall2 (fun p s => exists rest, s = [time; dt] ++ row (n - 2) (Sm p) ++ rest) (seq 0 (length (dm_ids d))) mine ->
  hst_reduce n ([time; dt] ++ row (n - 2) (Sm 0%nat) ++ rest) mine =
  Ok ([time; dt] ++ row (n - 2) (fun m => lsum (seq 0 (length (dm_ids d))) (fun p => Sm p m)) ++ rest).
Proof.
  intros rest mine F. unfold hst_reduce.
  assert (SL := set_loop (fun i => fold_right Rplus 0 (map (fun s => nth i s 0) mine)) (row (n - 2) (Sm 0%nat)) [time; dt] rest).
  rewrite row_length in SL. cbn [length] in SL. rewrite SL. f_equal. f_equal. f_equal. unfold row.
  rewrite <- seq_shift, map_map, <- seq_shift, map_map. apply map_ext_in. intros m I. apply in_seq in I.
  clear SL. unfold lsum. induction F as [|p s ps ss (r & ->) F IH]; [reflexivity|]. cbn [map fold_right]. rewrite IH. f_equal.
  cbn [app nth]. rewrite app_nth1 by (rewrite row_length; lia). apply row_nth. lia.
Qed.
Lemma dump_ok : (forall p, (0 < p < length (dm_ids d))%nat -> nth p (dm_ids d) (-1)%Z <> 0%Z) -> (0 < length (dm_ids d))%nat ->
  dump_history c u ng xmin xmax M d time dt junk grids = Ok [sum_line (fun m => lsum (seq 0 (length (dm_ids d))) (fun p => Sm p m))].
Proof.
  intros NW PL. set (ln := sum_line _). unfold dump_history. fold n. destruct locals_ok as (mine & -> & F). cbn [bind].
  assert (LN : exists len, length (dm_ids d) = S len) by (destruct (length (dm_ids d)); [lia|eauto]). destruct LN as (len & LN).
  rewrite LN in NW. assert (F' := F). rewrite LN in F' |- *. cbn [seq fold_right].
  assert (R0 : forall ps, (forall p, In p ps -> (0 < p < S len)%nat) ->
    fold_right (fun p r => scal <- (if (p =? 0)%nat then hst_reduce n (nth p mine []) mine else Ok (nth p mine []));;
      (if ((p =? 0)%nat || (nth p (dm_ids d) (-1) =? 0)%Z)%bool then s <- hst_line n (dom_dVol c xmin xmax M d) scal;; l <- r;; Ok (s :: l) else r)) (Ok []) ps = Ok []).
  { induction ps as [|p ps IH]; intros H; [reflexivity|]. cbn [fold_right]. rewrite IH by (intros; apply H; right; auto).
    assert (P0 := H p (or_introl eq_refl)). destruct (Nat.eqb_spec p 0); [lia|]. cbn [bind orb].
    destruct (Z.eqb_spec (nth p (dm_ids d) (-1)%Z) 0) as [E|]; [exfalso; apply (NW p); auto|]. reflexivity. }
  assert (R1 := R0 (seq 1 len)). cbv zeta. rewrite R1 by (intros p I; apply in_seq in I; lia). clear R0 R1. cbn [Nat.eqb orb].
  inversion F' as [|p0 s0 ps ss (rest & E0) F0]; subst. cbn [nth].
  rewrite reduce_ok by exact F. cbn [bind]. unfold n. rewrite line_ok. reflexivity.
Qed.
End Dump.

(** The terms of a cell are dVol times the quantities named by the labels. *)
Definition local_column (G : hgrid) (x1 : R) (k j i : Z) (lab : hlabel) : R :=
  column (DS (hg_U G) (hg_Phi G) (hg_usr G)) x1 lab k j i.
Lemma inv2 : forall x d, x / (2 * d) = 1/2 * x * (1 / d).
Proof. intros. unfold Rdiv. rewrite Rinv_mult. lra. Qed.
Lemma terms_meaning : forall c u G dV x1 k j i,
  hst_terms c u G dV x1 k j i = map (fun lab => dV * local_column G x1 k j i lab) (skipn 2 (hst_header c u)).
Proof.
  intros. unfold hst_terms, hst_header. cbv zeta. change (skipn 2 ([Ltime; Ldt; Lmass] ++ ?l)) with (Lmass :: l).
  cbn [app skipn]. repeat (rewrite map_cons || rewrite map_app || rewrite map_map). unfold local_column, column. cbn [ds_U ds_Phi ds_usr momentum bfield].
  f_equal. f_equal; [destruct (h_adb c); reflexivity|]. cbn [map app].
  do 6 (apply f_equal2; [cbn [momentum]; rewrite ?inv2; lra|]).
  f_equal; [destruct (h_mhd c); [cbn [map bfield]; do 3 (apply f_equal2; [lra|]); reflexivity|reflexivity]|].
  f_equal; [destruct (h_selfg c); [cbn [map]; f_equal; lra|reflexivity]|].
  f_equal. f_equal. destruct (h_cyl c); reflexivity.
Qed.

(** Positions and volumes. *)
Lemma grid_MinX_eq : forall xmin xmax M d a k, grid_MinX xmin xmax M d a k = xmin a + IZR (gDisp d a k) * dom_dx xmin xmax M d a.
Proof.
  intros. induction k as [|k IH]; cbn [grid_MinX gDisp].
  - unfold dom_MinX. destruct (Z.eqb_spec (dm_Disp d a) 0) as [->|]; [lra|reflexivity].
  - rewrite IH, plus_IZR. ring.
Qed.
Lemma x1_pos : forall ng xmin xmax M d g i j k, fst (fst (cc_pos (mk_pgrid ng xmin xmax M d g) i j k)) = x1_mid xmin xmax M d (gcell ng d g X1 i).
Proof.
  intros. unfold cc_pos, x1_mid, gcell. cbn [fst mk_pgrid p_MinX p_s p_dx]. rewrite grid_MinX_eq, plus_IZR. ring.
Qed.
Lemma sumZ_const : forall l u c, (l <= u + 1)%Z -> sumZ l u (fun _ => c) = IZR (u - l + 1) * c.
Proof.
  intros l u c. apply (sumZ_ind (fun u => (l <= u + 1)%Z -> sumZ l u (fun _ => c) = IZR (u - l + 1) * c) l).
  - intros v V H. rewrite sumZ_empty by lia. replace (v - l + 1)%Z with 0%Z by lia. lra.
  - intros v V IH _. rewrite sumZ_last, IH by lia. replace (v - l + 1)%Z with (v - 1 - l + 1 + 1)%Z by lia. rewrite (plus_IZR (v - 1 - l + 1) 1). lra.
Qed.
Lemma dom_sum_ext : forall d f g, (forall K J I, f K J I = g K J I) -> dom_sum d f = dom_sum d g.
Proof. intros. unfold dom_sum. apply sumZ_ext. intros. apply sumZ_ext. intros. apply sumZ_ext. auto. Qed.
Lemma skipn_In : forall A n (l : list A) x, In x (skipn n l) -> In x l.
Proof. intros A n. induction n; intros [|y l] x I; cbn in *; auto. Qed.
Section Vol.
Variables (c : hcfg) (ng : Z) (ideal : Z -> Z -> Z -> Z) (P : Z) (bs : list blk) (M : mesh) (nl : nat) (l : list domain) (d : domain) (xmin xmax : axis -> R).
Hypotheses (HN : (0 <= ng)%Z) (HP : (0 < P)%Z) (HI : init_mesh ng ideal P bs = Ok M) (HL : nth_error (ms_levels M) nl = Some l) (HD : In d l).
Hypothesis HB : forall a, xmin a < xmax a.
Lemma facts : (forall a, (1 < dm_Nx d a)%Z <-> active M a) /\ (forall a, ~ active M a -> dm_Disp d a = 0%Z) /\ dm_level d = nl /\
  (forall a, (1 <= dm_Nx d a)%Z) /\ (forall a, (1 <= ms_Nx M a)%Z).
Proof.
  pose proof (init_mesh_facts _ _ _ _ _ HN HP HI) as A. destruct (accepted_dom _ _ _ _ _ _ _ A HL HD) as (D1 & D2 & D3 & D4 & D5 & _). auto.
Qed.
Lemma in_doms : In d (domains M).
Proof. unfold domains. apply in_concat. exists l. split; [eapply nth_error_In; eassumption|assumption]. Qed.
Lemma good : good_dom P (block_auto bs) d.
Proof. pose proof (init_mesh_facts _ _ _ _ _ HN HP HI) as A. apply (accepted_good _ _ _ _ A d in_doms). Qed.
Lemma dx_pos : forall a, 0 < dom_dx xmin xmax M d a.
Proof.
  intros a. destruct facts as (_ & _ & _ & _ & D5). specialize (D5 a). specialize (HB a).
  assert (0 < IZR (ms_Nx M a)) by (apply (IZR_lt 0); lia).
  assert (R : 0 < root_dx xmin xmax M a) by (unfold root_dx; apply Rdiv_lt_0_compat; lra).
  unfold dom_dx. destruct (1 <? dm_Nx d a)%Z; auto. apply Rdiv_lt_0_compat; auto. apply (IZR_lt 0). apply irefine_pos.
Qed.
Lemma extent : forall a, dom_MaxX xmin xmax M d a - dom_MinX xmin xmax M d a = IZR (dm_Nx d a) * dom_dx xmin xmax M d a.
Proof. intros a. destruct (C30_domain_extent ng ideal P bs M nl l d xmin xmax a HN HP HI HL HD) as [-> _]. lra. Qed.
Lemma low_edge : forall a, dom_MinX xmin xmax M d a = xmin a + IZR (dm_Disp d a) * dom_dx xmin xmax M d a.
Proof. intros a. exact (grid_MinX_eq xmin xmax M d a O). Qed.
Lemma one_cell : forall a, dm_Nx d a = 1%Z -> dom_dx xmin xmax M d a = xmax a - xmin a.
Proof.
  intros a E. destruct facts as (D1 & _ & _ & _ & D5). specialize (D5 a). specialize (D1 a). unfold active in D1.
  assert (M1 : ms_Nx M a = 1%Z) by lia. unfold dom_dx, root_dx. rewrite E, M1. cbn [Z.ltb Z.compare Pos.compare Pos.compare_cont]. field.
Qed.
(** The cell volumes add up to the volume of the Domain. *)
Lemma volume_sum : dom_sum d (cell_vol c xmin xmax M d) = dom_dVol c xmin xmax M d * thickness xmin xmax d.
Proof.
  destruct facts as (D1 & D2 & D3 & D4 & D5).
  set (dx := dom_dx xmin xmax M d).
  assert (SX : sumZ (dm_Disp d X1) (dm_Disp d X1 + dm_Nx d X1 - 1) (fun I => cell_vol c xmin xmax M d 0 0 I) =
    (if h_cyl c then 1/2 * (dom_MaxX xmin xmax M d X1 * dom_MaxX xmin xmax M d X1 - dom_MinX xmin xmax M d X1 * dom_MinX xmin xmax M d X1)
     else dom_MaxX xmin xmax M d X1 - dom_MinX xmin xmax M d X1) * (dx X2 * dx X3)).
  { unfold cell_vol. fold dx. destruct (h_cyl c).
    - set (F := fun I => 1/2 * ((xmin X1 + IZR I * dx X1) * (xmin X1 + IZR I * dx X1)) * (dx X2 * dx X3)).
      rewrite (sumZ_ext _ _ _ (fun I => F (I + 1)%Z - F I)).
      2:{ intros I _. unfold F, x1_mid. fold dx. rewrite plus_IZR. field. }
      rewrite sumZ_tele by (specialize (D4 X1); lia). unfold F.
      replace (dom_MaxX xmin xmax M d X1) with (dom_MinX xmin xmax M d X1 + IZR (dm_Nx d X1) * dx X1) by (unfold dx; pose proof (extent X1); lra).
      rewrite low_edge. fold dx. replace (dm_Disp d X1 + dm_Nx d X1 - 1 + 1)%Z with (dm_Disp d X1 + dm_Nx d X1)%Z by lia. rewrite plus_IZR. field.
    - rewrite sumZ_const by (specialize (D4 X1); lia). rewrite extent. fold dx. replace (dm_Disp d X1 + dm_Nx d X1 - 1 - dm_Disp d X1 + 1)%Z with (dm_Nx d X1) by lia. ring. }
  transitivity (IZR (dm_Nx d X3) * (IZR (dm_Nx d X2) * sumZ (dm_Disp d X1) (dm_Disp d X1 + dm_Nx d X1 - 1) (fun I => cell_vol c xmin xmax M d 0 0 I))).
  { unfold dom_sum. set (s := sumZ (dm_Disp d X1) (dm_Disp d X1 + dm_Nx d X1 - 1) (fun I => cell_vol c xmin xmax M d 0 0 I)).
    rewrite (sumZ_ext _ _ _ (fun _ => IZR (dm_Nx d X2) * s)).
    - rewrite sumZ_const by (specialize (D4 X3); lia). f_equal. f_equal. lia.
    - intros K _. rewrite (sumZ_ext _ _ _ (fun _ => s)) by (intros; reflexivity). rewrite sumZ_const by (specialize (D4 X2); lia). f_equal. f_equal. lia. }
  rewrite SX. unfold dom_dVol, thickness. cbv zeta. set (b := if h_cyl c then _ else _).
  pose proof (D4 X2). pose proof (D4 X3).
  destruct (Z.eqb_spec (dm_Nx d X2) 1) as [E2|E2], (Z.eqb_spec (dm_Nx d X3) 1) as [E3|E3], (Z.ltb_spec 1 (dm_Nx d X2)), (Z.ltb_spec 1 (dm_Nx d X3)); try lia;
    rewrite ?extent, <- ?(one_cell X2), <- ?(one_cell X3) by auto; fold dx; rewrite ?E2, ?E3; ring.
Qed.
Lemma vol_pos : (h_cyl c = true -> 0 <= dom_MinX xmin xmax M d X1) -> 0 < dom_sum d (cell_vol c xmin xmax M d).
Proof.
  intros HC. rewrite volume_sum. destruct facts as (D1 & D2 & D3 & D4 & D5).
  assert (T : 0 < thickness xmin xmax d).
  { unfold thickness. pose proof (HB X2). pose proof (HB X3). apply Rmult_lt_0_compat; destruct (_ =? 1)%Z; lra. }
  apply Rmult_lt_0_compat; auto. unfold dom_dVol. cbv zeta.
  assert (E : forall a, 0 < dom_MaxX xmin xmax M d a - dom_MinX xmin xmax M d a).
  { intros a. rewrite extent. apply Rmult_lt_0_compat; [apply (IZR_lt 0); specialize (D4 a); lia|apply dx_pos]. }
  assert (B : 0 < (if h_cyl c then 1/2 * (dom_MaxX xmin xmax M d X1 * dom_MaxX xmin xmax M d X1 - dom_MinX xmin xmax M d X1 * dom_MinX xmin xmax M d X1) else dom_MaxX xmin xmax M d X1 - dom_MinX xmin xmax M d X1)).
  { destruct (h_cyl c); [|apply E]. specialize (HC eq_refl).
    pose proof (E X1). nra. }
  destruct (1 <? dm_Nx d X2)%Z, (1 <? dm_Nx d X3)%Z; repeat apply Rmult_lt_0_compat; auto.
Qed.
Lemma pos_in : forall p, (p < Z.to_nat (ngrids d))%nat -> forall a, (Z.of_nat (gi_ax (idx_of_pos d p) a) < dm_NG d a)%Z.
Proof.
  intros p L a. destruct good as (_ & G2 & _). pose proof (G2 X1). pose proof (G2 X2). pose proof (G2 X3). unfold ngrids in L. rewrite !Z2Nat.inj_mul in L by nia.
  unfold idx_of_pos. destruct a; cbn [gi_ax gl gm gn].
  - pose proof (Nat.mod_upper_bound p (Z.to_nat (dm_NG d X1))). lia.
  - pose proof (Nat.mod_upper_bound (p / Z.to_nat (dm_NG d X1)) (Z.to_nat (dm_NG d X2))). lia.
  - rewrite Nat.div_div by lia. assert (p / (Z.to_nat (dm_NG d X1) * Z.to_nat (dm_NG d X2)) < Z.to_nat (dm_NG d X3))%nat by (apply Nat.div_lt_upper_bound; nia). lia.
Qed.
Variables (u : nat) (nghost : Z) (grids : gidx -> hgrid) (S : dstate).
Hypothesis HG : grids_hold nghost d grids u S.
Hypothesis HF : forall a, (dm_NG d a <= dm_Nx d a)%Z.
Lemma label_col : forall lab G x1 k j i K J I, In lab (hst_header c u) -> hg_U G k j i = ds_U S K J I -> hg_Phi G k j i = ds_Phi S K J I ->
  (forall n, (n < u)%nat -> hg_usr G n k j i = ds_usr S n K J I) -> local_column G x1 k j i lab = column S x1 lab K J I.
Proof.
  intros lab G x1 k j i K J I IN E1 E2 E3. unfold local_column, column. cbn [ds_U ds_Phi ds_usr]. rewrite E1, E2.
  destruct lab; try reflexivity. apply E3. unfold hst_header in IN. rewrite !in_app_iff in IN.
  assert (Z : In (Lusr n) (map Lusr (seq 0 u))).
  { repeat match goal with
    | H : In _ _ \/ _ |- _ => destruct H as [H|H]
    end; auto; exfalso;
    repeat match goal with
    | H : In _ (if ?b then _ else _) |- _ => destruct b
    | H : In _ (map Lscalar _) |- _ => apply in_map_iff in H; destruct H as (? & ? & _); discriminate
    | H : In _ (_ :: _) |- _ => destruct H as [H|H]; [discriminate|]
    | H : In _ [] |- _ => destruct H
    end. }
  apply in_map_iff in Z. destruct Z as (m & E & Z). injection E as ->. apply in_seq in Z. lia.
Qed.
Lemma column_sum : forall m lab, nth_error (skipn 2 (hst_header c u)) m = Some lab ->
  lsum (seq 0 (length (dm_ids d))) (fun p => sums_of c u nghost xmin xmax M d grids p m) =
  dom_sum d (fun K J I => cell_vol c xmin xmax M d K J I * column S (x1_mid xmin xmax M d I) lab K J I).
Proof.
  intros m lab NL. destruct good as (G1 & G2 & _ & _ & _ & GL). rewrite GL. unfold dom_sum.
  rewrite <- (grids_sum nghost d (fun K J I => cell_vol c xmin xmax M d K J I * column S (x1_mid xmin xmax M d I) lab K J I)) by auto.
  apply lsum_ext. intros p IP. apply in_seq in IP. pose proof (pos_in p ltac:(lia)) as PI. cbv zeta. unfold sums_of. set (g := idx_of_pos d p) in *. rewrite lsum_cells.
  cbn [gi_ax]. apply sumZ_ext. intros k HK. apply sumZ_ext. intros j HJ. apply sumZ_ext. intros i HH.
  cbn [term]. rewrite x1_pos. destruct (HG g k j i PI HH HJ HK) as (E1 & E2 & E3).
  rewrite terms_meaning. set (x1 := x1_mid xmin xmax M d (gcell nghost d g X1 i)).
  erewrite nth_error_nth by (apply map_nth_error; exact NL).
  rewrite (label_col lab _ _ k j i _ _ _ ltac:(eapply skipn_In; eapply nth_error_In; exact NL) E1 E2 E3).
  change (gDisp d X3 (gn g) + (k - grid_s nghost d X3 (gn g)))%Z with (gcell nghost d g X3 k).
  change (gDisp d X2 (gm g) + (j - grid_s nghost d X2 (gm g)))%Z with (gcell nghost d g X2 j).
  change (gDisp d X1 (gl g) + (i - grid_s nghost d X1 (gl g)))%Z with (gcell nghost d g X1 i). fold x1. f_equal.
  unfold cell_dVol, cell_vol. cbv zeta. cbn [mk_pgrid p_dx]. fold x1. pose proof (dx_pos X1). pose proof (dx_pos X2). pose proof (dx_pos X3).
  destruct (Rlt_dec 0 (dom_dx xmin xmax M d X1)); [|lra]. destruct (Rlt_dec 0 (dom_dx xmin xmax M d X2)); [|lra]. destruct (Rlt_dec 0 (dom_dx xmin xmax M d X3)); [|lra].
  destruct (h_cyl c); ring.
Qed.
End Vol.
