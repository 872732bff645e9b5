(** * C105: the error of a run *)
From Coq Require Import Reals ZArith Lia Lra List.
From Verif Require Import CStr GasModel L1Model L1Spec.
Import ListNotations.
Open Scope R_scope.

Lemma sumR_app a b : sumR (a ++ b) = sumR a + sumR b.
Proof. unfold sumR. induction a as [|x a IH]; cbn [app fold_right]; [lra|]. rewrite IH. lra. Qed.

Lemma vadd_length a b : length a = length b -> length (vadd a b) = length a.
Proof. intro H. unfold vadd. rewrite map_length, combine_length. lia. Qed.
Lemma vadd_nth a b i : length a = length b -> nth i (vadd a b) 0 = nth i a 0 + nth i b 0.
Proof.
  revert b i. induction a as [|x a IH]; intros [|y b] i H; try discriminate; unfold vadd; cbn [combine map].
  - destruct i; cbn [nth]; lra.
  - destruct i; cbn [nth fst snd]; [lra|]. apply IH. now injection H.
Qed.
Lemma zeros_nth n i : nth i (zeros n) 0 = 0.
Proof. unfold zeros. revert i. induction n as [|n IH]; intros [|i]; cbn [repeat nth]; auto. Qed.

(** Sums of vectors, entry by entry. *)
Lemma fold_vadd {A} n (f : A -> list R) l : (forall a, In a l -> length (f a) = n) ->
  forall e, length e = n -> length (fold_left (fun e a => vadd e (f a)) l e) = n /\
    forall i, nth i (fold_left (fun e a => vadd e (f a)) l e) 0 = nth i e 0 + sumR (map (fun a => nth i (f a) 0) l).
Proof.
  induction l as [|a l IH]; intros H e HE; cbn [fold_left map sumR fold_right].
  - split; [exact HE|]. intro i. unfold sumR. cbn. lra.
  - pose proof (H a (or_introl eq_refl)) as HA.
    destruct (IH (fun b B => H b (or_intror B)) (vadd e (f a)) ltac:(rewrite vadd_length; lia)) as (L & N). split; [exact L|].
    intro i. rewrite N, vadd_nth by lia. unfold sumR. cbn [fold_right]. lra.
Qed.

Lemma fold_left_map_vadd {A} (f : A -> list R) l : forall e, fold_left (fun e a => vadd e (f a)) l e = fold_left vadd (map f l) e.
Proof. induction l as [|a l IH]; intro e; cbn [fold_left map]; auto. Qed.

Section Dom.
Variable D : l1dom.
Hypothesis WF : well_formed D.

Lemma cell_vol_eq c : cell_vol D (l1x c) = volume D c.
Proof.
  destruct WF as (A & B & C & _). unfold cell_vol, volume. cbv zeta.
  destruct (Rlt_dec 0 (ldx1 D)); [|lra]. destruct (Rlt_dec 0 (ldx2 D)); [|lra]. destruct (Rlt_dec 0 (ldx3 D)); [|lra]. destruct (cyl D); ring.
Qed.
Lemma tot_vol_eq : tot_vol D = norm_by D.
Proof.
  destruct WF as (_ & _ & _ & A & B & C). unfold tot_vol, norm_by. cbv zeta. destruct (errortype D =? 1)%Z; [|reflexivity].
  destruct (Rlt_dec (lmin1 D) (lmax1 D)); [|lra]. destruct (Rlt_dec (lmin2 D) (lmax2 D)); [|lra]. destruct (Rlt_dec (lmin3 D) (lmax3 D)); [|lra].
  destruct (cyl D); field.
Qed.
Definition entry (i : nat) (cells : list l1cell) : R := l1_norm D (fun U => nth i (members U) 0) cells.
Lemma entry_app i a b : entry i (a ++ b) = entry i a + entry i b.
Proof. unfold entry, l1_norm. rewrite map_app. apply sumR_app. Qed.

Lemma cell_err_length c : has_scalars D c -> length (cell_err D c) = (8 + nscal D)%nat.
Proof. intros [A B]. unfold cell_err, members. rewrite map_length, combine_length, !app_length, A, B. cbn. lia. Qed.
Lemma nth_diff v a : forall b i, length a = length b -> nth i (map (fun p => v * Rabs (fst p - snd p)) (combine a b)) 0 = v * Rabs (nth i a 0 - nth i b 0).
Proof.
  induction a as [|x a IH]; intros [|y b] i H; try discriminate; cbn [combine map].
  - destruct i; cbn [nth]; rewrite Rminus_0_r, Rabs_R0; lra.
  - destruct i; cbn [nth fst snd]; [reflexivity|]. apply IH. now injection H.
Qed.
Lemma cell_err_nth c i : has_scalars D c -> nth i (cell_err D c) 0 = entry i [c].
Proof.
  intros [A B]. unfold cell_err, entry, l1_norm. cbn [map sumR fold_right]. rewrite cell_vol_eq, nth_diff; [lra|].
  unfold members. rewrite !app_length, A, B. reflexivity.
Qed.
Lemma row_err_ok row : (forall c, In c row -> has_scalars D c) -> length (row_err D row) = (8 + nscal D)%nat /\ forall i, nth i (row_err D row) 0 = entry i row.
Proof.
  intro H. unfold row_err.
  destruct (fold_vadd (8 + nscal D) (cell_err D) row (fun c C => cell_err_length c (H c C)) (zeros (8 + nscal D)) (repeat_length _ _)) as (L & N).
  split; [exact L|]. intro i. rewrite N, zeros_nth, Rplus_0_l. clear L N. induction row as [|c row IH]; [reflexivity|].
  cbn [map]. change (c :: row) with ([c] ++ row). rewrite entry_app, <- IH by (intros; apply H; now right).
  unfold sumR. cbn [fold_right]. rewrite cell_err_nth by (apply H; now left). reflexivity.
Qed.
Lemma grid_err_ok rows : (forall c, In c (concat rows) -> has_scalars D c) -> length (grid_err D rows) = (8 + nscal D)%nat /\ forall i, nth i (grid_err D rows) 0 = entry i (concat rows).
Proof.
  intro H. unfold grid_err.
  assert (HR : forall r, In r rows -> forall c, In c r -> has_scalars D c) by (intros r R c C; apply H, in_concat; eauto).
  destruct (fold_vadd (8 + nscal D) (row_err D) rows (fun r R => proj1 (row_err_ok r (HR r R))) (zeros (8 + nscal D)) (repeat_length _ _)) as (L & N).
  split; [exact L|]. intro i. rewrite N, zeros_nth, Rplus_0_l. clear L N H. induction rows as [|r rows IH]; [reflexivity|].
  cbn [map concat]. rewrite entry_app, <- IH by (intros; eapply HR; [right|]; eassumption).
  unfold sumR. cbn [fold_right]. rewrite (proj2 (row_err_ok r (HR r (or_introl eq_refl)))). reflexivity.
Qed.

Lemma list_eq (a b : list R) : length a = length b -> (forall i, (i < length a)%nat -> nth i a 0 = nth i b 0) -> a = b.
Proof. intros. now apply nth_ext with 0 0. Qed.

Lemma print_right e cells : length e = (8 + nscal D)%nat -> (forall i, (i < 8 + nscal D)%nat -> nth i e 0 = entry i cells) -> right_line D cells (l1_print D e).
Proof.
  intros L N. unfold right_line, l1_print. cbv zeta. rewrite tot_vol_eq. rewrite !N by lia. f_equal; [f_equal|].
  - f_equal. f_equal. unfold columns, sumR. cbn [app map seq fold_right].
    change (entry 0 cells) with (l1_norm D cd cells). change (entry 1 cells) with (l1_norm D cM1 cells). change (entry 2 cells) with (l1_norm D cM2 cells).
    change (entry 3 cells) with (l1_norm D cM3 cells). change (entry 4 cells) with (l1_norm D cB1 cells). change (entry 5 cells) with (l1_norm D cB2 cells).
    change (entry 6 cells) with (l1_norm D cB3 cells). change (entry 7 cells) with (l1_norm D cE cells). ring.
  - unfold columns. rewrite !map_app. f_equal. rewrite map_map. apply list_eq.
    { rewrite !map_length, skipn_length, seq_length. lia. }
    intros i HI. rewrite map_length, skipn_length in HI.
    replace 0 with (0 / norm_by D) at 1 by (unfold Rdiv; ring). rewrite (map_nth (fun x => x / norm_by D)).
    assert (NS : nth i (skipn 8 e) 0 = nth (8 + i) e 0). { rewrite <- (firstn_skipn 8 e) at 2. rewrite app_nth2 by (rewrite firstn_length; lia). f_equal. rewrite firstn_length. lia. }
    rewrite NS, N by lia.
    rewrite (nth_indep _ 0 ((fun x => l1_norm D (fun U => nth x (cs U) 0) cells / norm_by D) 0%nat)) by (rewrite map_length, seq_length; lia).
    rewrite (map_nth (fun x => l1_norm D (fun U => nth x (cs U) 0) cells / norm_by D)), seq_nth by lia. f_equal.
Qed.
End Dom.

(** Without MPI the line has, for every variable, the sum over all cells of the volume times
    the difference, divided by the volume of the Domain if asked for, and the root of
    the sum of squares of the eight sums. *)
Theorem C105_serial : forall D rows, well_formed D -> (forall c, In c (concat rows) -> has_scalars D c) ->
  right_line D (concat rows) (l1_serial D rows).
Proof.
  intros D rows WF H. destruct (grid_err_ok D WF rows H) as (L & N). apply print_right; auto.
Qed.
Print Assumptions C105_serial.

(** With MPI and without scalars process 0 writes the same line, however the cells are
    divided.  Missing: scalars, and that the other processes write nothing. *)
Theorem C105_parallel_partial : forall D grids, well_formed D -> nscal D = 0%nat -> grids <> [] ->
  (forall c, In c (concat (map (@concat _) grids)) -> has_scalars D c) ->
  exists l others, l1_mpi D grids = Ok l :: others /\ right_line D (concat (map (@concat _) grids)) l.
Proof.
  intros D grids WF NS NE H. unfold l1_mpi. cbv zeta. set (tot := fold_left vadd _ _).
  assert (HG : forall g, In g grids -> forall c, In c (concat g) -> has_scalars D c).
  { intros g G c C. apply H, in_concat. exists (concat g). split; [now apply in_map|exact C]. }
  assert (T : length tot = (8 + nscal D)%nat /\ forall i, nth i tot 0 = entry D i (concat (map (@concat _) grids))).
  { unfold tot. rewrite <- fold_left_map_vadd.
    destruct (fold_vadd (8 + nscal D) (grid_err D) grids (fun g G => proj1 (grid_err_ok D WF g (HG g G))) (zeros (8 + nscal D)) (repeat_length _ _)) as (L & N).
    split; [exact L|]. intro i. rewrite N, zeros_nth, Rplus_0_l. clear tot L N H NE. induction grids as [|g grids IH]; [reflexivity|].
    cbn [map concat]. rewrite entry_app, <- IH by (intros; eapply HG; [right|]; eassumption).
    unfold sumR. cbn [fold_right]. rewrite (proj2 (grid_err_ok D WF g (HG g (or_introl eq_refl)))). reflexivity. }
  clearbody tot. destruct T as (L & N). destruct grids as [|g grids]; [congruence|]. cbn [map].
  destruct (grid_err_ok D WF g (HG g (or_introl eq_refl))) as (L0 & _).
  eexists. eexists. split; [reflexivity|]. rewrite NS in *.
  rewrite (skipn_all2 (grid_err D g)) by lia. rewrite app_nil_r, firstn_all2 by lia. apply print_right; auto; rewrite NS; auto.
Qed.
Print Assumptions C105_parallel_partial.

(** ** The error per volume *)
(** The cells of a uniform Domain of n1 * n2 * n3 cells with any gas and solution. *)
Definition grid_cells (D : l1dom) (n1 n2 n3 : nat) (U S : nat -> nat -> nat -> cons) : list l1cell :=
  concat (map (fun k => concat (map (fun j => map (fun i =>
    L1Cell (lmin1 D + (INR i + 1 / 2) * ldx1 D) (U k j i) (S k j i)) (seq 0 n1)) (seq 0 n2))) (seq 0 n3)).
Lemma sum_const {A} (f : A -> R) l e : (forall a, In a l -> f a = e) -> sumR (map f l) = INR (length l) * e.
Proof.
  unfold sumR. induction l as [|a l IH]; intro H; cbn [map fold_right length]; [cbn; lra|].
  rewrite IH, H by (try intros; try apply H; now (left + right)). rewrite S_INR. ring.
Qed.
Lemma sum_concat {A} (f : A -> R) (ls : list (list A)) : sumR (map f (concat ls)) = sumR (map (fun l => sumR (map f l)) ls).
Proof. induction ls as [|l ls IH]; cbn [concat map]; [reflexivity|]. rewrite map_app, sumR_app, IH. reflexivity. Qed.
Lemma sum_x x0 d n : sumR (map (fun i => x0 + (INR i + 1 / 2) * d) (seq 0 n)) = INR n * (x0 + INR n * d / 2).
Proof.
  induction n as [|n IH]; [unfold sumR; cbn; ring|]. rewrite seq_S, map_app, sumR_app, IH. cbn [map Nat.add]. unfold sumR. cbn [fold_right].
  rewrite S_INR. field.
Qed.
Lemma sumR_scal c l : sumR (map (fun x => c * x) l) = c * sumR l.
Proof. unfold sumR. induction l as [|x l IH]; cbn [map fold_right]; [ring|]. rewrite IH. ring. Qed.

(** With errortype 1 a difference that is the same everywhere is what is reported, in
    Cartesian and in cylindrical coordinates. *)
Theorem C105_mean : forall D n1 n2 n3 U S var e, well_formed D -> errortype D = 1%Z -> (cyl D = true -> 0 <= lmin1 D) ->
  (0 < n1)%nat -> (0 < n2)%nat -> (0 < n3)%nat ->
  lmax1 D - lmin1 D = INR n1 * ldx1 D -> lmax2 D - lmin2 D = INR n2 * ldx2 D -> lmax3 D - lmin3 D = INR n3 * ldx3 D ->
  (forall k j i, Rabs (var (U k j i) - var (S k j i)) = e) ->
  l1_norm D var (grid_cells D n1 n2 n3 U S) / norm_by D = e.
Proof.
  intros D n1 n2 n3 U S var e WF ET HC P1 P2 P3 E1 E2 E3 HV. destruct WF as (A & B & C & A' & B' & C').
  unfold l1_norm, grid_cells. rewrite sum_concat, map_map.
  set (row := ldx1 D * ldx2 D * ldx3 D * e * (INR n1 * (if cyl D then (lmin1 D + lmax1 D) / 2 else 1))).
  rewrite (sum_const _ _ (INR n2 * row)).
  2:{ intros k _. rewrite sum_concat, map_map. rewrite (sum_const _ _ row); [now rewrite seq_length|]. intros j _. rewrite map_map.
      unfold volume, row. cbn [l1x l1U l1S].
      rewrite (map_ext _ (fun i => (ldx1 D * ldx2 D * ldx3 D * e) * (if cyl D then lmin1 D + (INR i + 1 / 2) * ldx1 D else 1))).
      2:{ intro i. rewrite HV. ring. }
      rewrite <- (map_map (fun i => if cyl D then lmin1 D + (INR i + 1 / 2) * ldx1 D else 1) (fun x => ldx1 D * ldx2 D * ldx3 D * e * x)).
      rewrite sumR_scal. f_equal. destruct (cyl D).
      - rewrite sum_x. replace (lmax1 D) with (lmin1 D + INR n1 * ldx1 D) by lra. field.
      - rewrite (sum_const _ _ 1), seq_length by auto. ring. }
  rewrite seq_length. unfold row, norm_by. rewrite ET, Z.eqb_refl, E1, E2, E3.
  apply lt_0_INR in P1, P2, P3.
  assert (Z : (if cyl D then (lmin1 D + lmax1 D) / 2 else 1) <> 0). { destruct (cyl D); [specialize (HC eq_refl); lra|lra]. }
  set (w := if cyl D then _ else _) in *. clearbody w. field. repeat split; lra.
Qed.
Print Assumptions C105_mean.

(** ** What goes wrong with MPI *)
(** Gas of density [d] and one scalar [s], at rest. *)
Definition still (d s : R) : cons := Cons d 0 0 0 0 0 0 0 [s].
Definition unit_dom : l1dom := L1Dom false 1 1 1 0 2 0 1 0 1 2 1 1 1 1.
Example C105_unit_dom : well_formed unit_dom /\ has_scalars unit_dom (L1Cell (1 / 2) (still 1 1) (still 1 0)).
Proof. unfold well_formed, has_scalars, unit_dom. cbn. repeat split; lra. Qed.

(** Two cells on two processes, the scalar right in the first and wrong in the second:
    process 0 reports no error of the scalar. *)
Theorem C105_scalars_refuted : exists D grids l others, well_formed D /\ (forall c, In c (concat (map (@concat _) grids)) -> has_scalars D c) /\
  l1_mpi D grids = Ok l :: others /\ ~ right_line D (concat (map (@concat _) grids)) l.
Proof.
  set (a := L1Cell (1 / 2) (still 1 0) (still 1 0)). set (b := L1Cell (3 / 2) (still 1 1) (still 1 0)).
  exists unit_dom, [[[a]]; [[b]]]. eexists. eexists. split; [apply C105_unit_dom|]. split.
  { intros c [<-|[<-|[]]]; split; reflexivity. }
  split; [reflexivity|]. unfold right_line. intro E. apply (f_equal (fun x => nth 8 (snd x) 0)) in E.
  unfold l1_print in E. cbn [snd] in E.
  assert (W : tot_vol unit_dom = 2). { unfold tot_vol, unit_dom. cbn [errortype lmin1 lmax1 lmin2 lmax2 lmin3 lmax3 cyl Z.eqb Pos.eqb]. cbv zeta.
    destruct (Rlt_dec 0 2); [|lra]. destruct (Rlt_dec 0 1); [|lra]. lra. }
  assert (N : norm_by unit_dom = 2). { unfold norm_by, unit_dom. cbn. lra. }
  assert (V : cell_vol unit_dom (1 / 2) = 1). { unfold cell_vol, unit_dom. cbn [cyl ldx1 ldx2 ldx3]. cbv zeta. destruct (Rlt_dec 0 1); [|lra]. lra. }
  rewrite W, N in E. clear W N.
  unfold columns, l1_norm, volume, grid_err, row_err, cell_err, a, b, still, members, vadd, zeros, unit_dom in *.
  cbn [cyl ldx1 ldx2 ldx3 nscal l1x l1U l1S cd cM1 cM2 cM3 cE cB1 cB2 cB3 cs app map fold_left combine repeat Nat.add firstn skipn nth seq concat fst snd] in E.
  rewrite V in E. unfold sumR in E. cbn [fold_right] in E.
  replace (0 - 0) with 0 in E by ring. rewrite Rminus_0_r, Rabs_R0, Rabs_R1 in E. lra.
Qed.
Print Assumptions C105_scalars_refuted.

(** Every further process of the Domain also goes on to write a line, from sums that it does
    not have. *)
Theorem C105_writers_refuted : forall D g0 g1 grids, exists l, l1_mpi D (g0 :: g1 :: grids) = Ok l :: UB :: map (fun _ => UB) grids.
Proof. intros. unfold l1_mpi. cbn [map]. eexists. rewrite map_map. reflexivity. Qed.
Print Assumptions C105_writers_refuted.
