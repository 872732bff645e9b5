(** * The arrays of dump_history *)
From Coq Require Import ZArith List Bool Arith Reals Lia Lra.
From Verif Require Import CStr MeshModel PosModel GasModel HistModel SumFacts IntegSpec.
Import ListNotations.
Open Scope R_scope.

Definition row (n : nat) (f : nat -> R) : list R := map f (seq 0 n).
Lemma row_length : forall n f, length (row n f) = n. Proof. intros. unfold row. rewrite map_length, seq_length. reflexivity. Qed.
Lemma row_ext : forall n f g, (forall m, (m < n)%nat -> f m = g m) -> row n f = row n g.
Proof. intros. unfold row. apply map_ext_in. intros a I. apply in_seq in I. apply H. lia. Qed.
Lemma row_nth : forall n f m x, (m < n)%nat -> nth m (row n f) x = f m.
Proof. intros. unfold row. rewrite (nth_indep _ _ (f 0%nat)) by (rewrite map_length, seq_length; auto). rewrite map_nth, seq_nth by auto. reflexivity. Qed.
Lemma row_of : forall l, l = row (length l) (fun m => nth m l 0).
Proof.
  intros l. unfold row. induction l as [|x l IH]; [reflexivity|]. cbn [length seq map]. f_equal.
  rewrite <- seq_shift, map_map. cbn [nth]. exact IH.
Qed.
Lemma set_at_mid : forall pre v post x, set_at (pre ++ v :: post) (length pre) x = Ok (pre ++ x :: post).
Proof.
  intros. unfold set_at. rewrite app_length. cbn [length]. destruct (Nat.ltb_spec (length pre) (length pre + S (length post))); [|lia].
  rewrite firstn_app, firstn_all, Nat.sub_diag. cbn [firstn]. rewrite app_nil_r.
  replace (S (length pre)) with (length pre + 1)%nat by lia. rewrite skipn_app, skipn_all2 by lia.
  replace (length pre + 1 - length pre)%nat with 1%nat by lia. reflexivity.
Qed.
Lemma get_at_mid : forall pre v post, get_at (pre ++ v :: post) (length pre) = Ok v.
Proof. intros. unfold get_at. rewrite nth_error_app2, Nat.sub_diag by lia. reflexivity. Qed.
Lemma add_at_mid : forall pre v post x, add_at (pre ++ v :: post) (length pre) x = Ok (pre ++ (v + x) :: post).
Proof.
  intros. unfold add_at. rewrite nth_error_app2, Nat.sub_diag by lia. cbn [nth_error].
  rewrite firstn_app, firstn_all, Nat.sub_diag. cbn [firstn]. rewrite app_nil_r.
  replace (S (length pre)) with (length pre + 1)%nat by lia. rewrite skipn_app, skipn_all2 by lia.
  replace (length pre + 1 - length pre)%nat with 1%nat by lia. reflexivity.
Qed.
Lemma mid_app : forall (pre : list R) v vs rest, pre ++ (v :: vs) ++ rest = pre ++ v :: (vs ++ rest). Proof. reflexivity. Qed.
Lemma shift_pre : forall (pre : list R) x post, pre ++ x :: post = (pre ++ [x]) ++ post. Proof. intros. rewrite <- app_assoc. reflexivity. Qed.
Lemma set_loop : forall (h : nat -> R) vs pre rest,
  fold_res (fun a i => set_at a i (h i)) (seq (length pre) (length vs)) (pre ++ vs ++ rest) = Ok (pre ++ map h (seq (length pre) (length vs)) ++ rest).
Proof.
  intros h. induction vs as [|v vs IH]; intros pre rest; [reflexivity|]. cbn [length seq fold_res map]. rewrite mid_app, set_at_mid. cbn [bind].
  rewrite shift_pre. replace (S (length pre)) with (length (pre ++ [h (length pre)])) by (rewrite app_length; cbn; lia).
  rewrite IH, <- app_assoc. reflexivity.
Qed.
Lemma upd_loop : forall (h : R -> R) vs pre rest,
  fold_res (fun a i => v <- get_at a i;; set_at a i (h v)) (seq (length pre) (length vs)) (pre ++ vs ++ rest) = Ok (pre ++ map h vs ++ rest).
Proof.
  intros h. induction vs as [|v vs IH]; intros pre rest; [reflexivity|]. cbn [length seq fold_res map]. rewrite mid_app, get_at_mid. cbn [bind].
  rewrite set_at_mid. cbn [bind]. rewrite shift_pre. replace (S (length pre)) with (length (pre ++ [h v])) by (rewrite app_length; cbn; lia).
  rewrite IH, <- app_assoc. reflexivity.
Qed.
Lemma get_loop : forall vs pre rest,
  fold_right (fun i r => v <- get_at (pre ++ vs ++ rest) i;; l <- r;; Ok (v :: l)) (Ok []) (seq (length pre) (length vs)) = Ok vs.
Proof.
  induction vs as [|v vs IH]; intros pre rest; [reflexivity|]. cbn [length seq fold_right]. rewrite mid_app, get_at_mid. cbn [bind].
  rewrite shift_pre. replace (S (length pre)) with (length (pre ++ [v])) by (rewrite app_length; cbn; lia). rewrite IH. reflexivity.
Qed.
Lemma add_loop : forall es vs pre rest, length vs = length es ->
  add_terms (pre ++ vs ++ rest) (length pre) es = Ok (pre ++ row (length es) (fun m => nth m vs 0 + nth m es 0) ++ rest).
Proof.
  induction es as [|e es IH]; intros [|v vs] pre rest L; try discriminate; [reflexivity|]. cbn [length add_terms]. rewrite mid_app, add_at_mid.
  cbn [bind]. rewrite shift_pre. replace (S (length pre)) with (length (pre ++ [v + e])) by (rewrite app_length; cbn; lia).
  injection L as L. rewrite IH, <- app_assoc by auto. unfold row. cbn [seq map nth app]. rewrite <- seq_shift, map_map. reflexivity.
Qed.

Lemma header_len : forall c u, length (hst_header c u) = total_hst_cnt c u.
Proof.
  intros c u. unfold hst_header, total_hst_cnt. rewrite !app_length, !map_length, !seq_length.
  destruct (h_adb c), (h_mhd c), (h_selfg c), (h_cyl c); cbn [b2n length]; lia.
Qed.
Lemma terms_len : forall c u G dV x1 k j i, length (hst_terms c u G dV x1 k j i) = (total_hst_cnt c u - 2)%nat.
Proof.
  intros. unfold hst_terms, total_hst_cnt. cbv zeta. rewrite !app_length, !map_length, !seq_length.
  destruct (h_adb c), (h_mhd c), (h_selfg c), (h_cyl c); cbn [b2n length]; lia.
Qed.
(** The sum over the cells of one Grid. *)
Definition term (c : hcfg) (u : nat) (pG : pgrid) (G : hgrid) (m : nat) (q : Z * Z * Z) : R :=
  let '(k, j, i) := q in let x1 := fst (fst (cc_pos pG i j k)) in
  nth m (hst_terms c u G (cell_dVol c pG x1) x1 k j i) 0.
Lemma cells_loop : forall c u pG G cs pre rest f, length pre = 2%nat ->
  fold_res (hst_cell c u pG G) cs (pre ++ row (total_hst_cnt c u - 2) f ++ rest) =
  Ok (pre ++ row (total_hst_cnt c u - 2) (fun m => f m + lsum cs (term c u pG G m)) ++ rest).
Proof.
  intros c u pG G cs. induction cs as [|[[k j] i] cs IH]; intros pre rest f P; cbn [fold_res].
  - do 2 f_equal. f_equal. apply row_ext. intros. rewrite lsum_nil. lra.
  - cbn [hst_cell]. cbv zeta. set (x1 := fst (fst (cc_pos pG i j k))).
    assert (AL := add_loop (hst_terms c u G (cell_dVol c pG x1) x1 k j i) (row (total_hst_cnt c u - 2) f) pre rest).
    rewrite P, row_length, terms_len in AL. rewrite AL by reflexivity. cbn [bind]. rewrite IH by auto.
    do 2 f_equal. f_equal. apply row_ext. intros m M. rewrite row_nth by auto. rewrite lsum_cons. cbn [term]. fold x1. lra.
Qed.
Lemma lsum_cells : forall s e F, lsum (cells s e) F =
  sumZ (s X3) (e X3) (fun k => sumZ (s X2) (e X2) (fun j => sumZ (s X1) (e X1) (fun i => F (k, j, i)))).
Proof.
  intros s e F. unfold cells, zrange. rewrite lsum_flat, <- lsum_zrange. apply lsum_ext. intros k _.
  rewrite lsum_flat, <- lsum_zrange. apply lsum_ext. intros j _. rewrite lsum_map. apply lsum_zrange.
Qed.
Lemma two : forall (a : list R), (2 <= length a)%nat -> exists x y r, a = x :: y :: r.
Proof. intros [|x [|y r]] L; cbn in L; try lia. eauto. Qed.
(** What each process has after its loop. *)
Lemma local_ok : forall c u ng pG d g G time dt a, (total_hst_cnt c u <= length a)%nat ->
  exists rest,
  (s <- set_at a 0 time;; s <- set_at s 1 dt;; hst_local c u ng pG d g G s) =
  Ok ([time; dt] ++ row (total_hst_cnt c u - 2) (fun m => lsum (cells (fun a => grid_s ng d a (gi_ax g a)) (fun a => grid_e ng d a (gi_ax g a))) (term c u pG G m)) ++ rest)
  /\ (length rest + total_hst_cnt c u = length a)%nat.
Proof.
  intros c u ng pG d g G time dt a L. assert (L2 : (9 <= total_hst_cnt c u)%nat) by (unfold total_hst_cnt; lia).
  destruct (two a) as (x & y & r & ->); [lia|]. cbn [length] in L.
  set (n := (total_hst_cnt c u - 2)%nat). exists (skipn n r). split.
  - cbn [set_at length firstn skipn Nat.ltb Nat.leb app bind]. unfold hst_local. fold n.
    assert (E : time :: dt :: r = [time; dt] ++ firstn n r ++ skipn n r) by (rewrite firstn_skipn; reflexivity). rewrite E.
    assert (LN : length (firstn n r) = n) by (rewrite firstn_length; lia).
    assert (SL := set_loop (fun _ => 0) (firstn n r) [time; dt] (skipn n r)). rewrite LN in SL. cbn [length] in SL. rewrite SL.
    cbn [bind]. clear SL. replace (map (fun _ => 0) (seq 2 n)) with (row n (fun _ => 0)).
    2:{ unfold row. rewrite <- seq_shift, map_map, <- seq_shift, !map_map. reflexivity. }
    unfold n. rewrite cells_loop by reflexivity. erewrite row_ext; [reflexivity|]. intros. cbv beta. lra.
  - rewrite skipn_length. cbn [length]. lia.
Qed.
(** The line written from sums [f]. *)
Lemma line_ok : forall c u time dt f vol rest, let n := total_hst_cnt c u in
  hst_line n vol ([time; dt] ++ row (n - 2) f ++ rest) = Ok ([time; dt] ++ row (n - 2) (fun m => f m / vol)).
Proof.
  intros. unfold hst_line. assert (N : (9 <= n)%nat) by (unfold n, total_hst_cnt; lia).
  assert (UL := upd_loop (fun v => v / vol) (row (n - 2) f) [time; dt] rest). rewrite row_length in UL. cbn [length] in UL. rewrite UL. cbn [bind].
  assert (GL := get_loop ([time; dt] ++ map (fun v => v / vol) (row (n - 2) f)) [] rest). cbn [app length] in GL. rewrite app_nil_l in GL || idtac.
  rewrite map_length, row_length in GL. replace (S (S (n - 2))) with n in GL by lia. cbn [app]. rewrite GL. f_equal. cbn [app]. do 2 f_equal.
  unfold row. rewrite map_map. reflexivity.
Qed.
Lemma set_over : forall (h : nat -> R) vs pre k, 
  fold_res (fun a i => set_at a i (h i)) (seq (length pre) (S (length vs) + k)) (pre ++ vs) = UB.
Proof.
  intros h. induction vs as [|v vs IH]; intros pre k.
  - cbn [length plus seq fold_res]. rewrite app_nil_r. unfold set_at at 1. rewrite Nat.ltb_irrefl. reflexivity.
  - cbn [length plus seq fold_res]. rewrite set_at_mid. cbn [bind]. rewrite shift_pre.
    replace (S (length pre)) with (length (pre ++ [h (length pre)])) by (rewrite app_length; cbn; lia). apply (IH (pre ++ [h (length pre)]) k).
Qed.
