(** Properties C37, C58: reconstruction creates no new extrema; exactness. *)
From Coq Require Import Reals ZArith Arith Lra Lia List.
From Verif Require Import GasModel ConvProps ReconModel ReconSpec.
Open Scope R_scope.

Lemma clamp_between a b x : between a b (clamp a b x).
Proof.
  unfold between, clamp, MIN, MAX, Rmin, Rmax.
  destruct (Rle_dec a b); repeat destruct (Rlt_dec _ _); lra.
Qed.
Lemma clamp_id a b x : between a b x -> clamp a b x = x.
Proof.
  unfold between, clamp, MIN, MAX, Rmin, Rmax. destruct (Rle_dec a b); repeat destruct (Rlt_dec _ _); lra.
Qed.
Lemma between_sym a b x : between a b x -> between b a x.
Proof. unfold between. rewrite Rmin_comm, Rmax_comm. auto. Qed.
Lemma between_left a b : between a b a.
Proof. unfold between, Rmin, Rmax. destruct (Rle_dec a b); lra. Qed.
Lemma between_cases a b x : between a b x <-> a <= x <= b \/ b <= x <= a.
Proof. unfold between, Rmin, Rmax. destruct (Rle_dec a b); lra. Qed.
Lemma between_frac a b t : 0 <= t <= 1 -> between a b (a + t * (b - a)).
Proof. intros H. apply between_cases. destruct (Rle_dec a b); [left|right]; nra. Qed.

Lemma same_sign_sum dl dr : 0 < dl * dr -> dl + dr <> 0.
Proof. intros H Z. assert (dr = - dl) by lra. subst. assert (0 <= dl * dl) by (apply Rle_0_sqr). lra. Qed.

(** The limited slope never exceeds twice either one-sided difference. *)
Lemma limited_range dl dr dg : let s := limited dl dr (dl + dr) dg in
  s = 0 \/ (0 < dl /\ 0 < dr /\ 0 <= s <= 2 * dl /\ s <= 2 * dr) \/ (dl < 0 /\ dr < 0 /\ 2 * dl <= s <= 0 /\ 2 * dr <= s).
Proof.
  intros s. subst s. unfold limited. destruct (Rlt_dec 0 (dl * dr)) as [P|]; [|left; reflexivity]. right.
  destruct (Rtotal_order dl 0) as [L|[L|L]].
  - right. assert (dr < 0) by nra. split; [exact L|]. split; [assumption|].
    unfold SIGN. destruct (Rlt_dec (dl + dr) 0); [|lra].
    unfold half, MIN. rewrite !(Rabs_left dl), !(Rabs_left dr) by assumption.
    assert (G := Rabs_pos dg). assert (C := Rabs_pos (dl + dr)).
    repeat destruct (Rlt_dec _ _); lra.
  - subst. lra.
  - left. assert (0 < dr) by nra. split; [exact L|]. split; [assumption|].
    unfold SIGN. destruct (Rlt_dec (dl + dr) 0); [lra|].
    unfold half, MIN. rewrite !(Rabs_right dl), !(Rabs_right dr) by lra.
    assert (G := Rabs_pos dg). assert (C := Rabs_pos (dl + dr)).
    repeat destruct (Rlt_dec _ _); lra.
Qed.

Lemma prim2_range W i n : let s := prim2_slope W i n in
  between (W i n) (W (i - 1)%Z n) (W i n - half * s) /\ between (W i n) (W (i + 1)%Z n) (W i n + half * s).
Proof.
  intros s. subst s. unfold prim2_slope.
  set (dl := W i n - W (i - 1)%Z n). set (dr := W (i + 1)%Z n - W i n).
  replace (W (i + 1)%Z n - W (i - 1)%Z n) with (dl + dr) by (unfold dl, dr; ring).
  assert (H := limited_range dl dr (vl_diff dl dr)). cbv zeta in H. set (s := limited _ _ _ _) in *. clearbody s.
  unfold dl, dr, half in *. rewrite !between_cases. lra.
Qed.
Lemma prim2_ends_eq W i n :
  prim2_ends W i n = (W i n - half * prim2_slope W i n, W i n + half * prim2_slope W i n).
Proof. destruct (prim2_range W i n). unfold prim2_ends. rewrite !clamp_id by assumption. reflexivity. Qed.

(** PLM: the two edge values stay symmetric about the cell value. *)
Lemma plm_shape nw W es i n : exists d, plm_ends nw W es i n = (W i n - d, W i n + d) /\
  between (W i n) (W (i - 1)%Z n) (W i n - d) /\ between (W i n) (W (i + 1)%Z n) (W i n + d).
Proof.
  unfold plm_ends. cbv zeta. set (s := chr_slope nw W es i n).
  set (l := clamp (W i n) (W (i - 1)%Z n) (W i n - half * s * 1)).
  set (r := clamp (W i n) (W (i + 1)%Z n) (W i n + half * s * 1 + 1 * (W i n - half * s * 1) - 1 * l)).
  assert (L := clamp_between (W i n) (W (i - 1)%Z n) (W i n - half * s * 1)). fold l in L.
  assert (RE : r = clamp (W i n) (W (i + 1)%Z n) (2 * W i n - l)) by (unfold r; f_equal; unfold half; field).
  clearbody r. assert (X := clamp_between (W i n) (W (i + 1)%Z n) (2 * W i n - l)). rewrite <- RE in X.
  exists (r - W i n). split; [f_equal; unfold half; field|]. split; [|replace (W i n + (r - W i n)) with r by ring; exact X].
  clearbody l s. clear X. subst r. unfold clamp, MIN, MAX in *. rewrite between_cases in *. repeat destruct (Rlt_dec _ _); lra.
Qed.

Lemma koren_range t : 0 <= koren t <= 1.
Proof. unfold koren, MAX, MIN. repeat destruct (Rlt_dec _ _); lra. Qed.

Lemma ends_between s W i n : between (W i n) (W (i - 1)%Z n) (fst (ends s W i n)) /\ between (W i n) (W (i + 1)%Z n) (snd (ends s W i n)).
Proof.
  destruct s; cbn [ends].
  - cbn [fst snd]. unfold dc_r, dc_l. replace (i + 1 - 1)%Z with i by lia. split; apply between_left.
  - unfold prim2_ends. cbn [fst snd]. split; apply clamp_between.
  - destruct (plm_shape nw W es i n) as (d & -> & A & B). split; assumption.
  - unfold prim3_ends, clamped_ends. cbv zeta. cbn [fst snd]. split; apply clamp_between.
  - unfold ppm_ends, clamped_ends. cbn [fst snd]. split; apply clamp_between.
  - unfold koren_ends. cbv zeta. cbn [fst snd]. split.
    + replace (W i n - koren (p3c_theta (W (i + 1)%Z n - W i n) (W i n - W (i - 1)%Z n)) * (W i n - W (i - 1)%Z n))
        with (W i n + koren (p3c_theta (W (i + 1)%Z n - W i n) (W i n - W (i - 1)%Z n)) * (W (i - 1)%Z n - W i n)) by ring.
      apply between_frac, koren_range.
    + apply between_frac, koren_range.
Qed.

(** ** C37: both states at an interface lie between the two adjacent cell values *)
Theorem C37_no_new_extrema : forall s W i n,
  between (W (i - 1)%Z n) (W i n) (left_state s W i n) /\
  between (W (i - 1)%Z n) (W i n) (right_state s W i n).
Proof.
  intros s W i n. unfold left_state, right_state, vl_l, vl_r. split.
  - destruct (ends_between s W (i - 1)%Z n) as [_ H]. replace (i - 1 + 1)%Z with i in H by lia. exact H.
  - destruct (ends_between s W i n) as [H _]. apply between_sym. exact H.
Qed.
Print Assumptions C37_no_new_extrema.

(** Uniform data are reproduced exactly; positive data give positive states. *)
Theorem C37_uniform : forall s W i n a, W (i - 1)%Z n = a -> W i n = a ->
  left_state s W i n = a /\ right_state s W i n = a.
Proof.
  intros s W i n a A B. destruct (C37_no_new_extrema s W i n) as [L X]. rewrite A, B in L, X.
  unfold between, Rmin, Rmax in *. destruct (Rle_dec a a); lra.
Qed.
Print Assumptions C37_uniform.
Theorem C37_positive : forall s W i n lo, lo < W (i - 1)%Z n -> lo < W i n ->
  lo < left_state s W i n /\ lo < right_state s W i n.
Proof.
  intros s W i n lo A B. destruct (C37_no_new_extrema s W i n) as [L X].
  unfold between, Rmin, Rmax in *. destruct (Rle_dec _ _); lra.
Qed.
Print Assumptions C37_positive.

(** ** The divisors met on the way are never zero *)
Theorem C37_divisors : forall a b, (0 < a * b -> a + b <> 0) /\ Rabs b + TINY40 <> 0 /\ (a <> 0 -> SQR (/ 10 * a) <> 0).
Proof.
  intros a b. split; [apply same_sign_sum|]. split.
  - assert (0 < TINY40) by (apply Rinv_0_lt_compat, pow_lt; lra). assert (H0 := Rabs_pos b). lra.
  - intros H. unfold SQR. assert (/ 10 * a <> 0) by lra. intros Z. destruct (Rmult_integral _ _ Z); auto.
Qed.
Print Assumptions C37_divisors.

(** ** LimO3 is not limited below a threshold *)
Theorem C37_limo3_partial : forall dx W i n,
  1 <= (SQR (W i n - W (i - 1)%Z n) + SQR (W (i + 1)%Z n - W i n)) / SQR (/ 10 * dx) ->
  between (W i n) (W (i - 1)%Z n) (fst (limo3_ends dx W i n)) /\ between (W i n) (W (i + 1)%Z n) (snd (limo3_ends dx W i n)).
Proof.
  intros dx W i n H. unfold limo3_ends, limo3. cbv zeta. cbn [fst snd].
  assert (LIM : forall t, 0 <= MAX (MIN ((2 + t) / 6) (MAX (- (1 / 4) * t) (MIN ((2 + t) / 6) (MIN t (8 / 10))))) 0 <= 1).
  { intros t. unfold MAX, MIN. repeat destruct (Rlt_dec _ _); lra. }
  destruct (Rle_dec 1 _) as [_|N]; [|contradiction].
  split.
  - match goal with |- between _ _ (_ - ?k * _) => replace (W i n - k * (W i n - W (i - 1)%Z n)) with (W i n + k * (W (i - 1)%Z n - W i n)) by ring end.
    apply between_frac, LIM.
  - apply between_frac, LIM.
Qed.
Print Assumptions C37_limo3_partial.

Definition limo3_ex : slice := fun i _ => if Z.eq_dec i (-1) then 101 / 10000 else if Z.eq_dec i 0 then 1 / 10000 else 1 / 20000.
Theorem C37_limo3_refuted : exists dx W i, 0 < dx /\ (forall j n, 0 < W j n) /\ vl_l (limo3_ends dx W) i 0%nat < 0.
Proof.
  exists 1, limo3_ex, 1%Z. split; [lra|]. split.
  { intros j n. unfold limo3_ex. repeat destruct (Z.eq_dec _ _); lra. }
  unfold vl_l, limo3_ends, limo3. cbv zeta. cbn [fst snd].
  replace (1 - 1)%Z with 0%Z by reflexivity. replace (0 + 1)%Z with 1%Z by reflexivity. replace (0 - 1)%Z with (-1)%Z by reflexivity.
  replace (limo3_ex 0%Z 0%nat) with (1 / 10000) by reflexivity. replace (limo3_ex 1%Z 0%nat) with (1 / 20000) by reflexivity.
  replace (limo3_ex (-1)%Z 0%nat) with (101 / 10000) by reflexivity.
  destruct (Rle_dec 1 _) as [H|_].
  { exfalso. unfold SQR in H. lra. }
  unfold p3c_theta, SIGN. destruct (Rlt_dec _ 0); [|lra].
  rewrite Rabs_left by lra.
  assert (T : 0 < TINY40 <= / 20000).
  { unfold TINY40. split; [apply Rinv_0_lt_compat, pow_lt; lra|]. apply Rinv_le_contravar; [lra|]. replace (10 ^ 40) with (10 ^ 5 * 10 ^ 35) by (rewrite <- pow_add; reflexivity).
    assert (1 <= 10 ^ 35) by (apply pow_R1_Rle; lra). lra. }
  set (t := TINY40) in *. clearbody t.
  assert (Q : / (/ 20000 + / 20000) <= / (- (1 / 20000 - 1 / 10000) + t)) by (apply Rinv_le_contravar; lra).
  unfold Rdiv at 3. set (q := / (- (1 / 20000 - 1 / 10000) + t)) in *. clearbody q. lra.
Qed.
Print Assumptions C37_limo3_refuted.

(** ** C58: data linear in the cell index are reproduced exactly *)
Definition linear (W : slice) : Prop := forall n, exists a b, forall i, W i n = a + b * IZR i.
Definition is_second_order (s : scheme) : bool := match s with FirstOrder | Koren => false | _ => true end.
Definition eigensystem_ok (s : scheme) : Prop := match s with Plm nw es | Ppm nw es => forall i, complete nw (es i) | _ => True end.

Lemma vl_diff_eq b : vl_diff b b = b.
Proof. unfold vl_diff. destruct (Rlt_dec 0 (b * b)) as [H|H]; [field; intros Z; assert (b = 0) by lra; subst; lra|]. assert (0 <= b * b) by apply Rle_0_sqr. assert (b * b = 0) by lra. destruct (Rmult_integral _ _ H1); lra. Qed.
Lemma limited_eq b : limited b b (2 * b) b = b.
Proof.
  unfold limited. destruct (Rlt_dec 0 (b * b)) as [H|H].
  - unfold SIGN, half, MIN. destruct (Rlt_dec (2 * b) 0).
    + rewrite !(Rabs_left (2 * b)), !(Rabs_left b) by lra. repeat destruct (Rlt_dec _ _); lra.
    + rewrite !(Rabs_right (2 * b)), !(Rabs_right b) by lra. repeat destruct (Rlt_dec _ _); lra.
  - assert (0 <= b * b) by apply Rle_0_sqr. assert (b * b = 0) by lra. destruct (Rmult_integral _ _ H1); lra.
Qed.

Lemma sum_S k f : sum (S k) f = sum k f + f k.
Proof.
  unfold sum. rewrite seq_S, fold_right_app. cbn [fold_right plus].
  generalize (seq 0 k). intros l. induction l; cbn [fold_right]; [ring|]. rewrite IHl. ring.
Qed.
Lemma sum_0 f : sum 0 f = 0. Proof. reflexivity. Qed.
Lemma sum_ext k f g : (forall m, (m < k)%nat -> f m = g m) -> sum k f = sum k g.
Proof. induction k; intros H; [reflexivity|]. rewrite !sum_S, H by lia. rewrite IHk; [reflexivity|]. intros; apply H; lia. Qed.
Lemma sum_plus k f g : sum k (fun m => f m + g m) = sum k f + sum k g.
Proof. induction k; [rewrite !sum_0; ring|]. rewrite !sum_S, IHk. ring. Qed.
Lemma sum_scal k c f : sum k (fun m => c * f m) = c * sum k f.
Proof. induction k; [rewrite !sum_0; ring|]. rewrite !sum_S, IHk. ring. Qed.
Lemma sum_zero k f : (forall m, (m < k)%nat -> f m = 0) -> sum k f = 0.
Proof. intros H. rewrite (sum_ext k f (fun _ => 0)) by exact H. clear. induction k; [reflexivity|]. rewrite sum_S, IHk. ring. Qed.
Lemma sum_swap k j f : sum k (fun m => sum j (fun n => f m n)) = sum j (fun n => sum k (fun m => f m n)).
Proof.
  induction k. { rewrite sum_0. symmetry. apply sum_zero. intros. apply sum_0. }
  rewrite sum_S, IHk, <- sum_plus. apply sum_ext. intros. rewrite sum_S. reflexivity.
Qed.
Lemma sum_pick k m f : (m < k)%nat -> sum k (fun j => (if Nat.eqb m j then 1 else 0) * f j) = f m.
Proof.
  induction k; intros H; [lia|]. rewrite sum_S. destruct (Nat.eqb_spec m k) as [->|N].
  - rewrite sum_zero; [ring|]. intros j J. destruct (Nat.eqb_spec k j); [lia|ring].
  - rewrite IHk by lia. ring.
Qed.
(** Projecting on the left eigenvectors and back is the identity. *)
Lemma project_back nw e d m : complete nw e -> (m < nw)%nat -> sum nw (fun n => along nw e n d * rem e m n) = d m.
Proof.
  intros C M. unfold along.
  rewrite (sum_ext nw _ (fun n => sum nw (fun k => (rem e m n * lem e n k) * d k))).
  2:{ intros n N. rewrite Rmult_comm, <- sum_scal. apply sum_ext. intros. ring. }
  rewrite sum_swap.
  rewrite (sum_ext nw _ (fun k => (if Nat.eqb m k then 1 else 0) * d k)).
  2:{ intros k K. rewrite <- (C m k M K). rewrite Rmult_comm, <- sum_scal. apply sum_ext. intros. ring. }
  apply sum_pick. exact M.
Qed.

Lemma along_scal nw e n c d : along nw e n (fun m => c * d m) = c * along nw e n d.
Proof. unfold along. rewrite <- sum_scal. apply sum_ext. intros. ring. Qed.
Lemma along_ext nw e n d d' : (forall m, (m < nw)%nat -> d m = d' m) -> along nw e n d = along nw e n d'.
Proof. intros H. unfold along. apply sum_ext. intros m M. rewrite H by exact M. reflexivity. Qed.

Lemma chr_slope_linear nw W es i n a b : (forall j, complete nw (es j)) -> linear W -> (forall j, W j n = a + b * IZR j) -> chr_slope nw W es i n = b.
Proof.
  intros C LW WN. unfold chr_slope.
  assert (DA : forall m, (m < nw)%nat -> chr_da nw W es i m = along nw (es i) m (fun k => W (i + 1)%Z k - W i k)).
  { intros m M. unfold chr_da. apply Nat.ltb_lt in M. rewrite M.
    set (x := along nw (es i) m (fun k => W (i + 1)%Z k - W i k)).
    assert (X1 : along nw (es i) m (fun k => W i k - W (i - 1)%Z k) = x).
    { apply along_ext. intros k _. destruct (LW k) as (a' & b' & E). rewrite !E, minus_IZR, plus_IZR. ring. }
    assert (X2 : along nw (es i) m (fun k => W (i + 1)%Z k - W (i - 1)%Z k) = 2 * x).
    { unfold x. rewrite <- along_scal. apply along_ext. intros k _. destruct (LW k) as (a' & b' & E). rewrite !E, minus_IZR, plus_IZR. ring. }
    assert (X3 : along nw (es i) m (fun k => vl_diff (W i k - W (i - 1)%Z k) (W (i + 1)%Z k - W i k)) = x).
    { apply along_ext. intros k _. destruct (LW k) as (a' & b' & E).
      replace (W i k - W (i - 1)%Z k) with b' by (rewrite !E, minus_IZR; ring).
      replace (W (i + 1)%Z k - W i k) with b' by (rewrite !E, plus_IZR; ring). apply vl_diff_eq. }
    rewrite X1, X2, X3. apply limited_eq. }
  destruct (n <? nw)%nat eqn:N.
  - apply Nat.ltb_lt in N. rewrite (sum_ext nw _ (fun m => along nw (es i) m (fun k => W (i + 1)%Z k - W i k) * rem (es i) n m)).
    2:{ intros m M. rewrite DA by exact M. reflexivity. }
    rewrite (project_back nw (es i) (fun k => W (i + 1)%Z k - W i k) n (C i) N). rewrite !WN, plus_IZR. ring.
  - unfold chr_da. rewrite N.
    replace (W i n - W (i - 1)%Z n) with b by (rewrite !WN, minus_IZR; ring).
    replace (W (i + 1)%Z n - W i n) with b by (rewrite !WN, plus_IZR; ring).
    replace (W (i + 1)%Z n - W (i - 1)%Z n) with (2 * b) by (rewrite !WN, minus_IZR, plus_IZR; ring).
    rewrite vl_diff_eq. apply limited_eq.
Qed.

Lemma monotonize_linear w d : monotonize w (w - d) (w + d) = (w - d, w + d).
Proof.
  unfold monotonize. cbv zeta.
  replace ((w + d - w) * (w - (w - d))) with (d * d) by ring.
  replace (6 * (w - half * (w - d + (w + d)))) with 0 by (unfold half; field).
  replace (w + d - (w - d)) with (2 * d) by ring. rewrite !Rmult_0_r.
  assert (P : 0 <= d * d) by apply Rle_0_sqr.
  destruct (Rle_dec (d * d) 0) as [H|H].
  - assert (Z : d * d = 0) by lra. assert (d = 0) by (destruct (Rmult_integral _ _ Z); assumption). subst. f_equal; ring.
  - destruct (Rlt_dec (2 * d * (2 * d)) 0); [lra|]. destruct (Rlt_dec 0 (- (2 * d * (2 * d)))); [lra|]. reflexivity.
Qed.

Theorem C58_linear_exact : forall s W i n, is_second_order s = true -> eigensystem_ok s -> linear W ->
  left_state s W i n = (W (i - 1)%Z n + W i n) / 2 /\ right_state s W i n = (W (i - 1)%Z n + W i n) / 2.
Proof.
  intros s W i n SO EO LW. destruct (LW n) as (a & b & E).
  assert (K : forall j, ends s W j n = (W j n - b / 2, W j n + b / 2)).
  { intros j.
    assert (DL : W j n - W (j - 1)%Z n = b) by (rewrite !E, minus_IZR; ring).
    assert (DR : W (j + 1)%Z n - W j n = b) by (rewrite !E, plus_IZR; ring).
    assert (CL : clamp (W j n) (W (j - 1)%Z n) (W j n - b / 2) = W j n - b / 2).
    { apply clamp_id. apply between_cases. destruct (Rle_dec 0 b); [right|left]; lra. }
    assert (CR : clamp (W j n) (W (j + 1)%Z n) (W j n + b / 2) = W j n + b / 2).
    { apply clamp_id. apply between_cases. destruct (Rle_dec 0 b); [left|right]; lra. }
    destruct s; cbn in SO; try discriminate; cbn [ends].
    - rewrite prim2_ends_eq. assert (S0 : prim2_slope W j n = b).
      { unfold prim2_slope. rewrite DL, DR. replace (W (j + 1)%Z n - W (j - 1)%Z n) with (2 * b) by lra. rewrite vl_diff_eq. apply limited_eq. }
      rewrite S0. f_equal; unfold half; lra.
    - unfold plm_ends. cbv zeta. rewrite (chr_slope_linear nw W es j n a b) by assumption.
      replace (W j n - half * b * 1) with (W j n - b / 2) by (unfold half; lra). rewrite CL.
      replace (W j n + half * b * 1 + 1 * (W j n - b / 2) - 1 * (W j n - b / 2)) with (W j n + b / 2) by (unfold half; lra). rewrite CR.
      f_equal. unfold half; lra.
    - unfold prim3_ends.
      assert (WH : forall q, prim3_half W q n = W q n - b / 2).
      { intros q. unfold prim3_half. cbv zeta.
        replace (W (q - 2)%Z n - 2 * W (q - 1)%Z n + W q n) with 0 by (rewrite !E, !minus_IZR; ring).
        destruct (Rlt_dec 0 0); [lra|].
        replace (W (q - 1)%Z n) with (W q n - b) by (rewrite !E, !minus_IZR; ring).
        repeat destruct (Rlt_dec 0 _); repeat destruct (Rlt_dec _ 0); unfold half; lra. }
      rewrite !WH. replace (W (j + 1)%Z n - b / 2) with (W j n + b / 2) by lra.
      assert (X : prim3_extremum W j n (W j n - b / 2) (W j n + b / 2) = (W j n - b / 2, W j n + b / 2)).
      { unfold prim3_extremum. cbv zeta.
        replace ((W j n + b / 2 - W j n) * (W j n - (W j n - b / 2))) with (b * b / 4) by field.
        assert (P : 0 <= b * b) by apply Rle_0_sqr.
        destruct (Rle_dec (b * b / 4) 0) as [H|H]; [|reflexivity].
        assert (Z : b * b = 0) by lra. assert (B0 : b = 0) by (destruct (Rmult_integral _ _ Z); assumption). rewrite B0.
        destruct (Rle_dec _ 0) as [H1|H1]; [|reflexivity].
        replace (-2 * (6 * (W j n - half * (W j n - 0 / 2 + (W j n + 0 / 2))))) with 0 by (unfold half; field).
        destruct (Req_EM_T 0 0); [|contradiction]. clear. f_equal; field. }
      rewrite X. cbn [fst snd]. rewrite monotonize_linear. unfold clamped_ends. cbn [fst snd]. rewrite CL, CR. reflexivity.
    - unfold ppm_ends.
      assert (WH : forall q, ppm_half nw W es q n = W q n - b / 2).
      { intros q. unfold ppm_half. rewrite !(chr_slope_linear nw W es _ n a b) by assumption. rewrite !E, minus_IZR. unfold half. field. }
      rewrite !WH. replace (W (j + 1)%Z n - b / 2) with (W j n + b / 2) by lra.
      rewrite monotonize_linear. unfold clamped_ends. cbn [fst snd]. rewrite CL, CR. reflexivity. }
  unfold left_state, right_state, vl_l, vl_r. rewrite !K. cbn [fst snd].
  split; rewrite !E, minus_IZR; field.
Qed.
Print Assumptions C58_linear_exact.

(** ** C58: reconstruction commutes with mirroring the slice *)
Definition mirrored (W : slice) : slice := fun i => W (- i)%Z.
Definition componentwise (s : scheme) : bool := match s with Plm _ _ | Ppm _ _ => false | _ => true end.

Lemma limited_mirror dl dr dc dg dg' : Rabs dg = Rabs dg' -> (0 < dl * dr -> dc <> 0) ->
  limited (- dr) (- dl) (- dc) dg' = - limited dl dr dc dg.
Proof.
  intros G Z. unfold limited. replace (- dr * - dl) with (dl * dr) by ring.
  destruct (Rlt_dec 0 (dl * dr)) as [P|]; [|ring]. specialize (Z P). rewrite !Rabs_Ropp, <- G.
  assert (M : MIN (Rabs dr) (Rabs dl) = MIN (Rabs dl) (Rabs dr)) by (unfold MIN; repeat destruct (Rlt_dec _ _); lra).
  rewrite M. unfold SIGN. destruct (Rlt_dec (- dc) 0), (Rlt_dec dc 0); try (exfalso; lra); ring.
Qed.
Lemma vl_mirror dl dr : Rabs (vl_diff dl dr) = Rabs (vl_diff (- dr) (- dl)).
Proof.
  unfold vl_diff. replace (- dr * - dl) with (dl * dr) by ring. destruct (Rlt_dec 0 (dl * dr)) as [P|]; [|reflexivity].
  replace (2 * - dr * - dl / (- dr + - dl)) with (- (2 * dl * dr / (dl + dr))); [rewrite Rabs_Ropp; reflexivity|].
  field. split; intros Z; apply (same_sign_sum dl dr P); lra.
Qed.
Lemma prim2_mirror W i n : prim2_slope (mirrored W) i n = - prim2_slope W (- i)%Z n.
Proof.
  unfold prim2_slope, mirrored. replace (- (i + 1))%Z with (- i - 1)%Z by lia. replace (- (i - 1))%Z with (- i + 1)%Z by lia.
  set (a := W (- i - 1)%Z n). set (b := W (- i)%Z n). set (c := W (- i + 1)%Z n).
  rewrite <- (limited_mirror (b - a) (c - b) (c - a) (vl_diff (b - a) (c - b)) (vl_diff (b - c) (a - b))).
  - f_equal; ring.
  - rewrite vl_mirror. f_equal. f_equal; ring.
  - intros P Z. assert (H := same_sign_sum _ _ P). lra.
Qed.
Lemma SIGN_nz x : SIGN x * SIGN x = 1. Proof. unfold SIGN. destruct (Rlt_dec x 0); lra. Qed.
Lemma p3c_mirror a b : b <> 0 -> p3c_theta (- a) (- b) = p3c_theta a b.
Proof.
  intros Z. unfold p3c_theta. rewrite Rabs_Ropp. unfold Rdiv, SIGN.
  destruct (Rlt_dec (- b) 0), (Rlt_dec b 0); try (exfalso; lra); ring.
Qed.
Lemma koren_ends_mirror W i n : koren_ends (mirrored W) i n = (snd (koren_ends W (- i)%Z n), fst (koren_ends W (- i)%Z n)).
Proof.
  unfold koren_ends, mirrored. cbv zeta. cbn [fst snd]. replace (- (i + 1))%Z with (- i - 1)%Z by lia. replace (- (i - 1))%Z with (- i + 1)%Z by lia.
  set (a := W (- i - 1)%Z n). set (b := W (- i)%Z n). set (c := W (- i + 1)%Z n).
  f_equal.
  - destruct (Req_EM_T c b) as [E|E]; [rewrite E; ring|].
    replace (a - b) with (- (b - a)) by ring. replace (b - c) with (- (c - b)) by ring. rewrite p3c_mirror by lra. ring.
  - destruct (Req_EM_T a b) as [E|E]; [rewrite E; ring|].
    replace (a - b) with (- (b - a)) by ring. replace (b - c) with (- (c - b)) by ring. rewrite p3c_mirror by lra. ring.
Qed.
Lemma MIN_comm a b : MIN a b = MIN b a. Proof. unfold MIN. repeat destruct (Rlt_dec _ _); lra. Qed.
Lemma prim3_half_mirror W i n : prim3_half (mirrored W) i n = prim3_half W (- i + 1)%Z n.
Proof.
  unfold prim3_half, mirrored. cbv zeta.
  replace (- i + 1 - 2)%Z with (- i - 1)%Z by lia. replace (- i + 1 - 1)%Z with (- i)%Z by lia. replace (- i + 1 + 1)%Z with (- i + 2)%Z by lia.
  replace (- (i - 1))%Z with (- i + 1)%Z by lia. replace (- (i - 2))%Z with (- i + 2)%Z by lia. replace (- (i + 1))%Z with (- i - 1)%Z by lia.
  set (a := W (- i - 1)%Z n). set (b := W (- i)%Z n). set (c := W (- i + 1)%Z n). set (d := W (- i + 2)%Z n). clearbody a b c d.
  replace (d - 2 * c + b) with (b - 2 * c + d) by ring. replace (c - 2 * b + a) with (a - 2 * b + c) by ring.
  replace (c + b) with (b + c) by ring. replace (d + a) with (a + d) by ring.
  set (h := (7 * (b + c) - (a + d)) / 12). replace (c - 2 * h + b) with (b - 2 * h + c) by ring.
  rewrite (MIN_comm (Rabs (b - 2 * c + d))).
  set (p := b - 2 * c + d). set (q := a - 2 * b + c). set (z := 3 * (b - 2 * h + c)).
  repeat destruct (Rlt_dec 0 _); repeat destruct (Rlt_dec _ 0); reflexivity.
Qed.
Lemma prim3_extremum_mirror W i n l r :
  prim3_extremum (mirrored W) i n r l = (snd (prim3_extremum W (- i)%Z n l r), fst (prim3_extremum W (- i)%Z n l r)).
Proof.
  unfold prim3_extremum, mirrored. cbv zeta.
  replace (- (i - 1))%Z with (- i + 1)%Z by lia. replace (- (i - 2))%Z with (- i + 2)%Z by lia. replace (- (i + 1))%Z with (- i - 1)%Z by lia. replace (- (i + 2))%Z with (- i - 2)%Z by lia.
  set (a := W (- i - 2)%Z n). set (b := W (- i - 1)%Z n). set (w := W (- i)%Z n). set (c := W (- i + 1)%Z n). set (d := W (- i + 2)%Z n). clearbody a b c d w.
  replace ((l - w) * (w - r)) with ((r - w) * (w - l)) by ring. replace ((c - w) * (w - b)) with ((b - w) * (w - c)) by ring.
  replace (r + l) with (l + r) by ring. replace (c - 2 * w + b) with (b - 2 * w + c) by ring.
  replace (d - 2 * c + w) with (w - 2 * c + d) by ring. replace (w - 2 * b + a) with (a - 2 * b + w) by ring.
  rewrite (MIN_comm (Rabs (w - 2 * c + d))).
  set (p := w - 2 * c + d). set (q := a - 2 * b + w). set (z := b - 2 * w + c). set (y := -2 * (6 * (w - half * (l + r)))).
  destruct (Rle_dec _ 0); [|reflexivity]. destruct (Rle_dec _ 0); [|reflexivity].
  destruct (Req_EM_T y 0); [reflexivity|]. cbn [fst snd].
  repeat destruct (Rlt_dec 0 _); repeat destruct (Rlt_dec _ 0); reflexivity.
Qed.
Lemma monotonize_mirror w l r : monotonize w r l = (snd (monotonize w l r), fst (monotonize w l r)).
Proof.
  unfold monotonize. cbv zeta. replace ((l - w) * (w - r)) with ((r - w) * (w - l)) by ring.
  replace (r + l) with (l + r) by ring.
  replace ((l - r) * (l - r)) with ((r - l) * (r - l)) by ring.
  set (x := 6 * (w - half * (l + r))). replace ((l - r) * x) with (- ((r - l) * x)) by ring.
  set (y := (r - l) * x). set (z := (r - l) * (r - l)). assert (0 <= z) by apply Rle_0_sqr.
  destruct (Rle_dec _ 0); [reflexivity|].
  destruct (Rlt_dec z (- y)), (Rlt_dec z y), (Rlt_dec (- y) (- z)), (Rlt_dec y (- z)); try lra; reflexivity.
Qed.
Lemma ends_mirror s W i n : componentwise s = true ->
  ends s (mirrored W) i n = (snd (ends s W (- i)%Z n), fst (ends s W (- i)%Z n)).
Proof.
  intros C. destruct s; try discriminate; cbn [ends].
  - unfold dc_r, dc_l, mirrored. cbn [fst snd]. f_equal; f_equal; lia.
  - rewrite !prim2_ends_eq, prim2_mirror. cbn [fst snd]. unfold mirrored. f_equal; ring.
  - unfold prim3_ends. cbv zeta. rewrite !prim3_half_mirror. replace (- (i + 1) + 1)%Z with (- i)%Z by lia.
    rewrite prim3_extremum_mirror. cbn [fst snd].
    set (e := prim3_extremum _ _ _ _ _). unfold clamped_ends.
    rewrite (monotonize_mirror (mirrored W i n) (fst e) (snd e)). cbn [fst snd]. unfold mirrored.
    replace (- (i + 1))%Z with (- i - 1)%Z by lia. replace (- (i - 1))%Z with (- i + 1)%Z by lia. reflexivity.
  - apply koren_ends_mirror.
Qed.
Theorem C58_mirror : forall s W i n, componentwise s = true ->
  left_state s (mirrored W) i n = right_state s W (1 - i)%Z n /\ right_state s (mirrored W) i n = left_state s W (1 - i)%Z n.
Proof.
  intros s W i n C. unfold left_state, right_state, vl_l, vl_r. rewrite !(ends_mirror s W _ n C). cbn [fst snd].
  split; do 3 f_equal; lia.
Qed.
Print Assumptions C58_mirror.
