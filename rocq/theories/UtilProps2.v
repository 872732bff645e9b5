(** Properties of the utility functions: compute_div_b (C65), sign_change and bisection (C47). *)
From Coq Require Import ZArith List Bool Reals Lia ZifyBool Lra Psatz.
From Verif Require Import CStr MeshModel PosModel GasModel ConvProps UtilModel UtilProps.
Import ListNotations.
Open Scope R_scope.

(** * C65: compute_div_b *)

(** The discrete divergence of the face fields in a Cartesian cell; only directions with more
    than one active cell count. *)
Definition face_div (pG : pgrid) (g : bgrid) (k j i : Z) : R :=
  (b_B1 g k j (i + 1)%Z - b_B1 g k j i) / p_dx pG X1
  + (if (p_s pG X2 <? b_e g X2)%Z then (b_B2 g k (j + 1)%Z i - b_B2 g k j i) / p_dx pG X2 else 0)
  + (if (p_s pG X3 <? b_e g X3)%Z then (b_B3 g (k + 1)%Z j i - b_B3 g k j i) / p_dx pG X3 else 0).
(** The divergence in cylindrical coordinates, at a cell of radius [r]. *)
Definition face_div_cyl (pG : pgrid) (g : bgrid) (r : R) (k j i : Z) : R :=
  ((r + p_dx pG X1 / 2) * b_B1 g k j (i + 1)%Z - (r - p_dx pG X1 / 2) * b_B1 g k j i) / (r * p_dx pG X1)
  + (if (p_s pG X2 <? b_e g X2)%Z then (b_B2 g k (j + 1)%Z i - b_B2 g k j i) / (r * p_dx pG X2) else 0)
  + (if (p_s pG X3 <? b_e g X3)%Z then (b_B3 g (k + 1)%Z j i - b_B3 g k j i) / p_dx pG X3 else 0).
Definition in_grid (pG : pgrid) (g : bgrid) (k j i : Z) : Prop :=
  (p_s pG X3 <= k <= b_e g X3 /\ p_s pG X2 <= j <= b_e g X2 /\ p_s pG X1 <= i <= b_e g X1)%Z.

Lemma MAX_ge : forall a b, a <= MAX a b /\ b <= MAX a b /\ (MAX a b = a \/ MAX a b = b).
Proof. intros. unfold MAX. destruct (Rlt_dec b a); lra. Qed.
Lemma max_nest : forall (f : Z -> Z -> Z -> R) ks ke js je is ie, (ks <= ke)%Z -> (js <= je)%Z -> (is <= ie)%Z ->
  let m := fori ks (ke + 1) (fun k => fori js (je + 1) (fun j => fori is (ie + 1) (fun i m => MAX m (Rabs (f k j i))))) 0 in
  (exists k j i, (ks <= k <= ke)%Z /\ (js <= j <= je)%Z /\ (is <= i <= ie)%Z /\ m = Rabs (f k j i))
  /\ (forall k j i, (ks <= k <= ke)%Z -> (js <= j <= je)%Z -> (is <= i <= ie)%Z -> Rabs (f k j i) <= m).
Proof.
  intros f ks ke js je is ie Hk Hj Hi m.
  set (occ v := (v = 0 \/ exists k j i, (ks <= k <= ke)%Z /\ (js <= j <= je)%Z /\ (is <= i <= ie)%Z /\ v = Rabs (f k j i))).
  set (P nk nj ni m := occ m /\ forall k j i,
     ((ks <= k < nk /\ js <= j <= je /\ is <= i <= ie) \/ (k = nk /\ js <= j < nj /\ is <= i <= ie)
     \/ (k = nk /\ j = nj /\ is <= i < ni))%Z -> Rabs (f k j i) <= m).
  assert (H : P (ke + 1)%Z js is m).
  { unfold m. apply (fori_inv _ (fun n => P n js is)); [lia|split; [left; auto|intros; lia]|].
    intros k s Bk Hs.
    assert (W : P k (je + 1)%Z is (fori js (je + 1) (fun j => fori is (ie + 1) (fun i m => MAX m (Rabs (f k j i)))) s)).
    { apply (fori_inv _ (fun n => P k n is)); [lia|exact Hs|]. intros j t Bj Ht.
      assert (V : P k j (ie + 1)%Z (fori is (ie + 1) (fun i m => MAX m (Rabs (f k j i))) t)).
      { apply (fori_inv _ (fun n => P k j n)); [lia|exact Ht|]. intros i u Bi [Hu1 Hu2].
        destruct (MAX_ge u (Rabs (f k j i))) as (M1 & M2 & M3). split.
        - destruct M3 as [-> | ->]; auto. right. exists k, j, i. repeat split; auto; lia.
        - intros k' j' i' B.
          destruct (Z.eq_dec k' k) as [->|]; [destruct (Z.eq_dec j' j) as [->|]; [destruct (Z.eq_dec i' i) as [->|]; auto|]|];
          (eapply Rle_trans; [apply Hu2; lia|exact M1]). }
      destruct V as [V1 V2]. split; auto. intros. apply V2. lia. }
    destruct W as [W1 W2]. split; auto. intros. apply W2. lia. }
  destruct H as [H1 H2]. assert (B : forall k j i, (ks <= k <= ke)%Z -> (js <= j <= je)%Z -> (is <= i <= ie)%Z -> Rabs (f k j i) <= m)
    by (intros; apply H2; lia).
  split; [|exact B]. destruct H1 as [E|E]; [|exact E].
  exists ks, js, is. repeat split; try lia. specialize (B ks js is ltac:(lia) ltac:(lia) ltac:(lia)).
  pose proof (Rabs_pos (f ks js is)). lra.
Qed.

(** compute_div_b returns the largest absolute value of the divergence over the active cells. *)
Theorem C65_div_b : forall pG g, (forall a, p_s pG a <= b_e g a)%Z ->
  let m := compute_div_b false pG g in
  (exists k j i, in_grid pG g k j i /\ m = Rabs (face_div pG g k j i)) /\
  (forall k j i, in_grid pG g k j i -> Rabs (face_div pG g k j i) <= m).
Proof.
  intros pG g H m.
  assert (E : forall k j i, div_b_cell false pG g k j i = face_div pG g k j i).
  { intros. unfold div_b_cell, face_div. destruct (cc_pos pG i j k) as [[x1 x2] x3]. rewrite <- !Z.gtb_ltb.
    destruct (b_e g X2 >? p_s pG X2)%Z, (b_e g X3 >? p_s pG X3)%Z; unfold Rdiv; ring. }
  destruct (max_nest (div_b_cell false pG g) (p_s pG X3) (b_e g X3) (p_s pG X2) (b_e g X2) (p_s pG X1) (b_e g X1)
      (H X3) (H X2) (H X1)) as [(k & j & i & Bk & Bj & Bi & M) B]. fold (compute_div_b false pG g) in M, B. fold m in M, B. split.
  - exists k, j, i. split; [repeat split; lia|]. rewrite <- E. exact M.
  - intros k' j' i' (Hk & Hj & Hi). rewrite <- E. apply B; auto.
Qed.
Print Assumptions C65_div_b.
Theorem C65_div_b_cyl : forall pG g, (forall a, p_s pG a <= b_e g a)%Z ->
  p_dx pG X1 <> 0 -> p_dx pG X2 <> 0 ->
  let r i := p_MinX pG X1 + (IZR (i - p_s pG X1) + 1/2) * p_dx pG X1 in
  (forall i, (p_s pG X1 <= i <= b_e g X1)%Z -> r i <> 0) ->
  let m := compute_div_b true pG g in
  (exists k j i, in_grid pG g k j i /\ m = Rabs (face_div_cyl pG g (r i) k j i)) /\
  (forall k j i, in_grid pG g k j i -> Rabs (face_div_cyl pG g (r i) k j i) <= m).
Proof.
  intros pG g H D1 D2 r Hr m.
  assert (E : forall k j i, in_grid pG g k j i -> div_b_cell true pG g k j i = face_div_cyl pG g (r i) k j i).
  { intros k j i (_ & _ & Bi). unfold div_b_cell, face_div_cyl, cc_pos. fold (r i). specialize (Hr i Bi). rewrite <- !Z.gtb_ltb.
    set (x := r i) in *. clearbody x.
    destruct (b_e g X2 >? p_s pG X2)%Z, (b_e g X3 >? p_s pG X3)%Z; unfold Rdiv; rewrite ?Rinv_mult; ring. }
  destruct (max_nest (div_b_cell true pG g) (p_s pG X3) (b_e g X3) (p_s pG X2) (b_e g X2) (p_s pG X1) (b_e g X1)
      (H X3) (H X2) (H X1)) as [(k & j & i & Bk & Bj & Bi & M) B]. fold (compute_div_b true pG g) in M, B. fold m in M, B. split.
  - exists k, j, i. assert (I : in_grid pG g k j i) by (repeat split; lia). split; [exact I|]. rewrite <- (E _ _ _ I). exact M.
  - intros k' j' i' I. rewrite <- (E _ _ _ I). destruct I as (? & ? & ?). apply B; auto.
Qed.
Print Assumptions C65_div_b_cyl.
(** It reports zero exactly for divergence-free fields. *)
Theorem C65_zero : forall pG g, (forall a, p_s pG a <= b_e g a)%Z ->
  (compute_div_b false pG g = 0 <-> forall k j i, in_grid pG g k j i -> face_div pG g k j i = 0).
Proof.
  intros pG g H. destruct (C65_div_b pG g H) as [(k & j & i & I & M) B]. split.
  - intros Z k' j' i' I'. specialize (B _ _ _ I'). rewrite Z in B.
    destruct (Req_dec (face_div pG g k' j' i') 0) as [|N]; auto. apply Rabs_pos_lt in N. lra.
  - intros Z. rewrite M, (Z _ _ _ I). apply Rabs_R0.
Qed.
Print Assumptions C65_zero.
Example ex_div_b : exists pG g, (forall a, p_s pG a <= b_e g a)%Z /\ (exists k j i, in_grid pG g k j i /\ face_div pG g k j i = 1).
Proof.
  exists (PG (fun _ => 4%Z) (fun _ => 0) (fun _ => 1)), (BG (fun _ => 6%Z) (fun _ _ i => IZR i) (fun _ _ _ => 0) (fun _ _ _ => 0)).
  split; [cbn; lia|]. exists 4%Z, 4%Z, 4%Z. split; [repeat split; cbn; lia|]. unfold face_div; cbn [p_s p_dx b_e b_B1 b_B2 b_B3].
  cbn [Z.ltb Z.compare Pos.compare Pos.compare_cont Z.add Pos.add]. cbn. lra.
Qed.

(** * C47: sign_change and bisection *)

Lemma lt0_spec : forall x, lt0 x = true <-> x < 0.
Proof. intros. unfold lt0. destruct (Rlt_dec x 0); split; auto; discriminate || tauto. Qed.
Lemma lt0_no : forall x, lt0 x = false <-> 0 <= x.
Proof. intros. unfold lt0. destruct (Rlt_dec x 0); split; intros; auto; try discriminate; lra. Qed.
Lemma is0_spec : forall x, is0 x = true <-> x = 0.
Proof. intros. unfold is0. destruct (Req_EM_T x 0); split; auto; discriminate || tauto. Qed.
Lemma bis_tol_pos : 0 < bis_tol.
Proof. unfold bis_tol. apply Rinv_0_lt_compat. apply pow_lt. lra. Qed.
Lemma bis_close_spec : forall a b c, bis_close a b c = true <-> c <> 0 /\ Rabs (b - a) < bis_tol * Rabs c.
Proof.
  intros. unfold bis_close. destruct (Req_EM_T c 0) as [->|N].
  - split; [discriminate|]. intros [H _]. congruence.
  - assert (E : Rabs ((b - a) / c) = Rabs (b - a) / Rabs c) by (unfold Rdiv; rewrite Rabs_mult, Rabs_inv; auto).
    pose proof (Rabs_pos_lt c N). rewrite E.
    assert (D : Rabs (b - a) / Rabs c < bis_tol <-> Rabs (b - a) < bis_tol * Rabs c).
    { split; intros L.
      - apply (Rmult_lt_compat_r (Rabs c)) in L; auto. unfold Rdiv in L. rewrite Rmult_assoc, Rinv_l, Rmult_1_r in L; lra.
      - apply (Rmult_lt_reg_r (Rabs c)); auto. unfold Rdiv. rewrite Rmult_assoc, Rinv_l, Rmult_1_r; lra. }
    destruct (Rlt_dec (Rabs (b - a) / Rabs c) bis_tol); split; intros; try discriminate; auto; try tauto.
Qed.

(** A point [r] the caller may take for a root of [f] in [a0,b0]: a zero; or the midpoint of an interval
    inside [a0,b0] on which [f] changes sign and whose length is below the tolerance relative to [r]; or an end of
    [a0,b0] where [f] is below the tolerance. *)
Definition bracketed (f : R -> R) (a0 b0 r : R) : Prop :=
  exists a b, a0 <= a <= b /\ b <= b0 /\ f a * f b < 0 /\ r = (a + b) / 2 /\ b - a < bis_tol * Rabs r.
Definition root_found (f : R -> R) (a0 b0 r : R) : Prop :=
  a0 <= r <= b0 /\
  (f r = 0 \/ bracketed f a0 b0 r \/ ((r = a0 \/ r = b0) /\ Rabs (f r) < bis_tol)).

Lemma bis_loop_ok : forall f a0 b0 n a b r, a0 <= a <= b -> b <= b0 -> f a * f b < 0 ->
  bis_loop f n a b (f a) (f b) = Ok r -> root_found f a0 b0 r.
Proof.
  intros f a0 b0. induction n as [|n IH]; intros a b r Ha Hb Hs; cbn [bis_loop]; [discriminate|].
  destruct (bis_close a b (1/2 * (a + b))) eqn:C.
  - intros H. injection H as <-. split; [lra|]. right; left. apply bis_close_spec in C as [C1 C2].
    exists a, b. repeat split; try lra. rewrite Rabs_right in C2 by lra. exact C2.
  - destruct (lt0 (f a * f (1/2 * (a + b)))) eqn:L1; [apply IH; try lra; apply lt0_spec; exact L1|].
    destruct (lt0 (f (1/2 * (a + b)) * f b)) eqn:L2; [apply IH; try lra; apply lt0_spec; exact L2|].
    destruct (is0 (f (1/2 * (a + b)))) eqn:I; [|discriminate].
    intros H. injection H as <-. split; [lra|]. left. apply is0_spec; auto.
Qed.
(** Whatever bisection returns is a root in that sense. *)
Theorem C47_bisection : forall f a0 b0 r, a0 <= b0 -> f a0 * f b0 < 0 ->
  bisection f a0 b0 = Ok r -> root_found f a0 b0 r.
Proof.
  intros f a0 b0 r H Hs. unfold bisection.
  destruct (Rlt_dec (Rabs (f a0)) bis_tol) as [L|L].
  { intros E. injection E as <-. split; [lra|]. right; right. auto. }
  destruct (Rlt_dec (Rabs (f b0)) bis_tol) as [M|M].
  { intros E. injection E as <-. split; [lra|]. right; right. auto. }
  apply bis_loop_ok; lra.
Qed.
Print Assumptions C47_bisection.
(** For a continuous function there is a genuine zero next to it. *)
Theorem C47_root : forall f a0 b0 r, a0 <= b0 -> f a0 * f b0 < 0 -> continuity f ->
  bisection f a0 b0 = Ok r ->
  (exists x, a0 <= x <= b0 /\ f x = 0 /\ Rabs (x - r) <= bis_tol * Rabs r) \/ Rabs (f r) < bis_tol.
Proof.
  intros f a0 b0 r H Hs Hc E. apply C47_bisection in E; auto. destruct E as [B [Z|[(a & b & A1 & A2 & A3 & A4 & A5)|[_ Z]]]]; auto.
  - left. exists r. repeat split; try lra. replace (r - r) with 0 by ring. rewrite Rabs_R0.
    pose proof (Rabs_pos r). pose proof bis_tol_pos. nra.
  - left. destruct (IVT_cor f a b) as (x & X1 & X2); try lra; auto.
    exists x. repeat split; try lra. apply Rabs_le. lra.
Qed.
Print Assumptions C47_root.

(** With a sign change the message that there is no single root is never issued, and the only fatal end is
    to run out of the 400 iterations, which cannot happen when the interval stays away from zero. *)
Lemma bis_loop_conv : forall f d n a b, 0 < d -> d <= a -> a <= b -> f a * f b < 0 ->
  b - a < bis_tol * d * 2 ^ n -> exists r, bis_loop f (S n) a b (f a) (f b) = Ok r.
Proof.
  intros f d. induction n as [|n IH]; intros a b Hd Ha Hb Hs HL.
  - cbn [bis_loop]. assert (C : bis_close a b (1/2 * (a + b)) = true).
    { apply bis_close_spec. split; [lra|]. rewrite !Rabs_right by lra. pose proof bis_tol_pos. cbn in HL. nra. }
    rewrite C. eauto.
  - change (exists r, (let c := 1/2 * (a + b) in if bis_close a b c then Ok c else let fc := f c in
      if lt0 (f a * fc) then bis_loop f (S n) a c (f a) fc
      else if lt0 (fc * f b) then bis_loop f (S n) c b fc (f b)
      else if is0 fc then Ok c else Fatal) = Ok r).
    cbv zeta. set (c := 1/2 * (a + b)).
    destruct (bis_close a b c); [eauto|]. cbn [pow] in HL.
    destruct (lt0 (f a * f c)) eqn:L1; [apply IH; unfold c in *; try lra; apply lt0_spec; exact L1|].
    destruct (lt0 (f c * f b)) eqn:L2; [apply IH; unfold c in *; try lra; apply lt0_spec; exact L2|].
    destruct (is0 (f c)) eqn:I; [eauto|]. exfalso.
    apply lt0_no in L1, L2. assert (f c <> 0) by (intros E; apply is0_spec in E; congruence).
    clear - Hs L1 L2 H. assert (0 < f c * f c) by nra. nra.
Qed.
Theorem C47_converges : forall f a0 b0, 0 < a0 -> a0 <= b0 -> f a0 * f b0 < 0 ->
  b0 - a0 < bis_tol * a0 * 2 ^ 399 -> exists r, bisection f a0 b0 = Ok r.
Proof.
  intros f a0 b0 Ha Hb Hs HL. unfold bisection.
  destruct (Rlt_dec (Rabs (f a0)) bis_tol); [eauto|]. destruct (Rlt_dec (Rabs (f b0)) bis_tol); [eauto|].
  apply (bis_loop_conv f a0 399 a0 b0); auto; lra.
Qed.
Print Assumptions C47_converges.

(** It fails for a root at zero: f(x) = x on [-1,2] ends in ath_error. *)
Lemma bis_stuck : forall n s, 0 < s ->
  bis_loop (fun x => x) n (- s) (2 * s) (- s) (2 * s) = Fatal /\ bis_loop (fun x => x) n (- (2 * s)) s (- (2 * s)) s = Fatal.
Proof.
  assert (T : bis_tol < 1).
  { unfold bis_tol. rewrite <- Rinv_1. apply Rinv_lt_contravar; [|]; assert (1 < 10 ^ 10) by (apply (Rlt_pow_R1 10 10); lra || lia); lra. }
  induction n as [|n IH]; intros s Hs; [split; reflexivity|]. cbn [bis_loop]. split.
  - replace (1/2 * (- s + 2 * s)) with (s / 2) by lra.
    destruct (bis_close (- s) (2 * s) (s / 2)) eqn:C.
    { exfalso. apply bis_close_spec in C as [_ C]. rewrite !Rabs_right in C by lra. nra. }
    assert (L : lt0 (- s * (s / 2)) = true) by (apply lt0_spec; nra). rewrite L.
    specialize (IH (s / 2)). replace (- (2 * (s / 2))) with (- s) in IH by lra. apply IH. lra.
  - replace (1/2 * (- (2 * s) + s)) with (- (s / 2)) by lra.
    destruct (bis_close (- (2 * s)) s (- (s / 2))) eqn:C.
    { exfalso. apply bis_close_spec in C as [_ C]. rewrite Rabs_Ropp in C. rewrite !Rabs_right in C by lra. nra. }
    destruct (lt0 (- (2 * s) * - (s / 2))) eqn:L; [apply lt0_spec in L; nra|].
    assert (M : lt0 (- (s / 2) * s) = true) by (apply lt0_spec; nra). rewrite M.
    specialize (IH (s / 2)). replace (2 * (s / 2)) with s in IH by lra. apply IH. lra.
Qed.
Theorem C47_bisection_refuted : exists f a0 b0, continuity f /\ a0 < b0 /\ f a0 * f b0 < 0 /\ bisection f a0 b0 = Fatal.
Proof.
  exists (fun x => x), (-1), 2. split; [apply derivable_continuous; apply derivable_id|]. split; [lra|]. split; [lra|].
  assert (T : bis_tol < 1).
  { unfold bis_tol. rewrite <- Rinv_1. apply Rinv_lt_contravar; [|]; assert (1 < 10 ^ 10) by (apply (Rlt_pow_R1 10 10); lra || lia); lra. }
  unfold bisection. destruct (Rlt_dec (Rabs (-1)) bis_tol) as [L|_]; [rewrite Rabs_left in L by lra; lra|].
  destruct (Rlt_dec (Rabs 2) bis_tol) as [L|_]; [rewrite Rabs_right in L by lra; lra|].
  pose proof (bis_stuck 400 1 ltac:(lra)) as [H _]. replace (2 * 1) with 2 in H by lra. replace (- (1)) with (-1) in H by lra. exact H.
Qed.
Print Assumptions C47_bisection_refuted.
Example ex_bisection : exists f a0 b0, a0 <= b0 /\ f a0 * f b0 < 0 /\ exists r, bisection f a0 b0 = Ok r.
Proof.
  exists (fun x => x - 2), 1, 3. split; [lra|]. split; [lra|]. apply C47_converges; try lra.
  unfold bis_tol. apply (Rmult_lt_reg_r (10 ^ 10)); [apply pow_lt; lra|].
  replace (/ 10 ^ 10 * 1 * 2 ^ 399 * 10 ^ 10) with (2 ^ 399) by (field; apply pow_nonzero; lra).
  apply Rlt_le_trans with (2 ^ 40); [cbn; lra|]. apply Rle_pow; [lra|lia].
Qed.

(** sign_change *)
Lemma sc_scan_some : forall f delta n a x y, sc_scan f delta n a (f a) = Some (x, y) ->
  exists i, (i < n)%nat /\ x = a + INR i * delta /\ y = x + delta /\ f x * f y < 0.
Proof.
  intros f delta. induction n as [|n IH]; intros a x y; cbn [sc_scan]; [discriminate|].
  destruct (lt0 (f (a + delta) * f a)) eqn:L.
  - intros E. injection E as <- <-. exists O. split; [lia|]. apply lt0_spec in L. cbn. repeat split; lra.
  - intros H. apply IH in H as (i & Hi & E1 & E2 & E3). exists (S i). split; [lia|]. rewrite S_INR. repeat split; auto. lra.
Qed.
Lemma sc_scan_none : forall f delta n a, sc_scan f delta n a (f a) = None -> forall i, (i < n)%nat ->
  0 <= f (a + INR i * delta) * f (a + INR (S i) * delta).
Proof.
  intros f delta. induction n as [|n IH]; intros a; cbn [sc_scan]; [intros; lia|].
  destruct (lt0 (f (a + delta) * f a)) eqn:L; [discriminate|]. intros H i Hi. apply lt0_no in L. destruct i as [|i].
  - cbn [INR]. replace (a + 0 * delta) with a by ring. replace (a + 1 * delta) with (a + delta) by ring. lra.
  - pose proof (IH _ H i ltac:(lia)) as K. rewrite S_INR. replace (a + (INR i + 1) * delta) with (a + delta + INR i * delta) by ring.
    rewrite S_INR, S_INR. rewrite S_INR in K. replace (a + (INR i + 1 + 1) * delta) with (a + delta + (INR i + 1) * delta) by ring. exact K.
Qed.
Lemma pow2_pos : forall k, (1 <= Nat.pow 2 k)%nat.
Proof. intros. pose proof (Nat.pow_nonzero 2 k). lia. Qed.
(** The interval found lies in [a0,b0] and the function changes sign on it.  The search always succeeds when the ends have
    opposite signs; when it fails, no two neighbours of any of the 20 partitions have opposite signs. *)
Theorem C47_sign_change : forall f a0 b0, a0 <= b0 ->
  (forall a b, sign_change f a0 b0 = Some (a, b) -> a0 <= a <= b /\ b <= b0 /\ f a * f b < 0) /\
  (f a0 * f b0 < 0 -> exists ab, sign_change f a0 b0 = Some ab) /\
  (sign_change f a0 b0 = None -> forall k i, (1 <= k <= 20)%nat -> (i < Nat.pow 2 k - 1)%nat ->
     let x m := a0 + INR m * ((b0 - a0) / INR (Nat.pow 2 k - 1)) in 0 <= f (x i) * f (x (S i))).
Proof.
  intros f a0 b0 H. unfold sign_change.
  assert (G : forall m k a b, (1 <= k)%nat -> sc_levels f a0 b0 k m = Some (a, b) -> a0 <= a <= b /\ b <= b0 /\ f a * f b < 0).
  { induction m as [|m IH]; intros k a b Hk; cbn [sc_levels]; [discriminate|].
    destruct (sc_scan f ((b0 - a0) / INR (Nat.pow 2 k - 1)) (Nat.pow 2 k - 1) a0 (f a0)) as [[x y]|] eqn:E.
    - intros F. injection F as -> ->. apply sc_scan_some in E as (i & Hi & E1 & E2 & E3).
      set (n := (Nat.pow 2 k - 1)%nat) in *. clearbody n.
      assert (Hn : 0 < INR n) by (apply lt_0_INR; lia).
      assert (Hd : 0 <= (b0 - a0) / INR n) by (apply Rmult_le_pos; [lra|left; apply Rinv_0_lt_compat; auto]).
      assert (Ed : INR n * ((b0 - a0) / INR n) = b0 - a0) by (field; lra).
      assert (Ii : INR i + 1 <= INR n) by (rewrite <- S_INR; apply le_INR; lia).
      pose proof (pos_INR i). set (d := (b0 - a0) / INR n) in *. clearbody d. repeat split; try lra; nra.
    - apply IH. lia. }
  split; [intros a b; apply (G 20%nat 1%nat); lia|]. split.
  - intros Hs. change 20%nat with (S 19). cbn [sc_levels]. change (Nat.pow 2 1 - 1)%nat with 1%nat. cbn [sc_scan INR].
    replace (a0 + (b0 - a0) / 1) with b0 by field.
    assert (L : lt0 (f b0 * f a0) = true) by (apply lt0_spec; lra). rewrite L. eauto.
  - assert (N : forall m k0, sc_levels f a0 b0 k0 m = None -> forall k i, (k0 <= k < k0 + m)%nat -> (i < Nat.pow 2 k - 1)%nat ->
       let x m := a0 + INR m * ((b0 - a0) / INR (Nat.pow 2 k - 1)) in 0 <= f (x i) * f (x (S i))).
    { induction m as [|m IH]; intros k0 E k i Hk Hi x; [lia|]. cbn [sc_levels] in E.
      destruct (sc_scan f ((b0 - a0) / INR (Nat.pow 2 k0 - 1)) (Nat.pow 2 k0 - 1) a0 (f a0)) as [[u v]|] eqn:F; [discriminate|].
      destruct (Nat.eq_dec k0 k) as [->|]; [apply (sc_scan_none _ _ _ _ F i Hi)|]. apply (IH (S k0)); auto; lia. }
    intros E k i Hk Hi. apply (N 20%nat 1%nat E k i); auto; lia.
Qed.
Print Assumptions C47_sign_change.
Example ex_sign_change : exists f, 0 <= 3 /\ f 0 * f 3 < 0 /\ sign_change f 0 3 = Some (0, 3).
Proof.
  exists (fun x => x - 1). split; [lra|]. split; [lra|]. unfold sign_change. change 20%nat with (S 19). cbn [sc_levels].
  change (Nat.pow 2 1 - 1)%nat with 1%nat. cbn [sc_scan INR].
  assert (L : lt0 ((0 + (3 - 0) / 1 - 1) * (0 - 1)) = true) by (apply lt0_spec; lra). rewrite L. do 2 f_equal. lra.
Qed.
