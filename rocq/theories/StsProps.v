(** * Super-timestepping: the substeps add up to the timestep and are stable *)
From Coq Require Import Reals List Arith Lia Lra ZArith.
From Verif Require Import StsModel.
Import ListNotations.
Open Scope R_scope.

(** ** What is claimed *)
(** The sum of a list. *)
Definition total (l : list R) : R := fold_right Rplus 0 l.
(** A quantity that decays at the rate lambda, advanced by explicit steps h. *)
Definition decay (lambda : R) (u : R) (hs : list R) : R := fold_left (fun u h => u - h * (lambda * u)) hs u.

(** ** Sums *)
Lemma total_app : forall a b, total (a ++ b) = total a + total b.
Proof. induction a as [|x a IH]; intros b; [cbn [app]; change (total []) with 0; ring|]. cbn [app]. change (x + total (a ++ b) = x + total a + total b). rewrite IH. ring. Qed.
Lemma seq_snoc : forall n a, seq a (S n) = seq a n ++ [(a + n)%nat].
Proof. induction n as [|n IH]; intros a; cbn [seq app]; [rewrite Nat.add_0_r; reflexivity|]. f_equal. replace (a + S n)%nat with (S a + n)%nat by lia. apply (IH (S a)). Qed.
Definition tot (f : nat -> R) (n : nat) : R := total (map f (seq 0 n)).
Lemma tot_0 : forall f, tot f 0 = 0.
Proof. reflexivity. Qed.
Lemma tot_S : forall f n, tot f (S n) = tot f n + f n.
Proof. intros. unfold tot. rewrite seq_snoc, map_app, total_app. cbn. ring. Qed.
Lemma tot_ext : forall n f h, (forall i, (i < n)%nat -> f i = h i) -> tot f n = tot h n.
Proof. induction n as [|n IH]; intros f h E; [reflexivity|]. rewrite !tot_S, (IH f h), (E n) by (auto; lia). reflexivity. Qed.
Lemma tot_scal : forall a f n, tot (fun i => a * f i) n = a * tot f n.
Proof. intros a f n. induction n as [|n IH]; [rewrite !tot_0; ring|]. rewrite !tot_S, IH. ring. Qed.
Lemma tot_plus : forall f h n, tot (fun i => f i + h i) n = tot f n + tot h n.
Proof. intros f h n. induction n as [|n IH]; [rewrite !tot_0; ring|]. rewrite !tot_S, IH. ring. Qed.
Lemma tot_const : forall a n, tot (fun _ => a) n = INR n * a.
Proof. intros a n. induction n as [|n IH]; [rewrite tot_0; cbn; ring|]. rewrite tot_S, IH, S_INR. ring. Qed.
Lemma tot_tele : forall h n, tot (fun i => h (S i) - h i) n = h n - h 0%nat.
Proof. intros h n. induction n as [|n IH]; [rewrite tot_0; ring|]. rewrite tot_S, IH. ring. Qed.
Lemma tot_swap : forall (F : nat -> nat -> R) m n, tot (fun i => tot (fun k => F i k) m) n = tot (fun k => tot (fun i => F i k) n) m.
Proof.
  intros F m n. induction n as [|n IH].
  - rewrite tot_0. rewrite (tot_ext m _ (fun _ => 0)) by (intros; apply tot_0). rewrite tot_const. ring.
  - rewrite tot_S, IH. rewrite <- tot_plus. apply tot_ext. intros k _. rewrite tot_S. reflexivity.
Qed.

(** ** The angles theta_i = pi (2 i + 1) / (2 N) *)
Section Angles.
Variable N : nat.
Hypothesis N1 : (1 <= N)%nat.
Definition ang (i : nat) : R := 1 / 2 * PI * (2 * INR i + 1) / INR N.
Lemma NR : 0 < INR N.
Proof. apply lt_0_INR. lia. Qed.
Lemma ang_turn : forall i, cos (INR (2 * N) * ang i) = -1 /\ sin (INR (2 * N) * ang i) = 0.
Proof.
  intros i. pose proof NR. replace (INR (2 * N) * ang i) with (PI + 2 * INR i * PI) by (unfold ang; rewrite mult_INR; change (INR 2) with 2; field; lra).
  rewrite cos_period, sin_period, cos_PI, sin_PI. auto.
Qed.
(** The k-th multiples of the angles cancel. *)
Lemma ang_cancel : forall k, (0 < k < 2 * N)%nat -> tot (fun i => cos (INR k * ang i)) N = 0.
Proof.
  intros k Hk. pose proof NR as Np. set (a := INR k * PI / (2 * INR N)).
  assert (K0 : 0 < INR k) by (apply lt_0_INR; lia). assert (KN : INR k < 2 * INR N) by (replace (2 * INR N) with (INR (2 * N)) by (rewrite mult_INR; reflexivity); apply lt_INR; lia).
  pose proof PI_RGT_0 as Pp.
  assert (Sp : 0 < sin a).
  { apply sin_gt_0; unfold a.
    - apply Rmult_lt_0_compat; [nra|apply Rinv_0_lt_compat; lra].
    - apply (Rmult_lt_reg_r (2 * INR N)); [lra|]. unfold Rdiv. rewrite Rmult_assoc, Rinv_l, Rmult_1_r by lra. nra. }
  assert (E : 2 * sin a * tot (fun i => cos (INR k * ang i)) N = 0).
  { rewrite <- tot_scal. rewrite (tot_ext N _ (fun i => sin (2 * a * INR (S i)) - sin (2 * a * INR i))).
    - rewrite (tot_tele (fun i => sin (2 * a * INR i))). replace (2 * a * INR 0) with 0 by (cbn; ring). rewrite sin_0, Rminus_0_r.
      apply sin_eq_0_1. exists (Z.of_nat k). rewrite <- INR_IZR_INZ. unfold a. field. lra.
    - intros i _. rewrite S_INR. replace (INR k * ang i) with (2 * a * INR i + a) by (unfold a, ang; field; lra).
      replace (2 * a * (INR i + 1)) with ((2 * a * INR i + a) + a) by ring. replace (2 * a * INR i) with ((2 * a * INR i + a) - a) at 3 by ring.
      rewrite sin_plus, sin_minus. ring. }
  apply (Rmult_eq_reg_l (2 * sin a)); [|lra]. rewrite E. ring.
Qed.
Variable z : R.
Hypothesis Zb : 0 <= z < 1.
Definition den (i : nat) : R := 1 - 2 * z * cos (ang i) + z * z.
Lemma den_pos : forall i, 0 < den i.
Proof. intros i. unfold den. pose proof (COS_bound (ang i)). nra. Qed.
Lemma geo : forall t M, (1 - 2 * z * cos t + z * z) * tot (fun k => z ^ k * cos (INR k * t)) (S M) = 1 - z * cos t - z ^ (S M) * cos (INR (S M) * t) + z ^ (M + 2) * cos (INR M * t).
Proof.
  intros t M. induction M as [|M IH].
  - rewrite tot_S, tot_0. cbn [INR pow Nat.add]. replace (0 * t) with 0 by ring. replace (1 * t) with t by ring. rewrite cos_0. ring.
  - rewrite tot_S. rewrite Rmult_plus_distr_l, IH. replace (INR (S (S M)) * t) with (INR (S M) * t + t) by (rewrite (S_INR (S M)); ring). replace (INR M * t) with (INR (S M) * t - t) by (rewrite S_INR; ring).
    rewrite cos_plus, cos_minus. replace (M + 2)%nat with (S (S M)) by lia. replace (S M + 2)%nat with (S (S (S M))) by lia. rewrite <- !tech_pow_Rmult. ring.
Qed.
Lemma kernel : forall i, (1 - z * z) / den i = 2 / (1 + z ^ (2 * N)) * tot (fun k => z ^ k * cos (INR k * ang i)) (2 * N) - 1.
Proof.
  intros i. pose proof (den_pos i) as Dp. destruct (ang_turn i) as (C & S0). pose proof (geo (ang i) (2 * N - 1)) as G. replace (S (2 * N - 1)) with (2 * N)%nat in G by lia. replace (2 * N - 1 + 2)%nat with (S (2 * N)) in G by lia.
  replace (INR (2 * N - 1) * ang i) with (INR (2 * N) * ang i - ang i) in G by (rewrite minus_INR by lia; cbn [INR]; ring). rewrite cos_minus, C, S0 in G. rewrite <- tech_pow_Rmult in G. fold (den i) in G.
  assert (P : 0 <= z ^ (2 * N)) by (apply pow_le; lra). set (W := tot _ _) in *. set (y := z ^ (2 * N)) in *. unfold den in *. set (cc := cos (ang i)) in *.
  apply (Rmult_eq_reg_l ((1 - 2 * z * cc + z * z) * (1 + y))); [|apply Rmult_integral_contrapositive_currified; lra].
  transitivity ((1 - z * z) * (1 + y)); [field; lra|]. transitivity (2 * ((1 - 2 * z * cc + z * z) * W) - (1 - 2 * z * cc + z * z) * (1 + y)); [|field; lra]. rewrite G. ring.
Qed.
(** The sum over the angles of the Poisson kernel. *)
Lemma kernel_sum : tot (fun i => (1 - z * z) / den i) N = INR N * (1 - z ^ (2 * N)) / (1 + z ^ (2 * N)).
Proof.
  assert (P : 0 <= z ^ (2 * N)) by (apply pow_le; lra).
  rewrite (tot_ext N _ (fun i => 2 / (1 + z ^ (2 * N)) * tot (fun k => z ^ k * cos (INR k * ang i)) (2 * N) + -1)) by (intros; rewrite kernel; ring).
  rewrite tot_plus, tot_scal, tot_const. rewrite tot_swap.
  rewrite (tot_ext (2 * N) _ (fun k => if Nat.eqb k 0 then INR N else 0)).
  - assert (T : forall m, (1 <= m)%nat -> tot (fun k => if Nat.eqb k 0 then INR N else 0) m = INR N).
    { induction m as [|m IH]; [lia|]. intros _. rewrite tot_S. destruct m as [|m]; [rewrite tot_0; cbn [Nat.eqb]; ring|]. rewrite IH by lia. cbn [Nat.eqb]. ring. }
    rewrite T by lia. field. lra.
  - intros k Hk. rewrite tot_scal. destruct (Nat.eqb_spec k 0) as [->|n].
    + rewrite (tot_ext N _ (fun _ => 1)) by (intros; rewrite Rmult_0_l, cos_0; reflexivity). rewrite tot_const. cbn. ring.
    + rewrite ang_cancel by lia. ring.
Qed.
End Angles.

(** ** What new_dt() can set *)
Lemma scan_le : forall r l i, (scan r l i <= i + length l)%nat.
Proof. intros r l. induction l as [|x l IH]; intros i; cbn [scan length]; [lia|]. destruct (Rlt_dec x r); [|lia]. destruct (Nat.ltb i 12); [specialize (IH (S i))|]; lia. Qed.
Lemma scan_12 : forall r l i, (i <= 12)%nat -> (scan r l i <= 12)%nat.
Proof. intros r l. induction l as [|x l IH]; intros i H; cbn [scan]; [lia|]. destruct (Rlt_dec x r); [|lia]. destruct (Nat.ltb_spec i 12); [apply IH|]; lia. Qed.
(** With N = 1 the only substep is dt; with 2 <= N <= 12 the parameters are those of N. *)
Inductive setup_is (s : sts) : Prop :=
| setup_1 : s_N s = 1%nat -> s_nu s = 0 -> s_diff s = s_dt s -> setup_is s
| setup_N : forall q, (2 <= s_N s <= 12)%nat -> q = (1 / 2) / INR (s_N s) -> s_nu s = q * q ->
    s_diff s = 2 * s_dt s * q / INR (s_N s) * ((1 + q) ^ (2 * s_N s) + (1 - q) ^ (2 * s_N s)) / ((1 + q) ^ (2 * s_N s) - (1 - q) ^ (2 * s_N s)) -> setup_is s.
Lemma setup_ok : forall dt dd, setup_is (sts_setup dt dd).
Proof.
  intros dt dd. unfold sts_setup, get_N_STS. pose proof (scan_12 (dt / dd) Ratio 0 ltac:(lia)) as L. set (n := scan (dt / dd) Ratio 0) in *. clearbody n.
  assert (C : forall (N : nat) d, (1 <= N <= 12)%nat -> setup_is (if Nat.eqb N 1 then Sts d N 0 d else
     Sts d N ((1 / 4) / (INR N * INR N)) (2 * d * ((1 / 2) / INR N) / INR N * ((1 + (1 / 2) / INR N) ^ (2 * N) + (1 - (1 / 2) / INR N) ^ (2 * N)) / ((1 + (1 / 2) / INR N) ^ (2 * N) - (1 - (1 / 2) / INR N) ^ (2 * N))))).
  { intros N d H. destruct (Nat.eqb_spec N 1) as [->|n0]; [apply setup_1; reflexivity|].
    apply (setup_N _ ((1 / 2) / INR N)); cbn [s_N s_nu s_diff s_dt]; try reflexivity; try lia. assert (INR N <> 0) by (apply not_0_INR; lia). field. assumption. }
  destruct (Nat.ltb_spec 12 (S n)); apply C; lia.
Qed.

(** ** C83: the substeps add up to the timestep *)
Theorem C83_sum : forall dt diff_dt, let s := sts_setup dt diff_dt in total (substeps s) = s_dt s.
Proof.
  intros dt dd. cbv zeta. destruct (setup_ok dt dd) as [N1 Nu D|q HN Hq Nu D]; set (s := sts_setup dt dd) in *; clearbody s.
  - unfold substeps. rewrite N1. cbn [seq map total fold_right]. unfold STS_dt. rewrite N1, Nu, D. cbn [INR]. replace (1 / 2 * PI * (2 * 0 + 1) / 1) with (PI / 2) by field. rewrite cos_PI2. field.
  - change (total (substeps s)) with (tot (STS_dt s) (s_N s)). set (N := s_N s) in *.
    assert (Nr : 2 <= INR N) by (replace 2 with (INR 2) by reflexivity; apply le_INR; lia).
    assert (Qb : 0 < q <= / 4).
    { subst q. split; [apply Rmult_lt_0_compat; [lra|apply Rinv_0_lt_compat; lra]|]. assert (/ INR N <= / 2) by (apply Rinv_le_contravar; lra). unfold Rdiv. lra. }
    set (z := (1 - q) / (1 + q)). assert (Zb : 0 <= z < 1).
    { unfold z. split; [apply Rmult_le_pos; [lra|left; apply Rinv_0_lt_compat; lra]|]. apply (Rmult_lt_reg_r (1 + q)); [lra|]. unfold Rdiv. rewrite Rmult_assoc, Rinv_l, Rmult_1_r by lra. lra. }
    pose proof (kernel_sum N ltac:(lia) z Zb) as KS. pose proof (den_pos N z Zb) as DP.
    rewrite (tot_ext N _ (fun i => s_diff s / (2 * q) * ((1 - z * z) / den N z i))).
    2:{ intros i _. specialize (DP i). unfold STS_dt. fold N. rewrite Nu. fold (ang N i).
        replace (1 + q * q - (1 - q * q) * cos (ang N i)) with ((1 + q) * (1 + q) / 2 * den N z i) by (unfold den, z; field; lra).
        replace (1 - z * z) with (4 * q / ((1 + q) * (1 + q))) by (unfold z; field; lra). field. lra. }
    rewrite tot_scal, KS, D. unfold z. unfold Rdiv at 5 6. rewrite Rpow_mult_distr, pow_inv.
    assert (P1 : 0 < (1 - q) ^ (2 * N)) by (apply pow_lt; lra).
    assert (P2 : (1 - q) ^ (2 * N) < (1 + q) ^ (2 * N)).
    { assert (PL : forall n x y, 0 < x < y -> x ^ (S n) < y ^ (S n)).
      { induction n as [|n IH]; intros x y H; [cbn; lra|]. specialize (IH x y H). rewrite (tech_pow_Rmult x (S n)) || idtac. change (x * x ^ S n < y * y ^ S n). assert (0 < x ^ S n) by (apply pow_lt; lra). nra. }
      replace (2 * N)%nat with (S (2 * N - 1)) by lia. apply PL. lra. }
    set (a := (1 - q) ^ (2 * N)) in *. set (b := (1 + q) ^ (2 * N)) in *. clearbody a b. field. lra.
Qed.
Print Assumptions C83_sum.

(** ** The limits that new_dt() keeps *)
Lemma pow_split : forall (N : nat) x, INR N <> 0 -> (x / (2 * INR N)) ^ (2 * N) = x ^ (2 * N) / (2 * INR N) ^ (2 * N).
Proof. intros N x H. unfold Rdiv. rewrite Rpow_mult_distr, pow_inv. reflexivity. Qed.
(** Mesh.diff_dt as a fraction of the timestep *)
Lemma diff_part : forall N dt, (2 <= N)%nat -> let q := (1 / 2) / INR N in let A := (2 * INR N + 1) ^ (2 * N) in let B := (2 * INR N - 1) ^ (2 * N) in
  0 < B < A /\ 2 * dt * q / INR N * ((1 + q) ^ (2 * N) + (1 - q) ^ (2 * N)) / ((1 + q) ^ (2 * N) - (1 - q) ^ (2 * N)) = dt * (A + B) / (INR N * INR N * (A - B)).
Proof.
  intros N dt HN q A B. assert (Nr : 2 <= INR N) by (replace 2 with (INR 2) by reflexivity; apply le_INR; lia).
  assert (AB : 0 < B < A).
  { split; [apply pow_lt; lra|]. unfold A, B. assert (PL : forall n x y, 0 < x < y -> x ^ (S n) < y ^ (S n)).
    { induction n as [|n IH]; intros x y H; [cbn; lra|]. specialize (IH x y H). change (x * x ^ S n < y * y ^ S n). assert (0 < x ^ S n) by (apply pow_lt; lra). nra. }
    replace (2 * N)%nat with (S (2 * N - 1)) by lia. apply PL. lra. }
  split; [exact AB|]. unfold q. replace (1 + 1 / 2 / INR N) with ((2 * INR N + 1) / (2 * INR N)) by (field; lra). replace (1 - 1 / 2 / INR N) with ((2 * INR N - 1) / (2 * INR N)) by (field; lra).
  rewrite !pow_split by lra. fold A B. assert (0 < (2 * INR N) ^ (2 * N)) by (apply pow_lt; lra). set (D := (2 * INR N) ^ (2 * N)) in *. clearbody A B D. field. lra.
Qed.
(** The table is right to eight digits. *)
Lemma table_ok : forall n, (1 <= n <= 11)%nat -> let N := S n in let A := (2 * INR N + 1) ^ (2 * N) in let B := (2 * INR N - 1) ^ (2 * N) in
  nth n Ratio 0 * (A + B) <= (1 + / 10 ^ 8) * (INR N * INR N * (A - B)).
Proof.
  intros n H. do 12 (destruct n as [|n]; [try lia; cbv zeta; cbn [nth Ratio INR Nat.mul Nat.add]; lra|]). lia.
Qed.
Lemma table_incr : forall m n, (m < n <= 12)%nat -> nth m Ratio 0 < nth n Ratio 0.
Proof.
  intros m n H. assert (S1 : forall k, (k < 12)%nat -> nth k Ratio 0 < nth (S k) Ratio 0).
  { intros k Hk. do 12 (destruct k as [|k]; [cbn [nth Ratio]; lra|]). lia. }
  induction n as [|n IH]; [lia|]. destruct (Nat.eq_dec m n) as [->|n0]; [apply S1; lia|]. eapply Rlt_trans; [apply IH; lia|apply S1; lia].
Qed.
Lemma scan_spec : forall r l i n, scan r l i = n -> (length l + i = 16)%nat -> (i <= 12)%nat -> (i <= n)%nat /\ (forall k, (i <= k < n)%nat -> nth (k - i) l 0 < r) /\ ((n < 12)%nat -> r <= nth (n - i) l 0).
Proof.
  intros r l. induction l as [|x l IH]; intros i n E L Hi; cbn [scan length] in *; [lia|].
  destruct (Rlt_dec x r) as [X|X].
  - destruct (Nat.ltb_spec i 12) as [I|I].
    + destruct (IH _ _ E ltac:(lia) ltac:(lia)) as (Ha & Hb & Hc). split; [lia|]. split.
      * intros k Hk. destruct (Nat.eq_dec k i) as [->|n0]; [rewrite Nat.sub_diag; exact X|]. specialize (Hb k ltac:(lia)). replace (k - i)%nat with (S (k - S i)) by lia. exact Hb.
      * intros H. specialize (Hc H). replace (n - i)%nat with (S (n - S i)) by lia. exact Hc.
    + subst n. split; [lia|]. split; [intros; lia|]. intros; lia.
  - subst n. split; [lia|]. split; [intros; lia|]. intros _. rewrite Nat.sub_diag. cbn. lra.
Qed.

(** ** C83: at most twelve substeps; the timestep is not raised, and lowered only where twelve
    substeps do not reach it; the diffusion limit is kept (to eight digits) *)
Theorem C83_limits : forall dt diff_dt, 0 < dt -> 0 < diff_dt -> let s := sts_setup dt diff_dt in
  (1 <= s_N s <= 12)%nat /\ 0 < s_dt s <= dt /\ (dt <= 1097045774 / 10 ^ 7 * diff_dt -> s_dt s = dt) /\ (dt <= diff_dt -> s_N s = 1%nat) /\
  0 < s_diff s <= (1 + / 10 ^ 8) * diff_dt.
Proof.
  intros dt dd Hd Hdd. cbv zeta. unfold sts_setup, get_N_STS. set (r := dt / dd).
  destruct (scan_spec r Ratio 0 _ eq_refl eq_refl ltac:(lia)) as (_ & Hb & Hc). pose proof (scan_12 r Ratio 0 ltac:(lia)) as L. set (n := scan r Ratio 0) in *.
  assert (Er : dt = r * dd) by (unfold r; field; lra). assert (Rp : 0 < r) by (unfold r; apply Rmult_lt_0_compat; [lra|apply Rinv_0_lt_compat; lra]). clearbody n r.
  assert (P : forall N d, (2 <= N <= 12)%nat -> 0 < d -> d <= nth (N - 1) Ratio 0 * dd -> let q := (1 / 2) / INR N in
    0 < 2 * d * q / INR N * ((1 + q) ^ (2 * N) + (1 - q) ^ (2 * N)) / ((1 + q) ^ (2 * N) - (1 - q) ^ (2 * N)) <= (1 + / 10 ^ 8) * dd).
  { intros N d HN Dp Dl q. destruct (diff_part N d ltac:(lia)) as (AB & E). fold q in E. rewrite E. clear E. pose proof (table_ok (N - 1) ltac:(lia)) as T. cbv zeta in T. replace (S (N - 1)) with N in T by lia.
    assert (Nr : 2 <= INR N) by (replace 2 with (INR 2) by reflexivity; apply le_INR; lia). set (A := (2 * INR N + 1) ^ (2 * N)) in *. set (B := (2 * INR N - 1) ^ (2 * N)) in *. set (R0 := nth (N - 1) Ratio 0) in *. clearbody A B R0 q.
    assert (Q : 0 < INR N * INR N * (A - B)) by (apply Rmult_lt_0_compat; [nra|lra]). set (Q0 := INR N * INR N * (A - B)) in *. clearbody Q0.
    assert (0 < d * (A + B)) by (apply Rmult_lt_0_compat; lra). split; [apply Rmult_lt_0_compat; [assumption|apply Rinv_0_lt_compat; lra]|].
    apply (Rmult_le_reg_r Q0); [lra|]. unfold Rdiv. rewrite Rmult_assoc, Rinv_l, Rmult_1_r by lra.
    apply Rle_trans with (R0 * dd * (A + B)); [apply Rmult_le_compat_r; lra|]. replace (R0 * dd * (A + B)) with (dd * (R0 * (A + B))) by ring.
    replace ((1 + / 10 ^ 8) * dd * Q0) with (dd * ((1 + / 10 ^ 8) * Q0)) by ring. apply Rmult_le_compat_l; lra. }
  destruct (Nat.ltb_spec 12 (S n)) as [G|G].
  - cbn [Nat.eqb s_N s_dt s_diff]. assert (n = 12%nat) by lia. subst n. specialize (Hb 11%nat ltac:(lia)). pose proof (Hb) as Hb'. cbn [nth Ratio Nat.sub] in Hb'.
    assert (B0 : 1097045774 / 10 ^ 7 * dd < dt) by (rewrite Er; apply Rmult_lt_compat_r; lra).
    split; [lia|]. split; [split; [apply Rmult_lt_0_compat; lra|lra]|]. split; [intros; lra|]. split; [intros; exfalso; lra|].
    apply P; [lia|apply Rmult_lt_0_compat; lra|]. cbn [nth Ratio Nat.sub]. lra.
  - specialize (Hc ltac:(lia)). rewrite Nat.sub_0_r in Hc. destruct (Nat.eqb_spec (S n) 1) as [E|E].
    + cbn [s_N s_dt s_diff]. assert (n = 0%nat) by lia. subst n. cbn [nth Ratio] in Hc. repeat split; try lia; try lra; auto. assert (dt <= 1 * dd) by (rewrite Er; apply Rmult_le_compat_r; lra). assert (0 < / 10 ^ 8 * dd) by (apply Rmult_lt_0_compat; lra). lra.
    + cbn [s_N s_dt s_diff]. split; [lia|]. split; [lra|]. split; [auto|]. split.
      * intros H. exfalso. specialize (Hb 0%nat ltac:(lia)). cbn [nth Ratio Nat.sub] in Hb. assert (1 * dd < dt) by (rewrite Er; apply Rmult_lt_compat_r; lra). lra.
      * apply P; [lia|lra|]. replace (S n - 1)%nat with n by lia. rewrite Er. apply Rmult_le_compat_r; lra.
Qed.
Print Assumptions C83_limits.

(** ** Polynomials with given roots *)
Fixpoint peval (p : list R) (x : R) : R := match p with [] => 0 | a :: q => a + x * peval q x end.
Definition prods (l : list R) (x : R) : R := fold_right (fun a t => (x - a) * t) 1 l.
Lemma synth : forall p a, exists q, length q = pred (length p) /\ forall x, peval p x = peval p a + (x - a) * peval q x.
Proof.
  induction p as [|b p IH]; intros a.
  - exists []. split; [reflexivity|]. intros. cbn. ring.
  - destruct p as [|b' p]; [exists []; split; [reflexivity|intros; cbn; ring]|]. destruct (IH a) as (q & L & E). exists (peval (b' :: p) a :: q). split; [cbn [length pred] in *; lia|].
    intros x. cbn [peval] in *. specialize (E x). rewrite E at 1. ring.
Qed.
Lemma roots : forall l p, NoDup l -> length p = S (length l) -> (forall a, In a l -> peval p a = 0) -> exists c, forall x, peval p x = c * prods l x.
Proof.
  induction l as [|a l IH]; intros p ND L Z.
  - destruct p as [|b [|b' p]]; try discriminate. exists b. intros x. cbn. ring.
  - destruct (synth p a) as (q & Lq & E). rewrite (Z a) in E by (left; reflexivity). apply NoDup_cons_iff in ND. destruct ND as (NI & ND).
    destruct (IH q ND) as (c & C).
    + rewrite Lq, L. reflexivity.
    + intros b Hb. pose proof (E b) as Eb. rewrite (Z b) in Eb by (right; exact Hb). assert (b <> a) by (intros ->; contradiction). assert (b - a <> 0) by lra.
      apply (Rmult_eq_reg_l (b - a)); [|assumption]. lra.
    + exists c. intros x. rewrite E, C. cbn [prods fold_right]. fold (prods l x). ring.
Qed.
Lemma lincomb : forall p q s t, (length q <= length p)%nat -> exists r, length r = length p /\ forall x, peval r x = s * peval p x + t * peval q x.
Proof.
  induction p as [|a p IH]; intros q s t L.
  - destruct q; [|cbn in L; lia]. exists []. split; [reflexivity|]. intros. cbn. ring.
  - destruct q as [|b q].
    + destruct (IH [] s t ltac:(cbn; lia)) as (r & Lr & E). exists (s * a :: r). split; [cbn; lia|]. intros x. cbn [peval]. rewrite E. cbn [peval]. ring.
    + destruct (IH q s t ltac:(cbn in L; lia)) as (r & Lr & E). exists (s * a + t * b :: r). split; [cbn; lia|]. intros x. cbn [peval]. rewrite E. ring.
Qed.

(** Chebyshev polynomials *)
Fixpoint cheb2 (n : nat) (x : R) : R * R := match n with O => (1, x) | S m => let '(a, b) := cheb2 m x in (b, 2 * x * b - a) end.
Definition cheb (n : nat) (x : R) : R := fst (cheb2 n x).
Lemma cheb2_is : forall n x, cheb2 n x = (cheb n x, cheb (S n) x).
Proof. intros n x. unfold cheb. cbn [cheb2]. destruct (cheb2 n x). reflexivity. Qed.
Lemma cheb_rec : forall n x, cheb (S (S n)) x = 2 * x * cheb (S n) x - cheb n x.
Proof. intros n x. unfold cheb at 1. cbn [cheb2]. rewrite cheb2_is. reflexivity. Qed.
Lemma cheb_ind : forall (P : nat -> Prop), P 0%nat -> P 1%nat -> (forall n, P n -> P (S n) -> P (S (S n))) -> forall n, P n.
Proof. intros P H0 H1 H. assert (forall n, P n /\ P (S n)) by (induction n as [|n []]; auto). intros n. apply H2. Qed.
Lemma cheb_poly : forall n, exists p, length p = S n /\ forall x, peval p x = cheb n x.
Proof.
  apply cheb_ind.
  - exists [1]. split; [reflexivity|]. intros. cbn. ring.
  - exists [0; 1]. split; [reflexivity|]. intros. cbn. ring.
  - intros n (p & Lp & Ep) (q & Lq & Eq). destruct (lincomb (0 :: q) p 2 (-1) ltac:(cbn; lia)) as (r & Lr & Er). exists r. split; [rewrite Lr; cbn; lia|].
    intros x. rewrite Er, cheb_rec. cbn [peval]. rewrite Ep, Eq. ring.
Qed.
Lemma cheb_cos : forall t n, cheb n (cos t) = cos (INR n * t).
Proof.
  intros t. apply cheb_ind.
  - cbn [INR]. rewrite Rmult_0_l, cos_0. reflexivity.
  - cbn [INR]. rewrite Rmult_1_l. reflexivity.
  - intros n H0 H1. rewrite cheb_rec, H0, H1. replace (INR (S (S n)) * t) with (INR (S n) * t + t) by (rewrite (S_INR (S n)); ring). replace (INR n * t) with (INR (S n) * t - t) by (rewrite S_INR; ring). rewrite cos_plus, cos_minus. ring.
Qed.
Lemma cheb_in : forall n x, -1 <= x <= 1 -> -1 <= cheb n x <= 1.
Proof. intros n x H. rewrite <- (cos_acos x H), cheb_cos. apply COS_bound. Qed.
Lemma cheb_out : forall x n, 1 <= x -> 1 <= cheb n x <= cheb (S n) x.
Proof.
  intros x n H. induction n as [|n (A & B)].
  - unfold cheb. cbn. lra.
  - rewrite cheb_rec. split; [lra|]. nra.
Qed.
Lemma nodes_distinct : forall N, (1 <= N)%nat -> NoDup (map (fun i => cos (ang N i)) (seq 0 N)).
Proof.
  intros N HN. assert (Np : 0 < INR N) by (apply lt_0_INR; lia). pose proof PI_RGT_0 as Pp.
  assert (Rg : forall i, (i < N)%nat -> 0 <= ang N i <= PI).
  { intros i Hi. unfold ang. assert (0 <= INR i) by apply pos_INR. assert (INR i + 1 <= INR N) by (rewrite <- S_INR; apply le_INR; lia).
    split; [apply Rmult_le_pos; [apply Rmult_le_pos; lra|left; apply Rinv_0_lt_compat; lra]|]. apply (Rmult_le_reg_r (INR N)); [lra|]. unfold Rdiv. rewrite Rmult_assoc, Rinv_l, Rmult_1_r by lra. nra. }
  assert (G : forall l, NoDup l -> (forall i, In i l -> (i < N)%nat) -> NoDup (map (fun i => cos (ang N i)) l)).
  { induction l as [|a l IH]; intros ND B; [constructor|]. apply NoDup_cons_iff in ND. destruct ND as (NI & ND). cbn [map]. constructor; [|apply IH; auto; intros; apply B; right; auto].
    intros HI. apply in_map_iff in HI. destruct HI as (b & Eb & Hb). apply cos_inj in Eb; [|apply Rg, B; right; exact Hb|apply Rg, B; left; reflexivity].
    assert (a = b); [|subst; contradiction]. apply INR_eq. unfold ang in Eb. assert (EE : 1 / 2 * PI * (2 * INR b + 1) / INR N * INR N = 1 / 2 * PI * (2 * INR a + 1) / INR N * INR N) by (rewrite Eb; reflexivity).
    unfold Rdiv in EE. rewrite !Rmult_assoc, Rinv_l, !Rmult_1_r in EE by lra. nra. }
  apply G; [apply seq_NoDup|]. intros i Hi. apply in_seq in Hi. lia.
Qed.
Lemma cheb_prod : forall N, (1 <= N)%nat -> exists c, forall x, cheb N x = c * prods (map (fun i => cos (ang N i)) (seq 0 N)) x.
Proof.
  intros N HN. assert (Np : 0 < INR N) by (apply lt_0_INR; lia). destruct (cheb_poly N) as (p & Lp & Ep). destruct (roots (map (fun i => cos (ang N i)) (seq 0 N)) p) as (c & C).
  - apply nodes_distinct. exact HN.
  - rewrite map_length, seq_length. exact Lp.
  - intros a Ha. apply in_map_iff in Ha. destruct Ha as (i & <- & _). rewrite Ep, cheb_cos. apply cos_eq_0_1. exists (Z.of_nat i). rewrite <- INR_IZR_INZ. unfold ang. field. lra.
  - exists c. intros x. rewrite <- Ep. apply C.
Qed.

(** ** C83: what one explicit step of diff_dt does not amplify, the substeps do not either *)
Lemma decay_prod : forall lambda hs u, decay lambda u hs = u * fold_right (fun h t => (1 - h * lambda) * t) 1 hs.
Proof.
  intros lambda hs. induction hs as [|h hs IH]; intros u; cbn [decay fold_left fold_right]; [ring|]. unfold decay in IH. rewrite IH. ring.
Qed.
Lemma prod_le : forall (f : R -> R) hs, (forall h, In h hs -> 0 <= f h <= 1) -> 0 <= fold_right (fun h t => f h * t) 1 hs <= 1.
Proof.
  intros f hs. induction hs as [|h hs IH]; intros H; cbn [fold_right]; [lra|]. destruct (H h (or_introl eq_refl)) as (A & B). destruct IH as (C & D); [intros; apply H; right; assumption|]. nra.
Qed.
Theorem C83_stable : forall dt diff_dt lambda u, 0 < dt -> 0 < diff_dt -> let s := sts_setup dt diff_dt in 0 <= lambda -> lambda * s_diff s <= 2 ->
  Rabs (decay lambda u (substeps s)) <= Rabs u.
Proof.
  intros dt dd lambda u Hd Hdd. cbv zeta. intros L0 L2. pose proof (C83_limits dt dd Hd Hdd) as (_ & _ & _ & _ & Dp & _).
  rewrite decay_prod, Rabs_mult. rewrite <- (Rmult_1_r (Rabs u)) at 2. apply Rmult_le_compat_l; [apply Rabs_pos|].
  destruct (setup_ok dt dd) as [N1 Nu D|q HN Hq Nu D]; set (s := sts_setup dt dd) in *; clearbody s.
  - unfold substeps. rewrite N1. cbn [seq map fold_right]. unfold STS_dt. rewrite N1, Nu. cbn [INR]. replace (1 / 2 * PI * (2 * 0 + 1) / 1) with (PI / 2) by field. rewrite cos_PI2.
    replace ((1 - s_diff s / (1 + 0 - (1 - 0) * 0) * lambda) * 1) with (1 - lambda * s_diff s) by field. assert (0 <= lambda * s_diff s) by (apply Rmult_le_pos; lra). apply Rabs_le. lra.
  - clear D. set (N := s_N s) in *. set (d := s_diff s) in *.
    assert (Nr : 2 <= INR N) by (replace 2 with (INR 2) by reflexivity; apply le_INR; lia).
    assert (Qb : 0 < q <= / 4).
    { subst q. split; [apply Rmult_lt_0_compat; [lra|apply Rinv_0_lt_compat; lra]|]. assert (/ INR N <= / 2) by (apply Rinv_le_contravar; lra). unfold Rdiv. lra. }
    assert (Q2 : 0 < q * q <= / 16) by nra. set (nu := q * q) in *. clearbody nu. clear Hq Qb.
    set (y0 := (1 + nu) / (1 - nu)). set (y := (1 + nu - d * lambda) / (1 - nu)).
    assert (Y0 : 1 <= y0) by (unfold y0; apply (Rmult_le_reg_r (1 - nu)); [lra|]; unfold Rdiv; rewrite Rmult_assoc, Rinv_l by lra; lra).
    assert (dl : 0 <= d * lambda <= 2) by (split; [apply Rmult_le_pos; lra|lra]).
    assert (Y1 : -1 <= y <= y0).
    { unfold y, y0. split; (apply (Rmult_le_reg_r (1 - nu)); [lra|]); unfold Rdiv; rewrite ?Rmult_assoc, ?Rinv_l by lra; lra. }
    assert (F : forall i, 1 - STS_dt s i * lambda = (y - cos (ang N i)) / (y0 - cos (ang N i))).
    { intros i. unfold STS_dt. fold N. fold d. fold (ang N i). rewrite Nu. pose proof (COS_bound (ang N i)) as CB. unfold y, y0. assert (1 + nu - (1 - nu) * cos (ang N i) <> 0) by nra. field. repeat split; try assumption; try lra. }
    set (nodes := map (fun i => cos (ang N i)) (seq 0 N)).
    assert (PR : forall l, prods (map (fun i => cos (ang N i)) l) y0 * fold_right (fun h t => (1 - h * lambda) * t) 1 (map (STS_dt s) l) = prods (map (fun i => cos (ang N i)) l) y /\ 0 <= prods (map (fun i => cos (ang N i)) l) y0).
    { induction l as [|a l (IH & IP)]; cbn [map fold_right prods]; [split; lra|]. fold (prods (map (fun i => cos (ang N i)) l) y0). fold (prods (map (fun i => cos (ang N i)) l) y).
      pose proof (COS_bound (ang N a)) as CB. assert (y0 <> 1 -> 0 < y0 - cos (ang N a)) by (intros; lra). split; [|apply Rmult_le_pos; lra].
      assert (y0 - cos (ang N a) <> 0).
      { assert (1 < y0); [|lra]. unfold y0. apply (Rmult_lt_reg_r (1 - nu)); [lra|]. unfold Rdiv. rewrite Rmult_assoc, Rinv_l by lra. lra. }
      rewrite F, <- IH. field. assumption. }
    destruct (PR (seq 0 N)) as (P1 & P0). fold nodes in P1, P0. destruct (cheb_prod N ltac:(lia)) as (c & C). fold nodes in C.
    change (map (STS_dt s) (seq 0 N)) with (substeps s) in P1. set (X := fold_right (fun h t => (1 - h * lambda) * t) 1 (substeps s)) in *.
    assert (T0 : 1 <= cheb N y0) by (apply cheb_out; exact Y0).
    assert (TX : cheb N y0 * X = cheb N y) by (rewrite !C, Rmult_assoc, P1; reflexivity).
    destruct (Rle_dec y 1) as [I|I].
    + pose proof (cheb_in N y ltac:(lra)) as CI. apply Rabs_le. split; apply (Rmult_le_reg_l (cheb N y0)); lra.
    + assert (0 <= X <= 1); [|apply Rabs_le; lra]. unfold X. apply (prod_le (fun h => 1 - h * lambda)). intros h Hh. unfold substeps in Hh. apply in_map_iff in Hh. destruct Hh as (i & <- & _). rewrite F.
      pose proof (COS_bound (ang N i)) as CB. split.
      * apply Rmult_le_pos; [lra|]. left. apply Rinv_0_lt_compat. lra.
      * apply (Rmult_le_reg_r (y0 - cos (ang N i))); [lra|]. unfold Rdiv. rewrite Rmult_assoc, Rinv_l by lra. lra.
Qed.
Print Assumptions C83_stable.

(** ** Hypotheses that can be met: five times the diffusion limit takes three substeps *)
Example ex_c83 : let s := sts_setup 5 1 in s_N s = 3%nat /\ s_dt s = 5 /\ 2 * s_diff s <= 2.
Proof.
  cbv zeta. assert (N3 : get_N_STS 5 1 = 3%nat).
  { unfold get_N_STS. f_equal. unfold Ratio. cbn [scan Nat.ltb Nat.leb]. destruct (Rlt_dec _ _); [|lra]. destruct (Rlt_dec _ _); [|lra]. destruct (Rlt_dec _ _); [lra|]. reflexivity. }
  unfold sts_setup. rewrite N3. cbn [Nat.ltb Nat.leb Nat.eqb s_N s_dt s_diff]. split; [reflexivity|]. split; [reflexivity|].
  destruct (diff_part 3 5 ltac:(lia)) as (_ & E). rewrite E. cbn [INR Nat.mul Nat.add].
  apply (Rmult_le_reg_r ((1 + 1 + 1) * (1 + 1 + 1) * ((2 * (1 + 1 + 1) + 1) ^ 6 - (2 * (1 + 1 + 1) - 1) ^ 6))); [lra|]. unfold Rdiv. rewrite !Rmult_assoc. rewrite Rinv_l by lra. lra.
Qed.
