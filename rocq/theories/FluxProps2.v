(** * Consistency (C38) of the Roe and HLLD solvers *)
From Coq Require Import Reals List Bool Lra Psatz.
From Verif Require Import GasModel GasSpec ConvProps FluxModel FluxProps.
Import ListNotations.
Open Scope R_scope.

(** ** The quantities of the MHD eigenvectors *)
Lemma SIGN_sq x : SIGN x * SIGN x = 1.
Proof. unfold SIGN. destruct (Rlt_dec x 0); lra. Qed.

Lemma mhd_q_ok yy b1 r s :
  0 < yy -> 0 < r_d r -> 0 < s_asq s -> 0 <= s_btstarsq s ->
  s_asq s <= s_cfsq s -> s_cssq s <= s_asq s ->
  exists q a bt ry, mhd_q yy b1 r s = Some q /\
    q_bet2 q * q_bet2 q + q_bet3 q * q_bet3 q = 1 /\
    0 <= bt /\ r_b2 r = bt * q_bet2 q /\ r_b3 r = bt * q_bet3 q /\
    0 <= q_bt_star q /\ q_bt_star q * q_bt_star q = s_btstarsq s /\
    0 < ry /\ ry * ry = yy /\ q_bet2s q = q_bet2 q / ry /\ q_bet3s q = q_bet3 q / ry /\
    q_betsq q = / yy /\
    0 <= q_af q /\ 0 <= q_as q /\ q_af q * q_af q + q_as q * q_as q = 1 /\
    q_af q * q_af q * (s_cfsq s - s_cssq s) = s_asq s - s_cssq s /\
    q_as q * q_as q * (s_cfsq s - s_cssq s) = s_cfsq s - s_asq s /\
    0 < q_sqrtd q /\ q_sqrtd q * q_sqrtd q = r_d r /\
    q_s q = SIGN b1 /\
    0 < a /\ a * a = s_asq s /\
    q_qf q = s_cf s * q_af q * q_s q /\ q_qs q = s_cs s * q_as q * q_s q /\
    q_afp q = a * q_af q / q_sqrtd q /\ q_asp q = a * q_as q / q_sqrtd q.
Proof.
  intros Y D A BS C1 C2. unfold mhd_q.
  set (b2 := r_b2 r). set (b3 := r_b3 r).
  assert (BT : 0 <= b2 * b2 + b3 * b3) by (assert (Z1 := SQR_pos b2); assert (Z2 := SQR_pos b3); unfold SQR in *; lra).
  rewrite (osqrt_ok (b2 * b2 + b3 * b3)) by exact BT. rewrite (osqrt_ok (s_btstarsq s)) by exact BS. cbn [obind]. cbv zeta.
  assert (P := sqrt_pos (b2 * b2 + b3 * b3)). assert (Q := sqrt_sqrt _ BT). set (bt := sqrt (b2 * b2 + b3 * b3)) in *.
  assert (HB : exists e2 e3, (if Req_EM_T bt 0 then Some 1 else odiv b2 bt) = Some e2 /\
                             (if Req_EM_T bt 0 then Some 0 else odiv b3 bt) = Some e3 /\
                             e2 * e2 + e3 * e3 = 1 /\ b2 = bt * e2 /\ b3 = bt * e3).
  { destruct (Req_EM_T bt 0) as [Z|Z].
    - exists 1, 0. repeat split; try ring.
      + rewrite Z in Q. assert (b2 * b2 = 0) by nra. assert (b2 = 0) by nra. lra.
      + rewrite Z in Q. assert (b3 * b3 = 0) by nra. assert (b3 = 0) by nra. lra.
    - rewrite !odiv_ok by exact Z. do 2 eexists. split; [reflexivity|]. split; [reflexivity|].
      split; [|split; field; exact Z].
      replace (b2 / bt * (b2 / bt) + b3 / bt * (b3 / bt)) with ((b2 * b2 + b3 * b3) / (bt * bt)) by (field; exact Z).
      rewrite Q. field. rewrite <- Q. apply Rmult_integral_contrapositive. auto. }
  destruct HB as (e2 & e3 & -> & -> & HB1 & HB2 & HB3). cbn [obind].
  rewrite (osqrt_ok yy) by lra. cbn [obind].
  assert (RY := sqrt_lt_R0 yy Y). assert (RS := sqrt_sqrt yy ltac:(lra)). set (ry := sqrt yy) in *.
  rewrite !(odiv_ok _ ry) by lra. cbn [obind].
  set (AF := if Req_EM_T _ 0 then _ else _).
  assert (HA : exists af as_, AF = Some (af, as_) /\ 0 <= af /\ 0 <= as_ /\ af * af + as_ * as_ = 1 /\
    af * af * (s_cfsq s - s_cssq s) = s_asq s - s_cssq s /\
    as_ * as_ * (s_cfsq s - s_cssq s) = s_cfsq s - s_asq s).
  { unfold AF. destruct (Req_EM_T _ _) as [Z|Z]; [exists 1, 0; repeat split; lra|].
    destruct (Rle_dec _ _); [exists 0, 1; repeat split; lra|].
    destruct (Rle_dec _ _); [exists 1, 0; repeat split; lra|].
    rewrite !odiv_ok by exact Z. cbn [obind].
    assert (I : 0 < / (s_cfsq s - s_cssq s)) by (apply Rinv_0_lt_compat; lra).
    assert (X1 : 0 <= (s_asq s - s_cssq s) / (s_cfsq s - s_cssq s)) by (unfold Rdiv; apply Rmult_le_pos; lra).
    assert (X2 : 0 <= (s_cfsq s - s_asq s) / (s_cfsq s - s_cssq s)) by (unfold Rdiv; apply Rmult_le_pos; lra).
    rewrite !osqrt_ok by assumption. cbn [obind]. do 2 eexists. split; [reflexivity|].
    rewrite !sqrt_sqrt by assumption. repeat split; try apply sqrt_pos; field; lra. }
  destruct HA as (af & as_ & HA0 & HA). rewrite HA0. cbn [obind].
  rewrite (osqrt_ok (r_d r)) by lra. cbn [obind].
  assert (DP := sqrt_lt_R0 _ D). assert (DS := sqrt_sqrt (r_d r) ltac:(lra)). set (sd := sqrt (r_d r)) in *.
  rewrite (osqrt_ok (s_asq s)) by lra. cbn [obind]. rewrite !(odiv_ok _ sd) by lra. cbn [obind].
  exists (Mhdq (sqrt (s_btstarsq s)) e2 e3 (e2 / ry) (e3 / ry) (e2 / ry * (e2 / ry) + e3 / ry * (e3 / ry)) af as_ sd (SIGN b1)
               (s_cf s * af * SIGN b1) (s_cs s * as_ * SIGN b1) (sqrt (s_asq s) * af / sd) (sqrt (s_asq s) * as_ / sd)),
         (sqrt (s_asq s)), bt, ry.
  split; [reflexivity|].
  cbn [q_bt_star q_bet2 q_bet3 q_bet2s q_bet3s q_betsq q_af q_as q_sqrtd q_s q_qf q_qs q_afp q_asp].
  assert (HQ : e2 / ry * (e2 / ry) + e3 / ry * (e3 / ry) = / yy).
  { replace (e2 / ry * (e2 / ry) + e3 / ry * (e3 / ry)) with ((e2 * e2 + e3 * e3) / (ry * ry)) by (field; lra).
    rewrite HB1, RS. field. lra. }
  repeat split; try assumption; try apply HA; try apply sqrt_pos; try (apply sqrt_sqrt; lra); try (apply sqrt_lt_R0; lra); try reflexivity.
Qed.

(** The length of every eigenvector is the number of waves. *)
Definition nwave (c : gcfg) : nat :=
  (match g_eos c with Adiabatic _ => 5 | Isothermal _ => 4 end + if g_mhd c then 2 else 0)%nat.

Lemma esys_ok c b1 r : eos_ok c -> roe_ok c r ->
  exists em, esys c b1 r = Some em /\
    Forall (fun v => length v = nwave c) (e_r em) /\ length (e_r em) = nwave c /\
    Forall (fun v => length v = nwave c) (e_l em) /\ length (e_l em) = nwave c.
Proof.
  intros E K. unfold esys, nwave. destruct (g_mhd c) eqn:M.
  - destruct (mhd_speeds_ok c b1 r E M K) as (s & S0 & S1 & S2 & _ & _ & _ & _ & _ & _ & _ & S4 & S5 & _ & S6 & _).
    rewrite S0. cbn [obind].
    destruct (K M) as [D Y]. unfold eos_ok in E.
    assert (BT : 0 <= r_b2 r * r_b2 r + r_b3 r * r_b3 r)
      by (assert (Z1 := SQR_pos (r_b2 r)); assert (Z2 := SQR_pos (r_b3 r)); unfold SQR in *; lra).
    destruct (g_eos c) as [g|a] eqn:G.
    + assert (BS : 0 <= s_btstarsq s) by (rewrite S4; apply Rmult_le_pos; lra).
      destruct (mhd_q_ok ((g - 1) - (g - 2) * r_y r) b1 r s) as (q & a & bt & ry & Q0 & _ & _ & _ & _ & _ & _ & _ & _ & _ & _ & Q1 & _ & _ & _ & _ & _ & Q2 & _); try assumption; try lra.
      unfold esys_adb_mhd, gam1, gam2. rewrite G, Q0. cbn [obind].
      assert (QN : q_betsq q <> 0) by (rewrite Q1; apply Rinv_neq_0_compat; lra).
      rewrite !odiv_ok by (try exact QN; lra). cbn [obind].
      eexists. split; [reflexivity|]. cbn [e_r e_l]. repeat split; repeat constructor.
    + assert (BS : 0 <= s_btstarsq s) by (rewrite S4; apply Rmult_le_pos; lra).
      destruct (mhd_q_ok (r_y r) b1 r s) as (q & a' & bt & ry & Q0 & _ & _ & _ & _ & _ & _ & _ & _ & _ & _ & Q1 & _ & _ & _ & _ & _ & Q2 & _); try assumption; try lra.
      unfold esys_iso_mhd. rewrite Q0. cbn [obind].
      assert (QN : q_betsq q <> 0) by (rewrite Q1; apply Rinv_neq_0_compat; lra).
      rewrite !odiv_ok by (try exact QN; lra). cbn [obind].
      eexists. split; [reflexivity|]. cbn [e_r e_l]. repeat split; repeat constructor.
  - unfold eos_ok in E. destruct (g_eos c) as [g|a] eqn:G.
    + assert (AP : 0 < adb_asq c r).
      { unfold adb_asq, gam1. rewrite G. assert (T := TINY_pos). apply Rmult_lt_0_compat; [lra|].
        unfold MAX. destruct (Rlt_dec _ _); lra. }
      unfold esys_adb_hyd. rewrite osqrt_ok by lra. cbn [obind]. rewrite !odiv_ok by lra. cbn [obind].
      eexists. split; [reflexivity|]. cbn [e_r e_l]. repeat split; repeat constructor.
    + unfold esys_iso_hyd. rewrite !odiv_ok by lra. cbn [obind].
      eexists. split; [reflexivity|]. cbn [e_r e_l]. repeat split; repeat constructor.
Qed.

(** ** Roe: equal states *)
Lemma vzip_add0 a u r : (length u <= length r)%nat -> a = 0 -> vzip (fun x y => x + a * y) u r = u.
Proof.
  intros L ->. revert r L. induction u as [|x u IH]; intros [|y r] L; cbn in *; try reflexivity; [inversion L|].
  rewrite IH by (apply le_S_n; exact L). f_equal. ring.
Qed.
Lemma vzip_sub0 k a u r : (length u <= length r)%nat -> a = 0 -> vzip (fun f x => f - half * k * a * x) u r = u.
Proof.
  intros L ->. revert r L. induction u as [|x u IH]; intros [|y r] L; cbn in *; try reflexivity; [inversion L|].
  rewrite IH by (apply le_S_n; exact L). f_equal. ring.
Qed.
Lemma vdot_zero l u : Forall (fun x => x = 0) u -> vdot l u = 0.
Proof.
  intros H. revert l. induction H as [|x u H1 _ IH]; intros [|y l]; cbn; try reflexivity. rewrite H1, IH. ring.
Qed.
Lemma vzip_diff_same u : Forall (fun x => x = 0) (vzip (fun l r => r - l) u u).
Proof. induction u; cbn; constructor; [ring|assumption]. Qed.
Lemma to_vec_length c U : length (to_vec c U) = nwave c.
Proof. unfold to_vec, nwave. destruct (g_eos c), (g_mhd c); reflexivity. Qed.

Lemma test_zero c Bx u ws : bad_state c Bx u = false ->
  Forall (fun w => match w with (_, a, r) => a = 0 /\ (length u <= length (r : list R))%nat end) ws ->
  test_inter c Bx u ws = false.
Proof.
  intros B H. induction ws as [|[[ev a] r] ws IH]; [reflexivity|].
  inversion H as [|w ws' HW H' EQ]; subst. destruct HW as [Ha Hr]. destruct ws as [|[[ev1 a1] r1] ws]; [reflexivity|].
  cbn [test_inter]. rewrite vzip_add0 by auto. destruct (Rlt_dec ev ev1).
  - rewrite B. apply IH, H'.
  - apply IH, H'.
Qed.
Lemma sum_zero F ws etah :
  Forall (fun w => match w with (_, a, r) => a = 0 /\ (length F <= length (r : list R))%nat end) ws ->
  fold_left (fun F w => match w with (ev, a, r) =>
                        vzip (fun f x => f - half * MAX (Rabs ev) etah * a * x) F r end) ws F = F.
Proof.
  intros H. induction H as [|[[ev a] r] ws HW _ IH]; [reflexivity|]. destruct HW as [Ha Hr].
  cbn [fold_left]. rewrite (vzip_sub0 (MAX (Rabs ev) etah) a) by auto. exact IH.
Qed.
Lemma waves_zero (n : nat) (evs az : list R) (rs : list (list R)) :
  Forall (fun a => a = 0) az -> Forall (fun v => length v = n) rs ->
  Forall (fun w => match w with (_, a, r) => a = 0 /\ (n <= length (r : list R))%nat end)
         (combine (combine evs az) rs).
Proof.
  intros H1 H2. revert evs az H1. induction H2 as [|v rs Hv _ IH]; intros [|e evs] [|a az] H1; cbn; try constructor.
  - inversion H1; subst. split; [reflexivity|]. apply le_n.
  - inversion H1; subst. apply IH. assumption.
Qed.
Lemma half_same u : vzip (fun fl fr => half * (fl + fr)) u u = u.
Proof. induction u; cbn; [reflexivity|]. rewrite IHu. f_equal. unfold half. field. Qed.

Definition drop_scalars (U : cons1) : cons1 :=
  Cons1 (ud U) (umx U) (umy U) (umz U) (ue U) (uby U) (ubz U) [].
Lemma of_to_vec c U : wf_cons c U -> of_vec c (to_vec c U) = drop_scalars U.
Proof.
  intros [F1 F2]. unfold of_vec, to_vec, drop_scalars.
  destruct (g_mhd c); [|destruct F1 as [-> ->]; [reflexivity|]]; destruct (g_eos c); try rewrite F2; reflexivity.
Qed.

Lemma bad_state_false c W Bx : eos_ok c -> admissible c W -> bad_state c Bx (to_vec c (conserved c W Bx)) = false.
Proof.
  intros E (F & D & P). unfold bad_state. rewrite of_to_vec by (apply wf_conserved, F).
  unfold drop_scalars. cbv zeta. cbn [ud umx umy umz ue uby ubz conserved].
  destruct (Rle_dec (wd W) 0); [lra|]. unfold total_energy, eos_ok in *.
  destruct (g_eos c) as [g|a]; [|reflexivity].
  assert (Z : 0 < wp W / (g - 1)) by (unfold Rdiv; apply Rmult_lt_0_compat; [exact P|apply Rinv_0_lt_compat; lra]).
  assert (K : wp W / (g - 1) + kinetic_energy W + magnetic_pressure c W Bx -
     half * (SQR (wd W * wvx W) + SQR (wd W * wvy W) + SQR (wd W * wvz W)) / wd W = wp W / (g - 1) + magnetic_pressure c W Bx).
  { unfold kinetic_energy, SQR, half. field. lra. }
  rewrite K. destruct F as [F _]. unfold magnetic_pressure, bnorm, SQR, half.
  destruct (g_mhd c).
  - destruct (Rlt_dec _ _) as [L|_]; [exfalso|reflexivity].
    assert (M : wp W / (g - 1) + (Bx * Bx + wby W * wby W + wbz W * wbz W) / 2 -
        1 / 2 * (wby W * wby W + wbz W * wbz W + Bx * Bx) = wp W / (g - 1)) by (field; lra). lra.
  - destruct F as [-> ->]; [reflexivity|]. destruct (Rlt_dec _ _) as [L|_]; [exfalso; lra|reflexivity].
Qed.

Lemma wf_flux c W Bx : wf_prim c W -> wf_cons c (physical_flux c W Bx).
Proof.
  intros [F1 F2]. split; cbn [physical_flux uby ubz ue].
  - intros M. unfold bnorm. rewrite M. destruct (F1 M) as [-> ->]. split; ring.
  - destruct (g_eos c); auto.
Qed.

Theorem C38_roe :
  forall c etah W Bx, eos_ok c -> admissible c W ->
    let U := conserved c W Bx in
    roe_flux c etah U U W W Bx = Some (physical_flux c W Bx).
Proof.
  intros c etah W Bx E A U. subst U. unfold roe_flux. rewrite roe_avg_same by exact A. cbn [obind].
  set (r := Roe _ _ _ _ _ _ _ _ _).
  assert (RO : roe_ok c r) by (apply roe_ok_same; [exact E|apply A]).
  destruct (eigenvalues_ok c Bx r E RO) as (ev & cf & -> & _). cbn [obind].
  destruct (esys_ok c Bx r E RO) as (em & -> & R1 & R2 & L1 & L2). cbn [obind].
  rewrite flux_side_spec by apply A.
  destruct (Rle_dec _ _); [reflexivity|]. destruct (Rle_dec _ _); [reflexivity|].
  unfold roe_waves. cbv zeta. set (u := to_vec c (conserved c W Bx)).
  set (az := map _ (e_l em)).
  assert (AZ : Forall (fun a => a = 0) az).
  { unfold az. apply Forall_forall. intros x Hx. apply in_map_iff in Hx. destruct Hx as (l & <- & _).
    apply vdot_zero, vzip_diff_same. }
  assert (WZ := waves_zero (nwave c) ev az (e_r em) AZ R1).
  rewrite test_zero.
  - unfold roe_sum. rewrite half_same, sum_zero by (rewrite to_vec_length; exact WZ).
    rewrite of_to_vec by (apply wf_flux, A). f_equal. apply scalars_phys. unfold same7, drop_scalars.
    cbn [ud umx umy umz ue uby ubz]. repeat split.
  - apply bad_state_false; assumption.
  - unfold u. rewrite to_vec_length. exact WZ.
Qed.
Print Assumptions C38_roe.

(** ** HLLD *)
Lemma hlld_cf_ok gp W Bx : 0 < gp -> 0 < wd W -> exists s, hlld_cf gp W Bx = Some s /\ 0 < s.
Proof.
  intros G D. unfold hlld_cf. cbv zeta.
  set (pb := half * (Bx * Bx + SQR (wby W) + SQR (wbz W))).
  assert (PB : 0 <= pb - half * (Bx * Bx)).
  { unfold pb, half. assert (Z1 := SQR_pos (wby W)). assert (Z2 := SQR_pos (wbz W)). lra. }
  assert (BB : 0 <= Bx * Bx) by apply Rle_0_sqr. unfold half in PB.
  assert (Q : 0 <= SQR (gp + 2 * pb) - 4 * gp * (Bx * Bx)).
  { unfold SQR. assert (Z := Rle_0_sqr (gp - Bx * Bx)). unfold Rsqr in Z.
    assert ((gp + Bx * Bx) * (gp + Bx * Bx) <= (gp + 2 * pb) * (gp + 2 * pb)) by (apply Rmult_le_compat; lra). nra. }
  rewrite osqrt_ok by exact Q. cbn [obind]. rewrite odiv_ok by lra. cbn [obind].
  assert (P := sqrt_pos (SQR (gp + 2 * pb) - 4 * gp * (Bx * Bx))).
  assert (0 < (gp + 2 * pb + sqrt (SQR (gp + 2 * pb) - 4 * gp * (Bx * Bx))) / (2 * wd W)).
  { unfold Rdiv. apply Rmult_lt_0_compat; [lra|apply Rinv_0_lt_compat; lra]. }
  rewrite osqrt_ok by lra. eexists. split; [reflexivity|]. apply sqrt_lt_R0. assumption.
Qed.

Lemma SMALL_pos : 0 < SMALL_NUMBER.
Proof. unfold SMALL_NUMBER. apply Rinv_0_lt_compat, pow_lt. lra. Qed.

(** When the contact moves with the gas the star state is the state. *)
Lemma hlld_star_same c W Bx sd pt : g_mhd c = true -> 0 < wd W -> sd <> 0 -> 0 < pt ->
  hlld_star c (conserved c W Bx) W Bx (wd W) sd sd pt pt (wvx W) =
  Some (drop_scalars (conserved c W Bx), wvx W * Bx + wvy W * wby W + wvz W * wbz W).
Proof.
  intros M D S0 P. unfold hlld_star. cbn [conserved ud umx umy umz ue uby ubz]. cbv zeta.
  set (t := wd W * sd * sd - Bx * Bx).
  assert (B : (if Rlt_dec (Rabs t) (SMALL_NUMBER * pt)
     then Some (wd W * wvy W, wd W * wvz W, wby W, wbz W)
     else t1 <~ odiv (Bx * (sd - sd)) t;; t2 <~ odiv (wd W * SQR sd - Bx * Bx) t;;
          Some (wd W * (wvy W - wby W * t1), wd W * (wvz W - wbz W * t1), wby W * t2, wbz W * t2)) =
     Some (wd W * wvy W, wd W * wvz W, wby W, wbz W)).
  { destruct (Rlt_dec _ _) as [|N]; [reflexivity|].
    assert (T : t <> 0).
    { intros Z. apply N. rewrite Z, Rabs_R0. apply Rmult_lt_0_compat; [apply SMALL_pos|exact P]. }
    rewrite !odiv_ok by exact T. cbn [obind].
    replace (Bx * (sd - sd) / t) with 0 by (field; exact T).
    replace ((wd W * SQR sd - Bx * Bx) / t) with 1 by (unfold SQR; fold t; replace (wd W * (sd * sd) - Bx * Bx) with t by (unfold t; ring); field; exact T).
    f_equal. f_equal; [f_equal; [f_equal|]|]; ring. }
  rewrite B. cbn [obind]. rewrite !odiv_ok by lra. cbn [obind]. rewrite !odiv_ok by lra. cbn [obind].
  f_equal. f_equal; [|field; lra]. unfold drop_scalars. cbn [conserved ud umx umy umz ue uby ubz].
  f_equal. field. lra.
Qed.

Lemma c2p_vel c U Bx : ud U <> 0 -> exists W, Cons1D_to_Prim1D c U Bx = Some W /\
  wvy W = umy U / ud U /\ wvz W = umz U / ud U.
Proof.
  intros H. unfold Cons1D_to_Prim1D. rewrite odiv_ok by exact H. cbn [obind].
  eexists. split; [reflexivity|]. cbn [wvy wvz]. split; field; exact H.
Qed.

Theorem C38_hlld :
  forall g W Bx, let c := GCfg true (Adiabatic g) in
    1 < g -> admissible c W ->
    let U := conserved c W Bx in
    hlld g U U W W Bx = Some (physical_flux c W Bx).
Proof.
  intros g W Bx c G A U. subst U. destruct A as (WF & D & P). cbn [c g_eos] in P.
  unfold hlld. fold c.
  destruct (hlld_cf_ok (g * wp W) W Bx) as (cf & -> & CF); [nra|exact D|]. cbn [obind]. cbv zeta.
  replace (MAX cf cf) with cf by (unfold MAX; destruct (Rlt_dec cf cf); reflexivity).
  assert (PT : wp W + half * (Bx * Bx + SQR (wby W) + SQR (wbz W)) = total_pressure c W Bx).
  { unfold total_pressure, gas_pressure, magnetic_pressure, bnorm, SQR, half, c. cbn [g_eos g_mhd]. field. }
  rewrite PT. unfold c at 1 2 3 4. rewrite !hlld_side_spec. fold c.
  assert (PTP : 0 < total_pressure c W Bx).
  { rewrite <- PT. unfold half. assert (Z1 := SQR_pos (wby W)). assert (Z2 := SQR_pos (wbz W)). assert (Z3 := SQR_pos Bx). unfold SQR in *. lra. }
  set (pt := total_pressure c W Bx) in *.
  destruct (Rle_dec (wvx W) (wvx W)) as [_|N]; [|lra].
  destruct (Rle_dec 0 (wvx W - cf)); [reflexivity|]. destruct (Rle_dec (wvx W + cf) 0); [reflexivity|].
  replace (wvx W - cf - wvx W) with (- cf) by ring. replace (wvx W + cf - wvx W) with cf by ring.
  assert (N1 : cf * wd W - - cf * wd W <> 0).
  { assert (0 < cf * wd W) by (apply Rmult_lt_0_compat; lra). lra. }
  rewrite (odiv_ok _ _ N1). cbn [obind].
  replace ((cf * wd W * wvx W - - cf * wd W * wvx W - pt + pt) / (cf * wd W - - cf * wd W)) with (wvx W) by (field; lra).
  replace (wvx W - cf - wvx W) with (- cf) by ring. replace (wvx W + cf - wvx W) with cf by ring.
  cbn [conserved ud]. rewrite !odiv_ok by lra. cbn [obind].
  replace (wd W * - cf / - cf) with (wd W) by (field; lra). replace (wd W * cf / cf) with (wd W) by (field; lra).
  rewrite (osqrt_ok (wd W)) by lra. cbn [obind].
  assert (SD := sqrt_lt_R0 _ D). assert (SS := sqrt_sqrt (wd W) ltac:(lra)). set (sq := sqrt (wd W)) in *.
  rewrite !(odiv_ok _ sq) by lra. cbn [obind].
  replace (pt + wd W * - cf * (- cf - - cf)) with pt by ring.
  fold (conserved c W Bx). rewrite !hlld_star_same by (try reflexivity; try assumption; lra). cbn [obind].
  destruct (c2p_vel c (drop_scalars (conserved c W Bx)) Bx) as (V & -> & V1 & V2); [cbn; lra|]. cbn [obind].
  cbn [drop_scalars conserved ud umx umy umz ue uby ubz] in *.
  assert (VY : wvy V = wvy W) by (rewrite V1; field; lra). assert (VZ : wvz V = wvz W) by (rewrite V2; field; lra).
  rewrite VY, VZ.
  set (Uc := conserved c W Bx).
  match goal with |- context [if Rlt_dec (half * (Bx * Bx)) ?x then ?y else ?z] => set (DS := if Rlt_dec (half * (Bx * Bx)) x then y else z) end.
  assert (HD : exists e1 e2, DS = Some (Cons1 (ud Uc) (umx Uc) (umy Uc) (umz Uc) e1 (uby Uc) (ubz Uc) [],
                             Cons1 (ud Uc) (umx Uc) (umy Uc) (umz Uc) e2 (uby Uc) (ubz Uc) []) /\ e1 = ue Uc /\ e2 = ue Uc).
  { unfold DS. destruct (Rlt_dec _ _); [do 2 eexists; split; [reflexivity|split; reflexivity]|].
    rewrite !odiv_ok by lra. cbn [obind]. rewrite !odiv_ok by lra. cbn [obind].
    set (sg := if Rlt_dec 0 Bx then 1 else -1).
    replace (1 / (sq + sq) * (sq * wvy W + sq * wvy W + sg * (wby W - wby W))) with (wvy W) by (field; lra).
    replace (1 / (sq + sq) * (sq * wvz W + sq * wvz W + sg * (wbz W - wbz W))) with (wvz W) by (field; lra).
    replace (1 / (sq + sq) * (sq * wby W + sq * wby W + sg * sq * sq * (wvy W - wvy W))) with (wby W) by (field; lra).
    replace (1 / (sq + sq) * (sq * wbz W + sq * wbz W + sg * sq * sq * (wvz W - wvz W))) with (wbz W) by (field; lra).
    do 2 eexists. split; [reflexivity|]. unfold Uc. cbn [conserved ue]. split; field; lra. }
  destruct HD as (e1 & e2 & -> & -> & ->). cbn [obind]. f_equal. apply scalars_phys.
  assert (HS : hlld_side c Uc W pt Bx = physical_flux c W Bx) by apply hlld_side_spec.
  rewrite ?HS. clear HS.
  set (b := Rabs Bx / sq). change (drop_scalars Uc) with (Cons1 (ud Uc) (umx Uc) (umy Uc) (umz Uc) (ue Uc) (uby Uc) (ubz Uc) []).
  clearbody Uc. clear.
  set (F := physical_flux c W Bx). clearbody F.
  destruct (Rle_dec _ _); [|destruct (Rle_dec _ _); [|destruct (Rlt_dec _ _)]];
    unfold same7, flux_star, flux_dstar, zip2; cbn [ud umx umy umz ue uby ubz]; repeat split; ring.
Qed.
Print Assumptions C38_hlld.

(** ** HLLD, isothermal *)
Lemma hlldi_star_same c W Bx va spd : g_mhd c = true -> g_eos c = Isothermal (match g_eos c with Isothermal a => a | _ => 0 end) ->
  0 < wd W -> va * va * wd W = Bx * Bx -> spd <> 0 ->
  hlldi_star (conserved c W Bx) W Bx (wd W) (wd W * wvx W) (wvx W) spd (wvx W - va) (wvx W + va) =
  Some (drop_scalars (conserved c W Bx)).
Proof.
  intros M G D V S0. unfold hlldi_star, drop_scalars. cbn [conserved ud umx umy umz ue uby ubz].
  unfold total_energy. rewrite G.
  destruct (near _ _ || near _ _) eqn:N; [reflexivity|]. apply orb_false_iff in N. destruct N as [N1 N2].
  assert (NN : forall x, near spd x = false -> spd - x <> 0).
  { intros x H Z. assert (X : x = spd) by lra. subst x. unfold near in H.
    destruct (Req_EM_T spd 0); [contradiction|]. replace (spd / spd - 1) with 0 in H by (field; assumption).
    rewrite Rabs_R0 in H. destruct (Rlt_dec 0 SMALL_NUMBER) as [|Q]; [discriminate|]. apply Q, SMALL_pos. }
  apply NN in N1. apply NN in N2. clear NN.
  assert (T : (spd - (wvx W - va)) * (spd - (wvx W + va)) <> 0) by (apply Rmult_integral_contrapositive; split; assumption).
  assert (T2 : wd W * ((spd - (wvx W - va)) * (spd - (wvx W + va))) <> 0) by (apply Rmult_integral_contrapositive; split; [lra|assumption]).
  rewrite odiv_ok by exact T. cbn [obind]. rewrite odiv_ok by exact T2. cbn [obind].
  set (t := (spd - (wvx W - va)) * (spd - (wvx W + va))) in *.
  replace (wd W * SQR (spd - wvx W) - Bx * Bx) with (wd W * t) by (rewrite <- V; unfold t, SQR; ring).
  f_equal. f_equal; field; try split; try lra; assumption.
Qed.

Theorem C38_hlld_isothermal :
  forall a d_MIN W Bx, let c := GCfg true (Isothermal a) in
    0 < a -> admissible c W -> d_MIN <= wd W ->
    let U := conserved c W Bx in
    hlld_iso a d_MIN U U W W Bx = Some (physical_flux c W Bx).
Proof.
  intros a dm W Bx c AP A DM U. subst U. destruct A as (WF & D & _).
  unfold hlld_iso. fold c. cbv zeta.
  assert (GP : 0 < wd W * (a * a)) by (repeat apply Rmult_lt_0_compat; assumption).
  destruct (hlld_cf_ok (wd W * (a * a)) W Bx) as (cf & -> & CF); [exact GP|exact D|]. cbn [obind].
  assert (PT : wd W * (a * a) + half * (Bx * Bx + SQR (wby W) + SQR (wbz W)) = total_pressure c W Bx).
  { unfold total_pressure, gas_pressure, magnetic_pressure, bnorm, SQR, half, c. cbn [g_eos g_mhd]. field. }
  rewrite PT.
  assert (HS : hlld_side c (conserved c W Bx) W (total_pressure c W Bx) Bx = physical_flux c W Bx) by apply hlld_side_spec.
  rewrite !HS.
  replace (MIN (wvx W - cf) (wvx W - cf)) with (wvx W - cf) by (unfold MIN; destruct (Rlt_dec (wvx W - cf) (wvx W - cf)); reflexivity).
  replace (MAX (wvx W + cf) (wvx W + cf)) with (wvx W + cf) by (unfold MAX; destruct (Rlt_dec (wvx W + cf) (wvx W + cf)); reflexivity).
  destruct (Rle_dec 0 (wvx W - cf)) as [|NL]; [reflexivity|]. destruct (Rle_dec (wvx W + cf) 0) as [|NR]; [reflexivity|].
  rewrite (odiv_ok _ (wvx W + cf - (wvx W - cf))) by lra. cbn [obind].
  set (U := conserved c W Bx). set (F := physical_flux c W Bx).
  assert (HQ : forall u f, ((wvx W + cf) * u - (wvx W - cf) * u - f + f) * (1 / (wvx W + cf - (wvx W - cf))) = u) by (intros; field; lra).
  assert (HF : forall u f, ((wvx W + cf) * f - (wvx W - cf) * f + (wvx W + cf) * (wvx W - cf) * (u - u)) * (1 / (wvx W + cf - (wvx W - cf))) = f) by (intros; field; lra).
  rewrite !HQ, !HF. replace (ud U) with (wd W) by reflexivity. replace (ud F) with (wd W * wvx W) by reflexivity.
  destruct (Rlt_dec (wd W) dm) as [|_]; [lra|].
  rewrite (osqrt_ok (wd W)) by lra. cbn [obind].
  assert (SD := sqrt_lt_R0 _ D). assert (SS := sqrt_sqrt (wd W) ltac:(lra)). set (sq := sqrt (wd W)) in *.
  rewrite (odiv_ok (wd W * wvx W)) by lra. cbn [obind]. replace (wd W * wvx W / wd W) with (wvx W) by (field; lra).
  rewrite odiv_ok by lra. cbn [obind].
  set (va := Rabs Bx / sq).
  assert (VA : va * va * wd W = Bx * Bx).
  { unfold va. rewrite <- SS. replace (Rabs Bx / sq * (Rabs Bx / sq) * (sq * sq)) with (Rabs Bx * Rabs Bx) by (field; lra).
    rewrite <- Rabs_mult. apply Rabs_right. apply Rle_ge, Rle_0_sqr. }
  replace (umx U) with (wd W * wvx W) by reflexivity. unfold U at 1 2.
  rewrite !hlldi_star_same by (try reflexivity; try assumption; lra). cbn [obind]. fold U.
  assert (SG := SIGN_sq Bx).
  assert (X0 : sq * SIGN Bx <> 0).
  { apply Rmult_integral_contrapositive. split; [lra|]. intros Z. rewrite Z in SG. lra. }
  rewrite !(odiv_ok _ (sq * SIGN Bx)) by exact X0. cbn [obind]. rewrite !(odiv_ok _ (wd W)) by lra. cbn [obind].
  f_equal. apply scalars_phys. fold F.
  assert (E1 : umy F = wd W * wvx W * wvy W - Bx * wby W) by reflexivity.
  assert (E2 : umz F = wd W * wvx W * wvz W - Bx * wbz W) by reflexivity.
  assert (E3 : uby F = wby W * wvx W - Bx * wvy W) by (unfold F, physical_flux, bnorm; cbn; ring).
  assert (E4 : ubz F = wbz W * wvx W - Bx * wvz W) by (unfold F, physical_flux, bnorm; cbn; ring).
  assert (E5 : ue F = 0) by reflexivity.
  assert (E6 : ud F = wd W * wvx W) by reflexivity.
  assert (E7 : uby U = wby W /\ ubz U = wbz W /\ umy U = wd W * wvy W /\ umz U = wd W * wvz W /\ ue U = 0) by (repeat split; reflexivity).
  destruct E7 as (E7 & E8 & E9 & E10 & E11).
  clearbody F U. unfold drop_scalars. cbn [ud umx umy umz ue uby ubz].
  rewrite E7, E8, E9, E10. 
  set (sg := SIGN Bx) in *. assert (G0 : sg <> 0) by (intros Z; rewrite Z in SG; lra).
  replace (half * (wd W * wvy W + wd W * wvy W + sq * sg * (wby W - wby W))) with (wd W * wvy W) by (unfold half; field).
  replace (half * (wd W * wvz W + wd W * wvz W + sq * sg * (wbz W - wbz W))) with (wd W * wvz W) by (unfold half; field).
  replace (half * (wby W + wby W + (wd W * wvy W - wd W * wvy W) / (sq * sg))) with (wby W) by (unfold half; field; split; [exact G0|lra]).
  replace (half * (wbz W + wbz W + (wd W * wvz W - wd W * wvz W) / (sq * sg))) with (wbz W) by (unfold half; field; split; [exact G0|lra]).
  destruct (Rle_dec _ _); [|destruct (Rle_dec _ _)]; unfold same7, flux_star, zip2; cbn [ud umx umy umz ue uby ubz]; repeat split.
  all: try (rewrite ?E1, ?E2, ?E3, ?E4, ?E5, ?E6, ?E7, ?E8, ?E9, ?E10, ?E11; field; lra).
Qed.
Print Assumptions C38_hlld_isothermal.
