(** * Upwinding (C39) and finiteness (C55): HLLD, adiabatic and isothermal *)
From Coq Require Import Reals List Bool Lra Psatz.
From Verif Require Import GasModel GasSpec ConvProps FluxModel FluxProps FluxProps2 FluxUpwind FluxUpwind3.
Import ListNotations.
Open Scope R_scope.

Lemma hlld_cf_fast c gp W Bx : g_mhd c = true -> 0 < wd W -> 0 < gp -> sound2 c W = gp / wd W ->
  exists s, hlld_cf gp W Bx = Some s /\ fast_speed c W Bx s /\
    gp <= wd W * (s * s) /\ Bx * Bx <= wd W * (s * s) /\
    (wd W * (s * s) - gp) * (wd W * (s * s) - Bx * Bx) = (SQR (wby W) + SQR (wbz W)) * (wd W * (s * s)).
Proof.
  intros M D G S2. unfold hlld_cf. cbv zeta.
  set (T := SQR (wby W) + SQR (wbz W)).
  assert (T0 : 0 <= T) by (unfold T; assert (Z1 := SQR_pos (wby W)); assert (Z2 := SQR_pos (wbz W)); lra).
  replace (gp + 2 * (half * (Bx * Bx + SQR (wby W) + SQR (wbz W)))) with (gp + Bx * Bx + T) by (unfold T, half; field).
  assert (BB : 0 <= Bx * Bx) by apply Rle_0_sqr.
  assert (GT : 0 <= gp * T) by (apply Rmult_le_pos; lra).
  assert (Q : 0 <= SQR (gp + Bx * Bx + T) - 4 * gp * (Bx * Bx)).
  { unfold SQR. replace ((gp + Bx * Bx + T) * (gp + Bx * Bx + T) - 4 * gp * (Bx * Bx)) with ((gp - Bx * Bx - T) * (gp - Bx * Bx - T) + 4 * (gp * T)) by ring.
    assert (Z := Rle_0_sqr (gp - Bx * Bx - T)). unfold Rsqr in Z. lra. }
  rewrite osqrt_ok by exact Q. cbn [obind]. rewrite odiv_ok by lra. cbn [obind].
  assert (RP := sqrt_pos (SQR (gp + Bx * Bx + T) - 4 * gp * (Bx * Bx))).
  assert (RS := sqrt_sqrt _ Q). set (r := sqrt (SQR (gp + Bx * Bx + T) - 4 * gp * (Bx * Bx))) in *.
  unfold SQR in RS. clearbody r.
  assert (XP : 0 < (gp + Bx * Bx + T + r) / (2 * wd W)).
  { unfold Rdiv. apply Rmult_lt_0_compat; [lra|apply Rinv_0_lt_compat; lra]. }
  rewrite osqrt_ok by lra. assert (SP := sqrt_lt_R0 _ XP). assert (SS := sqrt_sqrt _ (Rlt_le _ _ XP)).
  set (s := sqrt _) in *. clearbody s. exists s. split; [reflexivity|].
  assert (DX : wd W * (s * s) = (gp + Bx * Bx + T + r) / 2) by (rewrite SS; field; lra).
  (* r is at least the distance of gp from the total field *)
  assert (R1 : gp - Bx * Bx - T <= r).
  { apply sq_le; [exact RP|]. rewrite RS. replace ((gp + Bx * Bx + T) * (gp + Bx * Bx + T) - 4 * gp * (Bx * Bx)) with ((gp - Bx * Bx - T) * (gp - Bx * Bx - T) + 4 * (gp * T)) by ring. lra. }
  assert (R2 : - (gp - Bx * Bx - T) <= r).
  { apply sq_le; [exact RP|]. rewrite RS. replace ((gp + Bx * Bx + T) * (gp + Bx * Bx + T) - 4 * gp * (Bx * Bx)) with ((gp - Bx * Bx - T) * (gp - Bx * Bx - T) + 4 * (gp * T)) by ring. lra. }
  set (X := wd W * (s * s)) in *.
  assert (XQ : X * X - (gp + Bx * Bx + T) * X + gp * (Bx * Bx) = 0) by (rewrite DX; lra).
  assert (MS : forall t, magnetosonic c W Bx t <-> (wd W * (t * t)) * (wd W * (t * t)) - (gp + Bx * Bx + T) * (wd W * (t * t)) + gp * (Bx * Bx) = 0).
  { intros t. unfold magnetosonic, alfven2, alfven_x2, bnorm. rewrite M, S2.
    replace (t ^ 4 - (gp / wd W + (Bx * Bx + wby W * wby W + wbz W * wbz W) / wd W) * t ^ 2 + gp / wd W * (Bx * Bx / wd W))
      with (((wd W * (t * t)) * (wd W * (t * t)) - (gp + Bx * Bx + T) * (wd W * (t * t)) + gp * (Bx * Bx)) / (wd W * wd W))
      by (unfold T, SQR; field; lra).
    split; intros H.
    - apply (Rmult_eq_compat_r (wd W * wd W)) in H. unfold Rdiv in H. rewrite Rmult_assoc, Rinv_l, Rmult_1_r, Rmult_0_l in H; [exact H|].
      apply Rmult_integral_contrapositive; lra.
    - rewrite H. unfold Rdiv. apply Rmult_0_l. }
  split; [|split; [lra|split; [lra|lra]]].
  split; [exact SP|]. split; [apply MS; exact XQ|].
  intros t Ht. apply MS in Ht. apply sq_le; [lra|]. apply (Rmult_le_reg_l (wd W)); [exact D|]. fold X. rewrite DX.
  set (Y := wd W * (t * t)) in *. clearbody Y.
  assert (2 * Y - (gp + Bx * Bx + T) <= r); [|lra]. apply sq_le; [exact RP|]. rewrite RS. lra.
Qed.

(** The total pressure minus that of the normal field is below d*cf^2. *)
Lemma pt_below X gp p bb T : 0 < p -> p < gp -> 0 <= bb -> 0 <= T -> gp <= X -> bb <= X ->
  (X - gp) * (X - bb) = T * X -> p + T / 2 < X.
Proof.
  intros P G B T0 X1 X2 E. destruct (Rlt_dec (p + T / 2) X) as [|N]; [assumption|exfalso].
  destruct (Req_EM_T T 0) as [Z|Z]; [lra|].
  assert (0 <= (T / 2 - (X - gp)) * (X - bb)) by (apply Rmult_le_pos; lra).
  assert (0 < T * (X + bb)) by (apply Rmult_lt_0_compat; lra). nra.
Qed.

Lemma hlld_star_ok c U W Bx d sd sdm pt ptst sM : d <> 0 -> sdm <> 0 ->
  (0 < ptst \/ ud U * sd * sdm - Bx * Bx <> 0) ->
  exists V vb, hlld_star c U W Bx d sd sdm pt ptst sM = Some (V, vb) /\ ud V = d.
Proof.
  intros D S0 H. unfold hlld_star. cbv zeta. set (t := ud U * sd * sdm - Bx * Bx) in *.
  destruct (Rlt_dec _ _) as [L|L].
  - cbn [obind]. rewrite odiv_ok by exact D. cbn [obind]. rewrite odiv_ok by exact S0. cbn [obind].
    do 2 eexists. split; reflexivity.
  - assert (T : t <> 0).
    { destruct H as [H|H]; [|exact H]. intros Z. apply L. rewrite Z, Rabs_R0. apply Rmult_lt_0_compat; [apply SMALL_pos|exact H]. }
    rewrite !odiv_ok by exact T. cbn [obind]. rewrite odiv_ok by exact D. cbn [obind]. rewrite odiv_ok by exact S0. cbn [obind].
    do 2 eexists. split; reflexivity.
Qed.

Theorem C39_hlld :
  forall g Wl Wr Bx, let c := GCfg true (Adiabatic g) in
    1 < g -> admissible c Wl -> admissible c Wr ->
    let F := hlld g (conserved c Wl Bx) (conserved c Wr Bx) Wl Wr Bx in
    exists cl cr, fast_speed c Wl Bx cl /\ fast_speed c Wr Bx cr /\
      (Rmax cl cr <= wvx Wl -> Rmax cl cr <= wvx Wr -> F = Some (physical_flux c Wl Bx)) /\
      (wvx Wl <= - Rmax cl cr -> wvx Wr <= - Rmax cl cr -> F = Some (physical_flux c Wr Bx)) /\
      F <> None.
Proof.
  intros g Wl Wr Bx c G (WFl & Dl & Pl) (WFr & Dr & Pr) F. cbn [c g_eos] in Pl, Pr.
  destruct (hlld_cf_fast c (g * wp Wl) Wl Bx) as (cl & HL & FL & L1 & L2 & L3);
    [reflexivity|exact Dl|apply Rmult_lt_0_compat; lra|reflexivity|].
  destruct (hlld_cf_fast c (g * wp Wr) Wr Bx) as (cr & HR & FR & R1 & R2 & R3);
    [reflexivity|exact Dr|apply Rmult_lt_0_compat; lra|reflexivity|].
  exists cl, cr. split; [exact FL|]. split; [exact FR|]. unfold F, hlld. fold c. rewrite HL, HR. cbn [obind].
  assert (MM : MAX cl cr = Rmax cl cr).
  { unfold MAX, Rmax. destruct (Rlt_dec cr cl), (Rle_dec cl cr); lra. }
  rewrite MM. assert (M1 := Rmax_l cl cr). assert (M2 := Rmax_r cl cr). set (cm := Rmax cl cr) in *.
  destruct FL as (CL & _). destruct FR as (CR & _). clear HL HR MM.
  cbv zeta.
  assert (PT : forall W, wp W + half * (Bx * Bx + SQR (wby W) + SQR (wbz W)) = total_pressure c W Bx).
  { intros W. unfold total_pressure, gas_pressure, magnetic_pressure, bnorm, SQR, half, c. cbn [g_eos g_mhd]. field. }
  rewrite !PT.
  assert (HS : forall W, hlld_side c (conserved c W Bx) W (total_pressure c W Bx) Bx = physical_flux c W Bx) by (intros; apply hlld_side_spec).
  rewrite !HS.
  set (s0 := if Rle_dec (wvx Wl) (wvx Wr) then wvx Wl - cm else wvx Wr - cm).
  set (s4 := if Rle_dec (wvx Wl) (wvx Wr) then wvx Wr + cm else wvx Wl + cm).
  assert (SP : s0 <= wvx Wl - cm /\ s0 <= wvx Wr - cm /\ (s0 = wvx Wl - cm \/ s0 = wvx Wr - cm) /\
               wvx Wl + cm <= s4 /\ wvx Wr + cm <= s4 /\ (s4 = wvx Wl + cm \/ s4 = wvx Wr + cm)).
  { unfold s0, s4. destruct (Rle_dec _ _); lra. }
  clearbody s0 s4.
  split; [|split].
  - intros V1 V2. destruct (Rle_dec 0 s0); [reflexivity|lra].
  - intros V1 V2. destruct (Rle_dec 0 s0); [lra|]. destruct (Rle_dec s4 0); [reflexivity|lra].
  - destruct (Rle_dec 0 s0); [discriminate|]. destruct (Rle_dec s4 0); [discriminate|].
    destruct SP as (A1 & A2 & _ & B1 & B2 & _).
    assert (Tl : 0 <= SQR (wby Wl) + SQR (wbz Wl)) by (assert (Z1 := SQR_pos (wby Wl)); assert (Z2 := SQR_pos (wbz Wl)); lra).
    assert (Tr : 0 <= SQR (wby Wr) + SQR (wbz Wr)) by (assert (Z1 := SQR_pos (wby Wr)); assert (Z2 := SQR_pos (wbz Wr)); lra).
    assert (BB : 0 <= Bx * Bx) by apply Rle_0_sqr.
    assert (PTl : total_pressure c Wl Bx = wp Wl + (SQR (wby Wl) + SQR (wbz Wl)) / 2 + Bx * Bx / 2) by (rewrite <- PT; unfold half; field).
    assert (PTr : total_pressure c Wr Bx = wp Wr + (SQR (wby Wr) + SQR (wbz Wr)) / 2 + Bx * Bx / 2) by (rewrite <- PT; unfold half; field).
    assert (Kl : wp Wl + (SQR (wby Wl) + SQR (wbz Wl)) / 2 < wd Wl * (cl * cl)).
    { apply (pt_below _ (g * wp Wl) _ (Bx * Bx)); try assumption. assert (0 < (g - 1) * wp Wl) by (apply Rmult_lt_0_compat; lra). lra. }
    assert (Kr : wp Wr + (SQR (wby Wr) + SQR (wbz Wr)) / 2 < wd Wr * (cr * cr)).
    { apply (pt_below _ (g * wp Wr) _ (Bx * Bx)); try assumption. assert (0 < (g - 1) * wp Wr) by (apply Rmult_lt_0_compat; lra). lra. }
    set (ptl := total_pressure c Wl Bx) in *. set (ptr := total_pressure c Wr Bx) in *.
    set (tl := (SQR (wby Wl) + SQR (wbz Wl)) / 2) in *. set (tr := (SQR (wby Wr) + SQR (wbz Wr)) / 2) in *.
    assert (Tl' : 0 <= tl) by (unfold tl; lra). assert (Tr' : 0 <= tr) by (unfold tr; lra).
    clearbody ptl ptr tl tr.
    pose (x := wvx Wl - s0). pose (y := s4 - wvx Wr).
    assert (X0 : cm <= x) by (unfold x; lra). assert (Y0 : cm <= y) by (unfold y; lra).
    assert (MX : 0 < wd Wl * x) by (apply Rmult_lt_0_compat; lra). assert (MY : 0 < wd Wr * y) by (apply Rmult_lt_0_compat; lra).
    assert (N : (s4 - wvx Wr) * wd Wr - (s0 - wvx Wl) * wd Wl = wd Wr * y + wd Wl * x) by (unfold x, y; ring).
    rewrite odiv_ok by lra. cbn [obind].
    set (s2 := _ / _).
    assert (E2 : s2 * (wd Wr * y + wd Wl * x) = wd Wr * y * wvx Wr + wd Wl * x * wvx Wl - ptr + ptl).
    { unfold s2. rewrite N. unfold x, y. field. fold x y. lra. }
    clearbody s2. clear N.
    (* s0 < s2 < s4 *)
    assert (Cl2 : cl * cl <= x * x) by (apply Rmult_le_compat; lra).
    assert (Cr2 : cr * cr <= y * y) by (apply Rmult_le_compat; lra).
    assert (Dl2 : wd Wl * (cl * cl) <= wd Wl * (x * x)) by (apply Rmult_le_compat_l; lra).
    assert (Dr2 : wd Wr * (cr * cr) <= wd Wr * (y * y)) by (apply Rmult_le_compat_l; lra).
    assert (LO : s0 < s2).
    { apply (Rmult_lt_reg_r (wd Wr * y + wd Wl * x)); [lra|]. rewrite E2.
      assert (Z : cr * cr <= y * (wvx Wr - s0)) by (apply Rmult_le_compat; lra).
      assert (wd Wr * (cr * cr) <= wd Wr * (y * (wvx Wr - s0))) by (apply Rmult_le_compat_l; lra).
      assert (wd Wl * x * wvx Wl = wd Wl * (x * x) + wd Wl * x * s0) by (unfold x; ring). lra. }
    assert (HI : s2 < s4).
    { apply (Rmult_lt_reg_r (wd Wr * y + wd Wl * x)); [lra|]. rewrite E2.
      assert (Z : cl * cl <= x * (s4 - wvx Wl)) by (apply Rmult_le_compat; lra).
      assert (wd Wl * (cl * cl) <= wd Wl * (x * (s4 - wvx Wl))) by (apply Rmult_le_compat_l; lra).
      assert (wd Wr * y * wvx Wr = wd Wr * y * s4 - wd Wr * (y * y)) by (unfold y; ring). lra. }
    change (ud (conserved c Wl Bx)) with (wd Wl). change (ud (conserved c Wr Bx)) with (wd Wr). rewrite !(odiv_ok _ (s0 - s2)) by lra. cbn [obind]. rewrite !(odiv_ok _ (s4 - s2)) by lra. cbn [obind].
    assert (DL : 0 < wd Wl * (s0 - wvx Wl) / (s0 - s2)).
    { replace (wd Wl * (s0 - wvx Wl) / (s0 - s2)) with (wd Wl * x / (s2 - s0)) by (unfold x; field; lra).
      unfold Rdiv. apply Rmult_lt_0_compat; [lra|apply Rinv_0_lt_compat; lra]. }
    assert (DR : 0 < wd Wr * (s4 - wvx Wr) / (s4 - s2)).
    { unfold Rdiv. apply Rmult_lt_0_compat; [fold y; lra|apply Rinv_0_lt_compat; lra]. }
    set (dl := wd Wl * (s0 - wvx Wl) / (s0 - s2)) in *. set (dr := wd Wr * (s4 - wvx Wr) / (s4 - s2)) in *.
    clearbody dl dr.
    rewrite (osqrt_ok dl), (osqrt_ok dr) by lra. cbn [obind].
    assert (QL := sqrt_lt_R0 _ DL). assert (QR := sqrt_lt_R0 _ DR). set (ql := sqrt dl) in *. set (qr := sqrt dr) in *.
    rewrite (odiv_ok _ ql) by lra. cbn [obind]. rewrite (odiv_ok _ qr) by lra. cbn [obind].
    set (ptst := ptl + wd Wl * (s0 - wvx Wl) * (s0 - wvx Wl - (s0 - s2))).
    assert (PS1 : ptst = ptl - wd Wl * x * (s2 - wvx Wl)) by (unfold ptst, x; ring).
    assert (PS2 : ptst = ptr - wd Wr * y * (wvx Wr - s2)) by (rewrite PS1; lra).
    clearbody ptst.
    edestruct (hlld_star_ok c (conserved c Wl Bx) Wl Bx dl (s0 - wvx Wl) (s0 - s2) ptl ptst s2) as (Vl & bl & E1 & U1); [lra|lra| |].
    { destruct (Rlt_dec 0 ptst) as [|NP]; [left; assumption|right]. cbn [conserved ud].
      assert (0 < s2 - wvx Wl).
      { destruct (Rlt_dec 0 (s2 - wvx Wl)); [assumption|]. exfalso. assert (0 <= wd Wl * x * (wvx Wl - s2)) by (apply Rmult_le_pos; lra). lra. }
      assert (0 < wd Wl * x * (s2 - wvx Wl)) by (apply Rmult_lt_0_compat; lra).
      replace (wd Wl * (s0 - wvx Wl) * (s0 - s2)) with (wd Wl * (x * x) + wd Wl * x * (s2 - wvx Wl)) by (unfold x; ring). lra. }
    rewrite E1. cbn [obind].
    destruct (c2p_vel c Vl Bx) as (Wls & -> & _); [lra|]. cbn [obind].
    edestruct (hlld_star_ok c (conserved c Wr Bx) Wr Bx dr (s4 - wvx Wr) (s4 - s2) ptr ptst s2) as (Vr & br & E3 & U3); [lra|lra| |].
    { destruct (Rlt_dec 0 ptst) as [|NP]; [left; assumption|right]. cbn [conserved ud].
      assert (0 < wvx Wr - s2).
      { destruct (Rlt_dec 0 (wvx Wr - s2)); [assumption|]. exfalso. assert (0 <= wd Wr * y * (s2 - wvx Wr)) by (apply Rmult_le_pos; lra). lra. }
      assert (0 < wd Wr * y * (wvx Wr - s2)) by (apply Rmult_lt_0_compat; lra).
      replace (wd Wr * (s4 - wvx Wr) * (s4 - s2)) with (wd Wr * (y * y) + wd Wr * y * (wvx Wr - s2)) by (unfold y; ring). lra. }
    rewrite E3. cbn [obind].
    destruct (c2p_vel c Vr Bx) as (Wrs & -> & _); [lra|]. cbn [obind].
    destruct (Rlt_dec _ _); [discriminate|].
    rewrite (odiv_ok 1) by lra. cbn [obind]. rewrite odiv_ok by lra. discriminate.
Qed.
Print Assumptions C39_hlld.

(** ** Isothermal *)
Lemma near_false a b : a <> 0 -> near a b = false -> a - b <> 0.
Proof.
  intros A H Z. assert (b = a) by lra. subst b. unfold near in H.
  destruct (Req_EM_T a 0); [contradiction|]. replace (a / a - 1) with 0 in H by (field; assumption).
  rewrite Rabs_R0 in H. destruct (Rlt_dec 0 SMALL_NUMBER) as [|Q]; [discriminate|]. apply Q, SMALL_pos.
Qed.

Lemma hlldi_star_ok U W Bx d mx us_ spd s1 s3 : d <> 0 -> spd <> 0 -> hlldi_star U W Bx d mx us_ spd s1 s3 <> None.
Proof.
  intros D S0. unfold hlldi_star. destruct (near spd s1 || near spd s3) eqn:N; [discriminate|].
  apply orb_false_iff in N. destruct N as [N1 N2]. apply near_false in N1; [|exact S0]. apply near_false in N2; [|exact S0].
  assert (T : (spd - s1) * (spd - s3) <> 0) by (apply Rmult_integral_contrapositive; split; assumption).
  assert (T2 : d * ((spd - s1) * (spd - s3)) <> 0) by (apply Rmult_integral_contrapositive; split; assumption).
  rewrite odiv_ok by exact T. cbn [obind]. rewrite odiv_ok by exact T2. discriminate.
Qed.

Theorem C39_hlld_isothermal :
  forall a d_MIN Wl Wr Bx, let c := GCfg true (Isothermal a) in
    0 < a -> admissible c Wl -> admissible c Wr ->
    let F := hlld_iso a d_MIN (conserved c Wl Bx) (conserved c Wr Bx) Wl Wr Bx in
    exists cl cr, fast_speed c Wl Bx cl /\ fast_speed c Wr Bx cr /\
      (cl <= wvx Wl -> cr <= wvx Wr -> F = Some (physical_flux c Wl Bx)) /\
      (wvx Wl <= - cl -> wvx Wr <= - cr -> F = Some (physical_flux c Wr Bx)) /\
      F <> None.
Proof.
  intros a dm Wl Wr Bx c AP (WFl & Dl & _) (WFr & Dr & _) F.
  assert (AA : 0 < a * a) by (apply Rmult_lt_0_compat; lra).
  destruct (hlld_cf_fast c (wd Wl * (a * a)) Wl Bx) as (cl & HL & FL & _);
    [reflexivity|exact Dl|apply Rmult_lt_0_compat; lra|unfold sound2, c; cbn [g_eos]; field; lra|].
  destruct (hlld_cf_fast c (wd Wr * (a * a)) Wr Bx) as (cr & HR & FR & _);
    [reflexivity|exact Dr|apply Rmult_lt_0_compat; lra|unfold sound2, c; cbn [g_eos]; field; lra|].
  exists cl, cr. split; [exact FL|]. split; [exact FR|]. unfold F, hlld_iso. fold c. rewrite HL, HR. cbn [obind].
  destruct FL as (CL & _). destruct FR as (CR & _). clear HL HR. cbv zeta.
  assert (PT : forall W, wd W * (a * a) + half * (Bx * Bx + SQR (wby W) + SQR (wbz W)) = total_pressure c W Bx).
  { intros W. unfold total_pressure, gas_pressure, magnetic_pressure, bnorm, SQR, half, c. cbn [g_eos g_mhd]. field. }
  rewrite !PT.
  assert (HS : forall W, hlld_side c (conserved c W Bx) W (total_pressure c W Bx) Bx = physical_flux c W Bx) by (intros; apply hlld_side_spec).
  rewrite !HS.
  set (s0 := MIN _ _). set (s4 := MAX _ _).
  assert (SP : s0 <= wvx Wl - cl /\ s0 <= wvx Wr - cr /\ (s0 = wvx Wl - cl \/ s0 = wvx Wr - cr) /\
               wvx Wl + cl <= s4 /\ wvx Wr + cr <= s4 /\ (s4 = wvx Wl + cl \/ s4 = wvx Wr + cr)).
  { unfold s0, s4, MIN, MAX. destruct (Rlt_dec _ _), (Rlt_dec _ _); lra. }
  clearbody s0 s4.
  split; [|split].
  - intros V1 V2. destruct (Rle_dec 0 s0); [reflexivity|lra].
  - intros V1 V2. destruct (Rle_dec 0 s0); [lra|]. destruct (Rle_dec s4 0); [reflexivity|lra].
  - destruct (Rle_dec 0 s0); [discriminate|]. destruct (Rle_dec s4 0); [discriminate|].
    destruct SP as (A1 & A2 & _ & B1 & B2 & _).
    rewrite (odiv_ok 1) by lra. cbn [obind].
    set (dh := (s4 * ud (conserved c Wr Bx) - s0 * ud (conserved c Wl Bx) - ud (physical_flux c Wr Bx) + ud (physical_flux c Wl Bx)) * (1 / (s4 - s0))).
    assert (DH : 0 < dh).
    { unfold dh. cbn [conserved physical_flux ud]. apply Rmult_lt_0_compat.
      - assert (0 < wd Wl * (wvx Wl - s0)) by (apply Rmult_lt_0_compat; lra).
        assert (0 < wd Wr * (s4 - wvx Wr)) by (apply Rmult_lt_0_compat; lra). lra.
      - unfold Rdiv. rewrite Rmult_1_l. apply Rinv_0_lt_compat. lra. }
    set (d := if Rlt_dec dh dm then dm else dh). assert (D0 : 0 < d) by (unfold d; destruct (Rlt_dec dh dm); lra).
    clearbody d. rewrite (osqrt_ok d) by lra. cbn [obind]. assert (Q := sqrt_lt_R0 _ D0). set (q := sqrt d) in *.
    rewrite (odiv_ok _ d) by lra. cbn [obind]. rewrite (odiv_ok _ q) by lra. cbn [obind].
    match goal with |- context [hlldi_star ?a1 ?a2 ?a3 ?a4 ?a5 ?a6 ?a7 ?a8 ?a9] =>
      assert (E1 := hlldi_star_ok a1 a2 a3 a4 a5 a6 a7 a8 a9); destruct (hlldi_star a1 a2 a3 a4 a5 a6 a7 a8 a9) as [Vl|] end;
      [|exfalso; apply E1; [lra|lra|reflexivity]].
    cbn [obind].
    match goal with |- context [hlldi_star ?a1 ?a2 ?a3 ?a4 ?a5 ?a6 ?a7 ?a8 ?a9] =>
      assert (E2 := hlldi_star_ok a1 a2 a3 a4 a5 a6 a7 a8 a9); destruct (hlldi_star a1 a2 a3 a4 a5 a6 a7 a8 a9) as [Vr|] end;
      [|exfalso; apply E2; [lra|lra|reflexivity]].
    cbn [obind].
    assert (SG := SIGN_sq Bx).
    assert (X0 : q * SIGN Bx <> 0).
    { apply Rmult_integral_contrapositive. split; [lra|]. intros Z. rewrite Z in SG. lra. }
    rewrite !(odiv_ok _ (q * SIGN Bx)) by exact X0. cbn [obind]. rewrite !(odiv_ok _ d) by lra. discriminate.
Qed.
Print Assumptions C39_hlld_isothermal.
