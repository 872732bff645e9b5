(** * Upwinding (C39) and finiteness (C55): HLLC; supersonic flow in terms of the two states *)
From Coq Require Import Reals List Bool Lra Psatz.
From Verif Require Import GasModel GasSpec ConvProps FluxModel FluxProps FluxProps2 FluxUpwind.
Import ListNotations.
Open Scope R_scope.

(** ** The contact speed lies between the extreme speeds: the inequality *)
Lemma core_norm Q vr cr a S0 : 0 < Q -> 0 < cr -> 0 < a <= 1 -> Q * (cr * cr) <= (1 + Q) * (a * a) ->
  1 + a <= S0 -> vr + cr <= S0 -> S0 = 1 + a \/ S0 = vr + cr ->
  0 < (1 + Q * (1 - vr)) * (1 + Q * (1 - vr)) + Q * Q * (vr * (S0 - vr)) - 4 / 5 * (Q * Q * (cr * cr)).
Proof.
  intros HQ HC [A0 A1] K S1 S2 S3.
  assert (QQ : 0 < Q * Q) by (apply Rmult_lt_0_compat; lra).
  assert (CC : 0 < cr * cr) by (apply Rmult_lt_0_compat; lra).
  assert (AA : a * a <= a) by nra.
  set (d := 1 - vr). assert (Dd : vr = 1 - d) by (unfold d; ring). clearbody d. subst vr.
  assert (SQd : 0 <= (1 + Q * d) * (1 + Q * d)) by apply Rle_0_sqr.
  assert (KQ : Q * Q * (cr * cr) <= (Q + Q * Q) * (a * a)) by nra.
  assert (QP : 0 < 1 + (Q * Q - 4 * Q) / 5) by (assert (Z := Rle_0_sqr (Q - 2)); unfold Rsqr in Z; lra).
  (* the bound that follows from S0 = 1 + a, for d >= 0 *)
  assert (B : 0 <= d -> 0 < (1 + Q * d) * (1 + Q * d) + Q * Q * ((1 - d) * (a + d)) - 4 / 5 * (Q * Q * (cr * cr))).
  { intros D0.
    assert (0 <= Q * Q * (d * (1 - a))) by (apply Rmult_le_pos; [lra|apply Rmult_le_pos; lra]).
    assert (0 <= Q * d) by (apply Rmult_le_pos; lra).
    assert (X : (Q + Q * Q) * (a * a) <= (Q + Q * Q) * a) by (apply Rmult_le_compat_l; lra).
    assert (Y : 0 < 1 + a * ((Q * Q - 4 * Q) / 5)).
    { destruct (Rle_dec 0 (Q * Q - 4 * Q)) as [P|N]; [assert (0 <= a * ((Q * Q - 4 * Q) / 5)) by (apply Rmult_le_pos; lra); lra|].
      assert (0 <= (1 - a) * ((4 * Q - Q * Q) / 5)) by (apply Rmult_le_pos; lra). lra. }
    replace ((1 + Q * d) * (1 + Q * d) + Q * Q * ((1 - d) * (a + d))) with
      (1 + 2 * (Q * d) + Q * Q * (d * (1 - a)) + Q * Q * a) by ring. lra. }
  destruct (Rle_dec cr (1 - d)) as [H1|H1].
  { assert (cr * cr <= (1 - d) * (S0 - (1 - d))) by (apply Rmult_le_compat; lra).
    assert (Q * Q * (cr * cr) <= Q * Q * ((1 - d) * (S0 - (1 - d)))) by (apply Rmult_le_compat_l; lra).
    assert (0 < Q * Q * (cr * cr)) by (apply Rmult_lt_0_compat; lra). lra. }
  destruct (Rle_dec 0 (1 - d)) as [H2|H2].
  - destruct (Rle_dec 0 d) as [H3|H3].
    + specialize (B H3). assert ((1 - d) * (a + d) <= (1 - d) * (S0 - (1 - d))) by (apply Rmult_le_compat; lra).
      assert (Q * Q * ((1 - d) * (a + d)) <= Q * Q * ((1 - d) * (S0 - (1 - d)))) by (apply Rmult_le_compat_l; lra). lra.
    + assert (X : (1 - d) * cr <= (1 - d) * (S0 - (1 - d))) by (apply Rmult_le_compat_l; lra).
      assert (X' : Q * Q * ((1 - d) * cr) <= Q * Q * ((1 - d) * (S0 - (1 - d)))) by (apply Rmult_le_compat_l; lra).
      cut (0 < (1 + Q * d) * (1 + Q * d) + Q * Q * ((1 - d) * cr) - 4 / 5 * (Q * Q * (cr * cr))); [lra|].
      clear X X' B S1 S2 S3 SQd.
      (* complete the square in d *)
      destruct (Rlt_dec (21 / 20 * (Q * cr)) (Q + 1)) as [L|L].
      * replace ((1 + Q * d) * (1 + Q * d) + Q * Q * ((1 - d) * cr) - 4 / 5 * (Q * Q * (cr * cr))) with
          ((1 + Q * d - Q * cr / 2) * (1 + Q * d - Q * cr / 2) + Q * cr * (Q + 1 - 21 / 20 * (Q * cr))) by field.
        assert (0 < Q * cr * (Q + 1 - 21 / 20 * (Q * cr))) by (apply Rmult_lt_0_compat; [apply Rmult_lt_0_compat; lra|lra]).
        assert (Z := Rle_0_sqr (1 + Q * d - Q * cr / 2)). unfold Rsqr in Z. lra.
      * assert (C1 : 1 < cr) by lra. 
        assert (QC : 2 <= Q * cr).
        { (* (Q+1)^2 <= (21/20)^2 Q (1+Q), hence Q+1 <= 441/400 Q *)
          assert (((Q + 1) * 20 / 21) * ((Q + 1) * 20 / 21) <= (Q * cr) * (Q * cr)) by (apply Rmult_le_compat; lra).
          assert (Q * cr * (Q * cr) <= Q * (1 + Q)).
          { replace (Q * cr * (Q * cr)) with (Q * (Q * (cr * cr))) by ring. apply Rmult_le_compat_l; [lra|].
            assert ((1 + Q) * (a * a) <= (1 + Q) * 1) by (apply Rmult_le_compat_l; lra). lra. }
          assert (400 * (Q + 1) <= 441 * Q).
          { apply (Rmult_le_reg_l (Q + 1)); [lra|]. lra. }
          assert (Q * 1 <= Q * cr) by (apply Rmult_le_compat_l; lra). lra. }
        assert (0 <= (- d) * (Q * (Q * cr - 2))) by (apply Rmult_le_pos; [lra|apply Rmult_le_pos; lra]).
        assert (0 <= Q * d * (Q * d)) by apply Rle_0_sqr.
        assert (Q * Q * 1 <= Q * Q * cr) by (apply Rmult_le_compat_l; lra).
        assert ((Q + Q * Q) * (a * a) <= (Q + Q * Q) * 1) by (apply Rmult_le_compat_l; lra).
        replace ((1 + Q * d) * (1 + Q * d) + Q * Q * ((1 - d) * cr)) with
          (1 + Q * Q * cr + - d * (Q * (Q * cr - 2)) + Q * d * (Q * d)) by ring. lra.
  - assert (H3 : 0 <= d) by lra. destruct S3 as [S3|S3].
    + specialize (B H3). rewrite S3. replace ((1 - d) * (1 + a - (1 - d))) with ((1 - d) * (a + d)) by ring. exact B.
    + rewrite S3. replace (1 - d + cr - (1 - d)) with cr by ring.
      (* here cr exceeds 1 + a, which needs a small Q *)
      assert (X : (1 + a) * (1 + a) <= cr * cr) by (apply Rmult_le_compat; lra).
      assert (X2 : Q * ((1 + a) * (1 + a)) <= Q * (cr * cr)) by (apply Rmult_le_compat_l; lra).
      assert (Q3 : Q <= 1 / 3).
      { assert (Q * (1 + 2 * a) <= a * a) by nra. assert (0 < a * a) by (apply Rmult_lt_0_compat; lra).
        assert (3 * a * a <= 1 + 2 * a) by nra. 
        apply (Rmult_le_reg_r (1 + 2 * a)); lra. }
      assert (Y : (d - 1) * cr <= cr * cr) by (apply Rmult_le_compat_r; lra).
      assert (Y2 : Q * Q * ((d - 1) * cr) <= Q * Q * (cr * cr)) by (apply Rmult_le_compat_l; lra).
      assert (Y3 : (Q + Q * Q) * (a * a) <= (Q + Q * Q) * 1) by (apply Rmult_le_compat_l; lra).
      assert (Y4 : Q * Q <= 1 / 3 * (1 / 3)) by (apply Rmult_le_compat; lra).
      assert (Y5 : 1 <= (1 + Q * d) * (1 + Q * d)) by (assert (0 <= Q * d) by (apply Rmult_le_pos; lra); clear - H; nra).
      replace ((1 - d) * cr) with (- ((d - 1) * cr)) by ring.
      replace (Q * Q * - ((d - 1) * cr)) with (- (Q * Q * ((d - 1) * cr))) by ring. lra.
Qed.

Lemma core g l q vl vr vh a cr pl pr S0 :
  5 / 4 <= g -> 0 < l -> 0 < q -> (l + q) * vh = l * vl + q * vr -> 0 < a <= vh -> 0 < cr ->
  q * (cr * cr) <= (l + q) * (a * a) -> vh + a <= S0 -> vr + cr <= S0 -> S0 = vh + a \/ S0 = vr + cr ->
  0 < pl -> pr * g = q * q * (cr * cr) ->
  0 < pl - pr + l * l * (vl * vl) + q * q * ((S0 - vr) * vr).
Proof.
  intros HG HL HQ HV [A0 A1] HC K S1 S2 S3 HP HR.
  assert (IV : 0 < / vh) by (apply Rinv_0_lt_compat; lra). assert (IL : 0 < / l) by (apply Rinv_0_lt_compat; lra).
  assert (N := core_norm (q / l) (vr / vh) (cr / vh) (a / vh) (S0 / vh)).
  assert (X : 0 < (1 + q / l * (1 - vr / vh)) * (1 + q / l * (1 - vr / vh)) + q / l * (q / l) * (vr / vh * (S0 / vh - vr / vh)) -
     4 / 5 * (q / l * (q / l) * (cr / vh * (cr / vh)))).
  { apply N.
    - unfold Rdiv. apply Rmult_lt_0_compat; lra.
    - unfold Rdiv. apply Rmult_lt_0_compat; lra.
    - split; [unfold Rdiv; apply Rmult_lt_0_compat; lra|]. apply (Rmult_le_reg_r vh); [lra|]. unfold Rdiv. rewrite Rmult_assoc, Rinv_l by lra. lra.
    - apply (Rmult_le_reg_r (l * (vh * vh))); [repeat apply Rmult_lt_0_compat; lra|].
      replace (q / l * (cr / vh * (cr / vh)) * (l * (vh * vh))) with (q * (cr * cr)) by (field; lra).
      replace ((1 + q / l) * (a / vh * (a / vh)) * (l * (vh * vh))) with ((l + q) * (a * a)) by (field; lra). exact K.
    - apply (Rmult_le_reg_r vh); [lra|]. replace ((1 + a / vh) * vh) with (vh + a) by (field; lra). replace (S0 / vh * vh) with S0 by (field; lra). exact S1.
    - apply (Rmult_le_reg_r vh); [lra|]. replace ((vr / vh + cr / vh) * vh) with (vr + cr) by (field; lra). replace (S0 / vh * vh) with S0 by (field; lra). exact S2.
    - destruct S3 as [-> | ->]; [left|right]; field; lra. }
  clear N. assert (VV : 0 < l * l * (vh * vh)) by (repeat apply Rmult_lt_0_compat; lra).
  apply (Rmult_lt_compat_r (l * l * (vh * vh))) in X; [|exact VV]. rewrite Rmult_0_l in X.
  assert (VL : vl = ((l + q) * vh - q * vr) / l) by (rewrite HV; field; lra).
  assert (EQ : ((1 + q / l * (1 - vr / vh)) * (1 + q / l * (1 - vr / vh)) +
      q / l * (q / l) * (vr / vh * (S0 / vh - vr / vh)) - 4 / 5 * (q / l * (q / l) * (cr / vh * (cr / vh)))) * (l * l * (vh * vh)) =
      l * l * (vl * vl) + q * q * ((S0 - vr) * vr) - 4 / 5 * (q * q * (cr * cr))).
  { rewrite VL. field. lra. }
  rewrite EQ in X.
  assert (PR : pr <= 4 / 5 * (q * q * (cr * cr))).
  { assert (P0 : 0 <= q * q * (cr * cr)) by (repeat apply Rmult_le_pos; lra).
    rewrite <- HR in P0 |- *.
    assert (0 <= pr). { destruct (Rle_dec 0 pr); [assumption|]. exfalso. assert (0 < (- pr) * g) by (apply Rmult_lt_0_compat; lra). lra. }
    assert (pr * (5 / 4) <= pr * g) by (apply Rmult_le_compat_l; lra). lra. }
  lra.
Qed.

Lemma core_iso l q vl vr vh a S0 :
  0 < l -> 0 < q -> (l + q) * vh = l * vl + q * vr -> 0 < a <= vh ->
  vh + a <= S0 -> vr + a <= S0 -> S0 = vh + a \/ S0 = vr + a ->
  0 < l * l * (a * a) - q * q * (a * a) + l * l * (vl * vl) + q * q * ((S0 - vr) * vr).
Proof.
  intros HL HQ HV [A0 A1] S1 S2 S3.
  assert (LL : 0 < l * l * (a * a)) by (repeat apply Rmult_lt_0_compat; lra).
  assert (QQ : 0 < q * q) by (apply Rmult_lt_0_compat; lra).
  assert (LV : 0 <= l * l * (vl * vl)) by (apply Rmult_le_pos; apply Rle_0_sqr).
  destruct (Rle_dec a vr) as [H|H].
  - assert (a * a <= (S0 - vr) * vr) by (apply Rmult_le_compat; lra).
    assert (q * q * (a * a) <= q * q * ((S0 - vr) * vr)) by (apply Rmult_le_compat_l; lra). lra.
  - assert (S0 = vh + a) by lra. subst S0. 
    set (d := (vh - vr) / l). assert (VR : vr = vh - l * d) by (unfold d; field; lra).
    assert (VL : vl = vh + q * d).
    { apply (Rmult_eq_reg_l l); [|lra]. replace (l * vl) with ((l + q) * vh - q * vr) by lra. rewrite VR. ring. }
    assert (D0 : 0 <= d) by (unfold d, Rdiv; apply Rmult_le_pos; [lra|left; apply Rinv_0_lt_compat; lra]).
    clearbody d. rewrite VL, VR.
    replace (l * l * (a * a) - q * q * (a * a) + l * l * ((vh + q * d) * (vh + q * d)) + q * q * ((vh + a - (vh - l * d)) * (vh - l * d)))
      with (l * l * (a * a) + l * l * (vh * vh) + 2 * (l * l * (q * d) * vh) + a * (q * q) * (vh - a) + q * q * (l * d) * (vh - a)) by ring.
    assert (0 <= l * l * (vh * vh)) by (apply Rmult_le_pos; apply Rle_0_sqr).
    assert (0 <= l * l * (q * d) * vh) by (repeat apply Rmult_le_pos; lra).
    assert (0 <= a * (q * q) * (vh - a)) by (repeat apply Rmult_le_pos; lra).
    assert (0 <= q * q * (l * d) * (vh - a)) by (repeat apply Rmult_le_pos; lra). lra.
Qed.

(** ** Roe averages without a magnetic field *)
Lemma roe_hydro c Wl Wr : g_mhd c = false -> eos_ok c -> admissible c Wl -> admissible c Wr ->
  exists r l q, roe_avg c (conserved c Wl 0) (conserved c Wr 0) Wl Wr 0 = Some r /\
    0 < l /\ 0 < q /\ l * l = wd Wl /\ q * q = wd Wr /\
    (l + q) * r_v1 r = l * wvx Wl + q * wvx Wr /\
    match g_eos c with
    | Isothermal _ => True
    | Adiabatic g =>
        (g - 1) * (r_h r - half * (r_v1 r * r_v1 r + r_v2 r * r_v2 r + r_v3 r * r_v3 r)) * (l + q) =
        l * sound2 c Wl + q * sound2 c Wr +
        (g - 1) / 2 * (l * q / (l + q)) *
        ((wvx Wl - wvx Wr) * (wvx Wl - wvx Wr) + (wvy Wl - wvy Wr) * (wvy Wl - wvy Wr) + (wvz Wl - wvz Wr) * (wvz Wl - wvz Wr))
    end.
Proof.
  intros M E (Fl & Dl & Pl) (Fr & Dr & Pr). unfold roe_avg. rewrite M.
  rewrite (osqrt_ok (wd Wl)) by lra. rewrite (osqrt_ok (wd Wr)) by lra. cbn [obind].
  assert (Al := sqrt_lt_R0 _ Dl). assert (Ar := sqrt_lt_R0 _ Dr).
  assert (Bl := sqrt_sqrt (wd Wl) ltac:(lra)). assert (Br := sqrt_sqrt (wd Wr) ltac:(lra)).
  set (l := sqrt (wd Wl)) in *. set (q := sqrt (wd Wr)) in *.
  rewrite (odiv_ok 1) by lra. cbn [obind]. cbv zeta.
  unfold pmag. rewrite M. unfold eos_ok in E. unfold sound2. destruct (g_eos c) as [g|a] eqn:GE.
  - rewrite !odiv_ok by lra. cbn [obind]. eexists. exists l, q. split; [reflexivity|].
    cbn [r_v1 r_v2 r_v3 r_h]. split; [exact Al|]. split; [exact Ar|]. split; [exact Bl|]. split; [exact Br|].
    split; [field; lra|]. cbn [conserved ue]. unfold total_energy, magnetic_pressure, bnorm, kinetic_energy, half. rewrite GE, M.
    destruct Fl as [Fl _]. destruct Fr as [Fr _]. destruct (Fl M) as [-> ->]. destruct (Fr M) as [-> ->].
    rewrite <- Bl, <- Br. clearbody l q. field. lra.
  - cbn [obind]. eexists. exists l, q. split; [reflexivity|]. cbn [r_v1]. repeat split; try assumption. field. lra.
Qed.

Definition hllc_gamma (c : gcfg) : Prop :=
  match g_eos c with Adiabatic g => 5 / 4 <= g | Isothermal _ => True end.

Lemma hllc_cs_ok c W : eos_ok c -> admissible c W -> exists s, hllc_cs c W = Some s /\ 0 < s /\ s * s = sound2 c W.
Proof.
  intros E (F & D & P). unfold hllc_cs, eos_ok, sound2 in *. destruct (g_eos c) as [g|a].
  - rewrite odiv_ok by lra. cbn [obind].
    assert (0 < g * wp W / wd W).
    { unfold Rdiv. apply Rmult_lt_0_compat; [apply Rmult_lt_0_compat; lra|apply Rinv_0_lt_compat, D]. }
    rewrite osqrt_ok by lra. eexists. split; [reflexivity|]. split; [apply sqrt_lt_R0; assumption|apply sqrt_sqrt; lra].
  - exists a. auto.
Qed.

(** The eigenvalues of the Roe matrix without a magnetic field. *)
Lemma eig_hydro c Wl Wr : g_mhd c = false -> eos_ok c -> admissible c Wl -> admissible c Wr ->
  exists r ev l q vh a, roe_avg c (conserved c Wl 0) (conserved c Wr 0) Wl Wr 0 = Some r /\ eigenvalues c 0 r = Some ev /\
    hd 0 ev = vh - a /\ last ev 0 = vh + a /\ Forall (fun s => vh - a <= s <= vh + a) ev /\
    0 < a /\ 0 < l /\ 0 < q /\ l * l = wd Wl /\ q * q = wd Wr /\
    (l + q) * vh = l * wvx Wl + q * wvx Wr /\
    l * sound2 c Wl + q * sound2 c Wr <= (l + q) * (a * a) /\
    match g_eos c with
    | Isothermal b => a = b
    | Adiabatic g =>
        a * a = (g - 1) * TINY_NUMBER \/
        (l + q) * (a * a) =  l * sound2 c Wl + q * sound2 c Wr +
        (g - 1) / 2 * (l * q / (l + q)) *
        ((wvx Wl - wvx Wr) * (wvx Wl - wvx Wr) + (wvy Wl - wvy Wr) * (wvy Wl - wvy Wr) + (wvz Wl - wvz Wr) * (wvz Wl - wvz Wr))
    end.
Proof.
  intros M E A1 A2. destruct (roe_hydro c Wl Wr M E A1 A2) as (r & l & q & H & L0 & Q0 & LL & QQ & HV & HH).
  unfold eigenvalues. rewrite M. unfold eos_ok in E.
  destruct (g_eos c) as [g|b] eqn:GE.
  - set (k := r_h r - half * (r_v1 r * r_v1 r + r_v2 r * r_v2 r + r_v3 r * r_v3 r)) in *.
    assert (T := TINY_pos). assert (LT : k <= MAX k TINY_NUMBER /\ TINY_NUMBER <= MAX k TINY_NUMBER) by (unfold MAX; destruct (Rlt_dec _ _); lra).
    assert (EA : adb_asq c r = (g - 1) * MAX k TINY_NUMBER) by (unfold adb_asq, gam1; rewrite GE; reflexivity).
    assert (AP : 0 < adb_asq c r) by (rewrite EA; apply Rmult_lt_0_compat; lra).
    assert (SP := sqrt_lt_R0 _ AP). assert (SS := sqrt_sqrt (adb_asq c r) ltac:(lra)).
    exists r. eexists. exists l, q, (r_v1 r), (sqrt (adb_asq c r)). split; [exact H|].
    rewrite osqrt_ok by lra. cbn [obind]. split; [reflexivity|]. cbn [hd last].
    split; [reflexivity|]. split; [reflexivity|]. split; [repeat constructor; lra|].
    split; [exact SP|]. split; [exact L0|]. split; [exact Q0|]. split; [exact LL|]. split; [exact QQ|]. split; [exact HV|].
    rewrite SS, EA. set (vv := (wvx Wl - wvx Wr) * (wvx Wl - wvx Wr) + (wvy Wl - wvy Wr) * (wvy Wl - wvy Wr) + (wvz Wl - wvz Wr) * (wvz Wl - wvz Wr)) in *.
    assert (V2 : 0 <= vv). { unfold vv. repeat apply Rplus_le_le_0_compat; apply Rle_0_sqr. }
    assert (X : 0 <= (g - 1) / 2 * (l * q / (l + q)) * vv).
    { apply Rmult_le_pos; [|exact V2]. apply Rmult_le_pos; [lra|]. unfold Rdiv. apply Rmult_le_pos; [apply Rmult_le_pos; lra|]. left. apply Rinv_0_lt_compat. lra. }
    assert (Y : (g - 1) * k * (l + q) <= (l + q) * ((g - 1) * MAX k TINY_NUMBER)).
    { replace ((g - 1) * k * (l + q)) with ((l + q) * ((g - 1) * k)) by ring. apply Rmult_le_compat_l; [lra|]. apply Rmult_le_compat_l; lra. }
    split; [lra|]. destruct (Rlt_dec TINY_NUMBER k) as [B|B].
    + right. rewrite MAX_l by lra. lra.
    + left. rewrite MAX_r by lra. reflexivity.
  - exists r. eexists. exists l, q, (r_v1 r), b. split; [exact H|]. split; [reflexivity|]. cbn [hd last].
    split; [reflexivity|]. split; [reflexivity|]. split; [repeat constructor; lra|].
    split; [exact E|]. repeat split; try assumption. unfold sound2. rewrite GE. lra.
Qed.

(** ** HLLC *)
Lemma hllc_speeds_ok c Wl Wr : g_mhd c = false -> eos_ok c -> hllc_gamma c -> admissible c Wl -> admissible c Wr ->
  exists al ar am cp cl cr, hllc_speeds c (conserved c Wl 0) (conserved c Wr 0) Wl Wr = Some (al, ar, am, cp) /\
    0 < cl /\ cl * cl = sound2 c Wl /\ 0 < cr /\ cr * cr = sound2 c Wr /\
    al <= wvx Wl - cl /\ wvx Wr + cr <= ar /\ al < am < ar.
Proof.
  intros M E HG A1 A2. unfold hllc_speeds.
  destruct (eig_hydro c Wl Wr M E A1 A2) as (r & ev & l & q & vh & a & -> & H & H1 & H2 & _ & AP & L0 & Q0 & LL & QQ & HV & K & HA).
  cbn [obind]. rewrite H. cbn [obind].
  destruct (hllc_cs_ok c Wl E A1) as (cl & -> & C1 & C2). destruct (hllc_cs_ok c Wr E A2) as (cr & -> & C3 & C4). cbn [obind].
  rewrite H1, H2. set (ar := MAX _ _). set (al := MIN _ _). cbv zeta. cbn [conserved ud umx].
  assert (HR : vh + a <= ar /\ wvx Wr + cr <= ar /\ (ar = vh + a \/ ar = wvx Wr + cr)) by (unfold ar, MAX; destruct (Rlt_dec _ _); lra).
  assert (HL : al <= vh - a /\ al <= wvx Wl - cl /\ (al = vh - a \/ al = wvx Wl - cl)) by (unfold al, MIN; destruct (Rlt_dec _ _); lra).
  clearbody ar al. destruct HR as (R1 & R2 & R3). destruct HL as (L1 & L2 & L3).
  destruct A1 as (_ & Dl & Pl). destruct A2 as (_ & Dr & Pr).
  assert (M1 : 0 < wd Wl * (wvx Wl - al)) by (apply Rmult_lt_0_compat; lra).
  assert (M2 : 0 < wd Wr * (ar - wvx Wr)) by (apply Rmult_lt_0_compat; lra).
  set (m := wd Wl * wvx Wl - wd Wl * al + - (wd Wr * wvx Wr - wd Wr * ar)).
  assert (MM : m = wd Wl * (wvx Wl - al) + wd Wr * (ar - wvx Wr)) by (unfold m; ring).
  rewrite odiv_ok by lra. cbn [obind]. do 6 eexists. split; [reflexivity|].
  split; [exact C1|]. split; [exact C2|]. split; [exact C3|]. split; [exact C4|]. split; [exact L2|]. split; [exact R2|].
  assert (IM : 0 < / m) by (apply Rinv_0_lt_compat; lra).
  (* the two inequalities *)
  assert (P1 : 0 < pgas c Wl - pgas c Wr + wd Wl * ((wvx Wl - al) * (wvx Wl - al)) + wd Wr * ((ar - wvx Wr) * (wvx Wr - al)) /\
               0 < pgas c Wr - pgas c Wl + wd Wr * ((ar - wvx Wr) * (ar - wvx Wr)) + wd Wl * ((wvx Wl - al) * (ar - wvx Wl))).
  { rewrite <- LL, <- QQ.
    assert (HV1 : (l + q) * (vh - al) = l * (wvx Wl - al) + q * (wvx Wr - al)) by lra.
    assert (HV2 : (q + l) * (ar - vh) = q * (ar - wvx Wr) + l * (ar - wvx Wl)) by lra.
    unfold pgas, hllc_gamma, eos_ok, sound2 in *. destruct (g_eos c) as [g|b].
    - assert (KR : q * (cr * cr) <= (l + q) * (a * a)).
      { assert (0 <= l * (cl * cl)) by (apply Rmult_le_pos; [lra|apply Rle_0_sqr]). rewrite <- C2, <- C4 in K. lra. }
      assert (KL : l * (cl * cl) <= (q + l) * (a * a)).
      { assert (0 <= q * (cr * cr)) by (apply Rmult_le_pos; [lra|apply Rle_0_sqr]). rewrite <- C2, <- C4 in K. lra. }
      assert (PR : wp Wr * g = q * q * (cr * cr)) by (rewrite QQ, C4; field; lra).
      assert (PL : wp Wl * g = l * l * (cl * cl)) by (rewrite LL, C2; field; lra).
      split.
      + assert (Z := core g l q (wvx Wl - al) (wvx Wr - al) (vh - al) a cr (wp Wl) (wp Wr) (ar - al) HG L0 Q0 HV1 ltac:(lra) C3 KR ltac:(lra) ltac:(lra) ltac:(lra) Pl PR).
        replace (ar - al - (wvx Wr - al)) with (ar - wvx Wr) in Z by ring. exact Z.
      + assert (Z := core g q l (ar - wvx Wr) (ar - wvx Wl) (ar - vh) a cl (wp Wr) (wp Wl) (ar - al) HG Q0 L0 HV2 ltac:(lra) C1 KL ltac:(lra) ltac:(lra) ltac:(lra) Pr PL).
        replace (ar - al - (ar - wvx Wl)) with (wvx Wl - al) in Z by ring. exact Z.
    - assert (CL : cl = a) by (subst b; nra). assert (CR : cr = a) by (subst b; nra). rewrite CL in *. rewrite CR in *. rewrite <- HA.
      split.
      + assert (Z := core_iso l q (wvx Wl - al) (wvx Wr - al) (vh - al) a (ar - al) L0 Q0 HV1 ltac:(lra) ltac:(lra) ltac:(lra) ltac:(lra)).
        replace (ar - al - (wvx Wr - al)) with (ar - wvx Wr) in Z by ring. rewrite ?LL, ?QQ in *. exact Z.
      + assert (Z := core_iso q l (ar - wvx Wr) (ar - wvx Wl) (ar - vh) a (ar - al) Q0 L0 HV2 ltac:(lra) ltac:(lra) ltac:(lra) ltac:(lra)).
        replace (ar - al - (ar - wvx Wl)) with (wvx Wl - al) in Z by ring. rewrite ?LL, ?QQ in *. exact Z. }
  destruct P1 as [P1 P2].
  split.
  - apply (Rmult_lt_reg_r m); [lra|].
    replace ((pgas c Wl + (wvx Wl - al) * (wd Wl * wvx Wl) - (pgas c Wr + (wvx Wr - ar) * (wd Wr * wvx Wr))) * (1 / m) * m)
      with (pgas c Wl + (wvx Wl - al) * (wd Wl * wvx Wl) - (pgas c Wr + (wvx Wr - ar) * (wd Wr * wvx Wr))) by (field; lra).
    rewrite MM. lra.
  - apply (Rmult_lt_reg_r m); [lra|].
    replace ((pgas c Wl + (wvx Wl - al) * (wd Wl * wvx Wl) - (pgas c Wr + (wvx Wr - ar) * (wd Wr * wvx Wr))) * (1 / m) * m)
      with (pgas c Wl + (wvx Wl - al) * (wd Wl * wvx Wl) - (pgas c Wr + (wvx Wr - ar) * (wd Wr * wvx Wr))) by (field; lra).
    rewrite MM. lra.
Qed.

Theorem C39_hllc :
  forall c Wl Wr, g_mhd c = false -> eos_ok c -> hllc_gamma c -> admissible c Wl -> admissible c Wr ->
    let F := hllc c (conserved c Wl 0) (conserved c Wr 0) Wl Wr in
    exists al ar am cp cl cr,
      hllc_speeds c (conserved c Wl 0) (conserved c Wr 0) Wl Wr = Some (al, ar, am, cp) /\
      0 < cl /\ cl * cl = sound2 c Wl /\ 0 < cr /\ cr * cr = sound2 c Wr /\
      al <= wvx Wl - cl /\ wvx Wr + cr <= ar /\
      (* the contact lies between the two extreme waves *)
      al < am < ar /\
      (0 <= al -> F = Some (physical_flux c Wl 0)) /\
      (ar <= 0 -> F = Some (physical_flux c Wr 0)) /\
      F <> None.
Proof.
  intros c Wl Wr M E HG A1 A2 F.
  destruct (hllc_speeds_ok c Wl Wr M E HG A1 A2) as (al & ar & am & cp & cl & cr & H & C1 & C2 & C3 & C4 & L & R0 & AM).
  exists al, ar, am, cp, cl, cr. do 8 (split; [assumption|]). unfold F, hllc. rewrite H. cbn [obind].
  rewrite !flux_line_spec by (apply A1 || apply A2).
  assert (ML : forall W, total_energy c W 0 = match g_eos c with Isothermal _ => 0 | _ => total_energy c W 0 end)
    by (intros W; unfold total_energy; destruct (g_eos c); reflexivity).
  destruct A1 as (_ & Dl & _). destruct A2 as (_ & Dr & _).
  split; [|split].
  - intros Z. destruct (Rlt_dec al 0); [lra|]. destruct (Rle_dec 0 am); [|lra]. rewrite !odiv_ok by lra. cbn [obind].
    f_equal. apply upwind_l; [|left; apply Rmult_lt_0_compat; lra]. unfold same7, zip2, along. cbn [ud umx umy umz ue uby ubz].
    set (P := physical_flux c Wl 0). set (Q := physical_flux c Wr 0). clearbody P Q.
    repeat split; try (field; lra). destruct (g_eos c); field; lra.
  - intros Z. destruct (Rlt_dec 0 ar); [lra|]. destruct (Rle_dec 0 am); [lra|]. rewrite !odiv_ok by lra. cbn [obind].
    f_equal. apply upwind_r; [|]. 2:{ assert (0 < wd Wr * - wvx Wr) by (apply Rmult_lt_0_compat; lra). lra. }
    unfold same7, zip2, along. cbn [ud umx umy umz ue uby ubz].
    set (P := physical_flux c Wl 0). set (Q := physical_flux c Wr 0). clearbody P Q.
    repeat split; try (field; lra). destruct (g_eos c); field; lra.
  - destruct (Rlt_dec 0 ar), (Rlt_dec al 0), (Rle_dec 0 am); rewrite !odiv_ok by lra; discriminate.
Qed.
Print Assumptions C39_hllc.
