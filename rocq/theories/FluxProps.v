(** * Riemann solvers: consistency (C38) and upwinding (C39) *)
From Coq Require Import Reals List Bool Lra Psatz.
From Verif Require Import GasModel GasSpec ConvProps FluxModel.
Import ListNotations.
Open Scope R_scope.

Lemma SQR_pos x : 0 <= SQR x.
Proof. apply Rle_0_sqr. Qed.

(** ** Fluxes of one side *)

(** F - b U, member by member; the scalars advected with the mass flux. *)
Definition along (F U : cons1) (b : R) (W : prim1) : cons1 :=
  Cons1 (ud F - b * ud U) (umx F - b * umx U) (umy F - b * umy U) (umz F - b * umz U)
        (ue F - b * ue U) (uby F - b * uby U) (ubz F - b * ubz U)
        (map (fun r => (ud F - b * ud U) * r) (wr W)).

Lemma flux_line_spec c W Bx b : wf_prim c W ->
  flux_line c (conserved c W Bx) W Bx b = along (physical_flux c W Bx) (conserved c W Bx) b W.
Proof.
  intros [F1 F2]. unfold flux_line, along, physical_flux, conserved.
  assert (TE : match g_eos c with Adiabatic _ => True | Isothermal _ => total_energy c W Bx = 0 end).
  { unfold total_energy. destruct (g_eos c); auto. }
  set (T := total_energy c W Bx) in *.
  unfold total_pressure, gas_pressure, magnetic_pressure, v_dot_b, bnorm, pmag, SQR, half.
  cbn [ud umx umy umz ue uby ubz us].
  destruct (g_mhd c); [|destruct F1 as [-> ->]; [reflexivity|]]; destruct (g_eos c) as [g|a]; rewrite ?TE; f_equal; try field;
    apply map_ext; intros; ring.
Qed.
Lemma flux_side_spec c W Bx : wf_prim c W ->
  flux_side c (conserved c W Bx) W Bx = physical_flux c W Bx.
Proof.
  intros [F1 F2]. unfold flux_side, physical_flux, conserved.
  assert (TE : match g_eos c with Adiabatic _ => True | Isothermal _ => total_energy c W Bx = 0 end).
  { unfold total_energy. destruct (g_eos c); auto. }
  set (T := total_energy c W Bx) in *.
  unfold total_pressure, gas_pressure, magnetic_pressure, v_dot_b, bnorm, pmag, SQR, half.
  cbn [ud umx umy umz ue uby ubz us].
  destruct (g_mhd c); [|destruct F1 as [-> ->]; [reflexivity|]]; destruct (g_eos c) as [g|a]; rewrite ?TE; f_equal; try field;
    apply map_ext; intros; ring.
Qed.
Lemma hlld_side_spec e W Bx : 
  hlld_side (GCfg true e) (conserved (GCfg true e) W Bx) W (total_pressure (GCfg true e) W Bx) Bx
  = physical_flux (GCfg true e) W Bx.
Proof.
  unfold hlld_side, physical_flux, conserved, v_dot_b, bnorm.
  cbn [ud umx umy umz ue uby ubz us g_mhd g_eos].
  destruct e as [g|a]; f_equal; try ring.
Qed.

Lemma zero_along F U W : map (fun r => ud F * r) (wr W) = us F -> along F U 0 W = F.
Proof.
  intros H. unfold along. destruct F as [d mx my mz e by_ bz s]. cbn [ud umx umy umz ue uby ubz us] in *.
  f_equal; try ring. rewrite <- H. apply map_ext. intros; ring.
Qed.
Lemma phys_scalars c W Bx : map (fun r => ud (physical_flux c W Bx) * r) (wr W) = us (physical_flux c W Bx).
Proof. cbn [physical_flux ud us]. reflexivity. Qed.
Lemma with_scalars_same F W : map (fun r => ud F * r) (wr W) = us F -> with_scalars F W W = F.
Proof.
  intros H. unfold with_scalars. destruct F as [d mx my mz e by_ bz s]. cbn [ud umx umy umz ue uby ubz us] in *.
  f_equal. rewrite <- H. destruct (Rle_dec 0 d); reflexivity.
Qed.

(** Two states with the same first seven members. *)
Definition same7 (F G : cons1) : Prop :=
  ud F = ud G /\ umx F = umx G /\ umy F = umy G /\ umz F = umz G /\ ue F = ue G /\ uby F = uby G /\ ubz F = ubz G.
Lemma scalars_phys F c W Bx : same7 F (physical_flux c W Bx) -> with_scalars F W W = physical_flux c W Bx.
Proof.
  intros (H1 & H2 & H3 & H4 & H5 & H6 & H7). unfold with_scalars. rewrite H1, H2, H3, H4, H5, H6, H7.
  apply with_scalars_same, phys_scalars.
Qed.

(** ** Wave speeds *)
Lemma side_speed_spec c W Bx : admissible c W ->
  side_speed c (conserved c W Bx) W Bx = 
  fast (sound2 c W) (alfven2 c W Bx - alfven_x2 c W Bx) (alfven_x2 c W Bx).
Proof.
  intros (F & D & P). unfold side_speed.
  assert (S0 : match g_eos c with Isothermal a => Some (a * a) | Adiabatic g => odiv (g * wp W) (wd W) end
             = Some (sound2 c W)).
  { unfold sound2. destruct (g_eos c); [apply odiv_ok; lra|reflexivity]. }
  rewrite S0. cbn [obind conserved uby ubz].
  assert (V : (if g_mhd c then odiv (Bx * Bx) (wd W) else Some 0) = Some (alfven_x2 c W Bx)).
  { unfold alfven_x2, bnorm. destruct (g_mhd c); [apply odiv_ok; lra|]. f_equal. field. lra. }
  assert (T : (if g_mhd c then odiv (wby W * wby W + wbz W * wbz W) (wd W) else Some 0)
              = Some (alfven2 c W Bx - alfven_x2 c W Bx)).
  { destruct F as [F _]. unfold alfven2, alfven_x2, bnorm.
    destruct (g_mhd c); [rewrite odiv_ok by lra; f_equal; field; lra|].
    destruct F as [-> ->]; [reflexivity|]. f_equal. field. lra. }
  rewrite V, T. cbn [obind]. unfold fast. cbv zeta.
  replace (alfven_x2 c W Bx + (alfven2 c W Bx - alfven_x2 c W Bx) + sound2 c W)
    with (sound2 c W + (alfven2 c W Bx - alfven_x2 c W Bx) + alfven_x2 c W Bx) by ring. reflexivity.
Qed.
Lemma side_speed_ok c W Bx : eos_ok c -> admissible c W ->
  exists s, side_speed c (conserved c W Bx) W Bx = Some s /\ 0 < s.
Proof.
  intros E A. destruct (C36_fast_speed c W Bx E A) as (s & H1 & H2 & _).
  exists s. split; [|exact H2]. rewrite side_speed_spec by exact A.
  rewrite <- cfast_prim_fast by assumption. exact H1.
Qed.

(** What the eigenvalue routines need to avoid square roots of negative numbers. *)
Definition roe_ok (c : gcfg) (r : roe) : Prop :=
  g_mhd c = true ->
  0 < r_d r /\
  match g_eos c with Isothermal _ => 0 < r_y r /\ 0 <= r_x r | Adiabatic g => 0 < (g - 1) - (g - 2) * r_y r end.

Lemma mhd_speeds_ok c b1 r : eos_ok c -> g_mhd c = true -> roe_ok c r ->
  exists s, mhd_speeds c b1 r = Some s /\
    0 < s_asq s /\ 0 < s_cf s /\ s_cf s * s_cf s = s_cfsq s /\ 0 <= s_cs s /\ s_cs s * s_cs s = s_cssq s /\
    0 <= s_vaxsq s /\ 0 <= s_vax s /\ s_vax s * s_vax s = s_vaxsq s /\
    s_vaxsq s = b1 * b1 / r_d r /\
    s_btstarsq s = (match g_eos c with Isothermal _ => r_y r | Adiabatic g => (g - 1) - (g - 2) * r_y r end)
                   * (r_b2 r * r_b2 r + r_b3 r * r_b3 r) /\
    s_asq s <= s_cfsq s /\ s_vaxsq s <= s_cfsq s /\ s_cssq s <= s_asq s /\ s_cssq s <= s_vaxsq s /\
    s_cfsq s + s_cssq s = s_asq s + s_vaxsq s + s_btstarsq s / r_d r /\
    s_cfsq s * s_cssq s = s_asq s * s_vaxsq s /\
    s_hp s = r_h r - (s_vaxsq s + (r_b2 r * r_b2 r + r_b3 r * r_b3 r) / r_d r) /\
    s_asq s = match g_eos c with Isothermal a => a * a + r_x r
              | Adiabatic g => MAX ((g - 1) * (s_hp s - half * (r_v1 r * r_v1 r + r_v2 r * r_v2 r + r_v3 r * r_v3 r))
                                    - (g - 2) * r_x r) TINY_NUMBER end.
Proof.
  intros E M K. destruct (K M) as [D Y]. unfold mhd_speeds. rewrite odiv_ok by lra. cbn [obind].
  cbv zeta. unfold gam1, gam2, eos_ok in *.
  set (bt := r_b2 r * r_b2 r + r_b3 r * r_b3 r).
  assert (BT : 0 <= bt) by (unfold bt; nra).
  set (y := match g_eos c with Isothermal _ => r_y r | Adiabatic g => (g - 1) - (g - 2) * r_y r end).
  assert (Yp : 0 <= y) by (unfold y; destruct (g_eos c); lra).
  set (bs := match g_eos c with Isothermal _ => bt * r_y r | Adiabatic _ =>
         (match g_eos c with Adiabatic g => g - 1 | Isothermal _ => 0 end
          - match g_eos c with Adiabatic g => g - 2 | Isothermal _ => 0 end * r_y r) * bt end).
  assert (BS : bs = y * bt) by (unfold bs, y; destruct (g_eos c); ring).
  set (vx := b1 * b1 * (1 / r_d r)).
  assert (I := Rinv_0_lt_compat _ D).
  assert (VX : vx = b1 * b1 / r_d r) by (unfold vx; field; lra).
  assert (VP : 0 <= vx) by (rewrite VX; unfold Rdiv; assert (0 <= b1 * b1) by nra; apply Rmult_le_pos; lra).
  set (hp := r_h r - (vx + bt * (1 / r_d r))).
  match goal with |- context [osqrt ((_ - ?q) * _ + _)] => set (a := q) end.
  assert (AP : 0 < a).
  { unfold a. destruct (g_eos c) as [g|s]; [|nra]. assert (T := TINY_pos).
    unfold MAX. destruct (Rlt_dec _ _); lra. }
  set (ct := bs * (1 / r_d r)).
  assert (CT : ct = bs / r_d r) by (unfold ct; field; lra).
  assert (CP : 0 <= ct).
  { rewrite CT, BS. unfold Rdiv. apply Rmult_le_pos; [apply Rmult_le_pos; assumption|lra]. }
  assert (AC : 0 <= a * ct) by (apply Rmult_le_pos; lra).
  assert (AV : 0 <= a * vx) by (apply Rmult_le_pos; lra).
  set (q := (vx + ct - a) * (vx + ct - a) + 4 * a * ct).
  assert (Q : 0 <= q) by (unfold q; assert (Z := Rle_0_sqr (vx + ct - a)); unfold Rsqr in Z; lra).
  rewrite osqrt_ok by exact Q. cbn [obind].
  assert (RP := sqrt_pos q). assert (RR := sqrt_sqrt q Q). set (w := sqrt q) in *.
  assert (W1 : Rabs (vx + ct - a) <= w).
  { apply Rsqr_incr_0; try assumption; [|apply Rabs_pos]. rewrite <- Rsqr_abs. unfold Rsqr. rewrite RR. unfold q. lra. }
  assert (W2 := Rle_abs (vx + ct - a)). assert (W3 := Rle_abs (- (vx + ct - a))). rewrite Rabs_Ropp in W3.
  set (cf2 := half * (vx + ct + a + w)).
  assert (CF : a <= cf2 /\ vx + ct <= cf2) by (unfold cf2, half; lra).
  assert (N : 0 <= cf2) by lra.
  rewrite (osqrt_ok cf2) by exact N. cbn [obind].
  rewrite (odiv_ok _ cf2) by lra. cbn [obind].
  assert (CS : 0 <= a * vx / cf2) by (unfold Rdiv; apply Rmult_le_pos; [lra|]; left; apply Rinv_0_lt_compat; lra).
  rewrite (osqrt_ok (a * vx / cf2)) by exact CS. rewrite (osqrt_ok vx) by exact VP. cbn [obind].
  eexists. split; [reflexivity|]. cbn [s_asq s_cfsq s_cf s_cssq s_cs s_vaxsq s_vax s_btstarsq s_hp].
  assert (QE : w * w = (vx + ct + a) * (vx + ct + a) - 4 * a * vx) by (rewrite RR; unfold q; ring).
  assert (P1 : cf2 * (half * (vx + ct + a - w)) = a * vx).
  { unfold cf2, half. replace (1/2 * (vx + ct + a + w) * (1/2 * (vx + ct + a - w))) with
      ((( vx + ct + a) * (vx + ct + a) - w * w) / 4) by field. rewrite QE. field. }
  assert (CSE : a * vx / cf2 = half * (vx + ct + a - w)).
  { rewrite <- P1. field. lra. }
  split; [exact AP|]. split; [apply sqrt_lt_R0; lra|]. split; [apply sqrt_sqrt, N|]. split; [apply sqrt_pos|].
  split; [apply sqrt_sqrt, CS|]. split; [exact VP|]. split; [apply sqrt_pos|]. split; [apply sqrt_sqrt, VP|].
  split; [exact VX|]. split; [exact BS|]. split; [lra|]. split; [lra|].
  split. { apply (Rmult_le_reg_r cf2); [lra|]. unfold Rdiv. rewrite Rmult_assoc, Rinv_l, Rmult_1_r by lra.
           apply Rmult_le_compat_l; lra. }
  split. { apply (Rmult_le_reg_r cf2); [lra|]. unfold Rdiv. rewrite Rmult_assoc, Rinv_l, Rmult_1_r by lra.
           rewrite Rmult_comm. apply Rmult_le_compat_l; lra. }
  split. { rewrite CSE, <- CT. unfold cf2, half. field. }
  split. { field. lra. }
  split. { unfold hp. field. lra. }
  unfold a. destruct (g_eos c); reflexivity.
Qed.

Lemma eigenvalues_ok c b1 r : eos_ok c -> roe_ok c r ->
  exists ev cf, eigenvalues c b1 r = Some ev /\ 0 < cf /\
    hd 0 ev = r_v1 r - cf /\ last ev 0 = r_v1 r + cf.
Proof.
  intros E K. unfold eigenvalues. destruct (g_mhd c) eqn:M.
  - destruct (mhd_speeds_ok c b1 r E M K) as (s & S0 & _ & S1 & _). rewrite S0. cbn [obind].
    do 2 eexists. split; [reflexivity|]. split; [exact S1|]. destruct (g_eos c); split; reflexivity.
  - unfold eos_ok in E. destruct (g_eos c) as [g|a] eqn:G.
    + assert (AP : 0 < adb_asq c r).
      { unfold adb_asq, gam1. rewrite G. assert (T := TINY_pos). apply Rmult_lt_0_compat; [lra|].
        unfold MAX. destruct (Rlt_dec _ _); lra. }
      rewrite osqrt_ok by lra. cbn [obind]. do 2 eexists. split; [reflexivity|].
      split; [apply sqrt_lt_R0, AP|]. split; reflexivity.
    + do 2 eexists. split; [reflexivity|]. split; [exact E|]. split; reflexivity.
Qed.

(** ** The Roe averages of two states *)

Lemma roe_avg_ok c Wl Wr Bx : admissible c Wl -> admissible c Wr ->
  exists r, roe_avg c (conserved c Wl Bx) (conserved c Wr Bx) Wl Wr Bx = Some r /\
    0 < r_d r /\ (g_mhd c = true -> 0 <= r_x r /\ 1 <= r_y r).
Proof.
  intros (Fl & Dl & Pl) (Fr & Dr & Pr). unfold roe_avg.
  rewrite (osqrt_ok (wd Wl)) by lra. rewrite (osqrt_ok (wd Wr)) by lra. cbn [obind].
  assert (Al := sqrt_lt_R0 _ Dl). assert (Ar := sqrt_lt_R0 _ Dr).
  assert (Bl := sqrt_sqrt (wd Wl) ltac:(lra)). assert (Br := sqrt_sqrt (wd Wr) ltac:(lra)).
  set (l := sqrt (wd Wl)) in *. set (q := sqrt (wd Wr)) in *.
  rewrite (odiv_ok 1) by lra. cbn [obind]. cbv zeta.
  assert (LQ : 0 < l * q) by (apply Rmult_lt_0_compat; lra).
  assert (SQ : 0 < SQR (l + q)) by (unfold SQR; apply Rmult_lt_0_compat; lra).
  set (X := if g_mhd c then _ else _).
  assert (HX : exists x, X = Some x /\ (g_mhd c = true -> 0 <= x)).
  { unfold X. destruct (g_mhd c).
    - rewrite odiv_ok by lra. eexists. split; [reflexivity|]. intros _.
      unfold Rdiv. apply Rmult_le_pos; [assert (Z1 := SQR_pos (wby Wl - wby Wr)); assert (Z2 := SQR_pos (wbz Wl - wbz Wr)); unfold half; lra|]. left. apply Rinv_0_lt_compat, SQ.
    - eexists. split; [reflexivity|discriminate]. }
  destruct HX as (x & -> & HX). cbn [obind].
  set (Y := if g_mhd c then _ else _).
  assert (HY : exists y, Y = Some y /\ (g_mhd c = true -> 1 <= y)).
  { unfold Y. destruct (g_mhd c).
    - rewrite odiv_ok by lra. eexists. split; [reflexivity|]. intros _.
      apply (Rmult_le_reg_r (l * q)); [exact LQ|]. unfold Rdiv. rewrite Rmult_assoc, Rinv_l, Rmult_1_r by lra.
      rewrite <- Bl, <- Br. unfold half. assert (Z := Rle_0_sqr (l - q)). unfold Rsqr in Z. nra.
    - eexists. split; [reflexivity|discriminate]. }
  destruct HY as (y & -> & HY). cbn [obind].
  destruct (g_eos c) as [g|a].
  - rewrite !odiv_ok by lra. cbn [obind]. eexists. split; [reflexivity|]. cbn [r_d r_x r_y]. auto.
  - cbn [obind]. eexists. split; [reflexivity|]. cbn [r_d r_x r_y]. auto.
Qed.

(** The averages of two equal states are the state itself. *)
Lemma roe_avg_same c W Bx : admissible c W ->
  roe_avg c (conserved c W Bx) (conserved c W Bx) W W Bx =
  Some (Roe (wd W) (wvx W) (wvy W) (wvz W)
            (match g_eos c with Adiabatic _ => (total_energy c W Bx + total_pressure c W Bx) / wd W | Isothermal _ => 0 end)
            (wby W) (wbz W) 0 (if g_mhd c then 1 else 0)).
Proof.
  intros (F & D & P). unfold roe_avg. rewrite (osqrt_ok (wd W)) by lra. cbn [obind].
  assert (A := sqrt_lt_R0 _ D). assert (B := sqrt_sqrt (wd W) ltac:(lra)).
  set (l := sqrt (wd W)) in *. rewrite (odiv_ok 1) by lra. cbn [obind]. cbv zeta.
  assert (SQ : 0 < SQR (l + l)) by (unfold SQR; apply Rmult_lt_0_compat; lra).
  assert (LQ : 0 < l * l) by (apply Rmult_lt_0_compat; lra).
  assert (X : (if g_mhd c then odiv (half * (SQR (wby W - wby W) + SQR (wbz W - wbz W))) (SQR (l + l)) else Some 0) = Some 0).
  { destruct (g_mhd c); [|reflexivity]. rewrite odiv_ok by lra. f_equal. unfold SQR. field. lra. }
  assert (Y : (if g_mhd c then odiv (half * (wd W + wd W)) (l * l) else Some 0) = Some (if g_mhd c then 1 else 0)).
  { destruct (g_mhd c); [|reflexivity]. rewrite odiv_ok by lra. f_equal. rewrite B. unfold half. field. lra. }
  rewrite X, Y. cbn [obind]. clear X Y.
  assert (Z1 : (if g_mhd c then (l * wby W + l * wby W) * (1 / (l + l)) else 0) = wby W).
  { destruct F as [F _]. destruct (g_mhd c); [field; lra|]. destruct F as [-> _]; reflexivity. }
  assert (Z2 : (if g_mhd c then (l * wbz W + l * wbz W) * (1 / (l + l)) else 0) = wbz W).
  { destruct F as [F _]. destruct (g_mhd c); [field; lra|]. destruct F as [_ ->]; reflexivity. }
  rewrite Z1, Z2.
  assert (H : match g_eos c with
      | Adiabatic _ => hl <~ odiv (ue (conserved c W Bx) + wp W + pmag c W Bx) l;; hr <~ odiv (ue (conserved c W Bx) + wp W + pmag c W Bx) l;; Some ((hl + hr) * (1 / (l + l)))
      | Isothermal _ => Some 0 end = Some (match g_eos c with Adiabatic _ => (total_energy c W Bx + total_pressure c W Bx) / wd W | Isothermal _ => 0 end)).
  { destruct (g_eos c) as [g|a] eqn:G; [|reflexivity]. rewrite !odiv_ok by lra. cbn [obind conserved ue]. f_equal.
    assert (PM : wp W + pmag c W Bx = total_pressure c W Bx).
    { unfold total_pressure, gas_pressure, magnetic_pressure, pmag, bnorm, SQR, half. rewrite G.
      destruct F as [F _]. destruct (g_mhd c); [field|]. destruct F as [-> ->]; [reflexivity|field]. }
    rewrite Rplus_assoc, PM. rewrite <- B. field. lra. }
  rewrite H. cbn [obind]. do 2 f_equal; [exact B|field; lra|field; lra|field; lra].
Qed.

Lemma roe_ok_same c d v1 v2 v3 h b2 b3 : eos_ok c -> 0 < d ->
  roe_ok c (Roe d v1 v2 v3 h b2 b3 0 (if g_mhd c then 1 else 0)).
Proof.
  intros E D M. rewrite M. cbn [r_d r_x r_y]. unfold eos_ok in E. split; [exact D|]. destruct (g_eos c); lra.
Qed.

(** ** C38: consistency *)

Lemma hll_speeds_same c W Bx : eos_ok c -> admissible c W ->
  exists al ar, hll_speeds c (conserved c W Bx) (conserved c W Bx) W W Bx = Some (al, ar) /\ al < ar.
Proof.
  intros E A. unfold hll_speeds. rewrite roe_avg_same by exact A. cbn [obind].
  edestruct (eigenvalues_ok c Bx) as (ev & cf & H1 & H2 & H3 & H4); [exact E|apply roe_ok_same; [exact E|apply A]|].
  rewrite H1. cbn [obind]. destruct (side_speed_ok c W Bx E A) as (s & Hs & Ps). rewrite Hs. cbn [obind].
  do 2 eexists. split; [reflexivity|]. cbv zeta. rewrite H3, H4. cbn [r_v1].
  unfold MIN, MAX. destruct (Rlt_dec _ _), (Rlt_dec _ _); lra.
Qed.

Theorem C38_hlle :
  forall c W Bx, eos_ok c -> admissible c W ->
    let U := conserved c W Bx in
    hlle c U U W W Bx = Some (physical_flux c W Bx).
Proof.
  intros c W Bx E A U. subst U. unfold hlle.
  destruct (hll_speeds_same c W Bx E A) as (al & ar & -> & L). cbn [obind].
  assert (B : MIN al 0 < MAX ar 0 \/ (MIN al 0 = MAX ar 0)).
  { unfold MIN, MAX. destruct (Rlt_dec _ _), (Rlt_dec _ _); lra. }
  assert (B' : MAX ar 0 - MIN al 0 <> 0).
  { unfold MIN, MAX. destruct (Rlt_dec _ _), (Rlt_dec _ _); lra. }
  set (bp := MAX ar 0) in *. set (bm := MIN al 0) in *.
  rewrite !flux_line_spec by apply A. rewrite odiv_ok by exact B'. cbn [obind]. f_equal.
  apply scalars_phys. unfold same7, zip2, along. cbn [ud umx umy umz ue uby ubz].
  set (F := physical_flux c W Bx). set (V := conserved c W Bx).
  repeat split; unfold half; field; exact B'.
Qed.
Print Assumptions C38_hlle.

Theorem C38_force :
  forall c W Bx, eos_ok c -> admissible c W ->
    (match g_eos c with Adiabatic _ => TINY_NUMBER <= wp W | Isothermal _ => True end) ->
    let U := conserved c W Bx in
    force c U U W W Bx = Some (physical_flux c W Bx).
Proof.
  intros c W Bx E A T U. subst U. unfold force.
  destruct (hll_speeds_same c W Bx E A) as (al & ar & -> & L). cbn [obind].
  rewrite !flux_line_spec by apply A.
  destruct (Rle_dec 0 al).
  { replace (MIN al 0) with 0 by (unfold MIN; destruct (Rlt_dec al 0); lra).
    rewrite zero_along by apply phys_scalars. reflexivity. }
  destruct (Rle_dec ar 0).
  { replace (MAX ar 0) with 0 by (unfold MAX; destruct (Rlt_dec 0 ar); lra).
    rewrite zero_along by apply phys_scalars. reflexivity. }
  replace (MAX ar 0) with ar by (unfold MAX; destruct (Rlt_dec 0 ar); lra).
  replace (MIN al 0) with al by (unfold MIN; destruct (Rlt_dec al 0); lra).
  rewrite (odiv_ok 1) by lra. cbn [obind]. cbv zeta.
  set (F := physical_flux c W Bx). set (V := conserved c W Bx).
  set (Uc := zip2 _ _ _).
  assert (EU : Uc = Cons1 (ud V) (umx V) (umy V) (umz V) (ue V) (uby V) (ubz V) []).
  { unfold Uc, zip2, along. cbn [ud umx umy umz ue uby ubz]. f_equal; field; lra. }
  rewrite EU. clear Uc EU.
  (* scalars play no part in the mean state *)
  set (W0 := Prim1 (wd W) (wvx W) (wvy W) (wvz W) (wp W) (wby W) (wbz W) []).
  assert (EV : Cons1 (ud V) (umx V) (umy V) (umz V) (ue V) (uby V) (ubz V) [] = conserved c W0 Bx) by reflexivity.
  rewrite EV.
  destruct (C35_prim_cons_prim c W0 Bx E) as [_ K]; [apply A|apply A|exact T|].
  rewrite K. cbn [obind].
  match goal with |- context [zip2 (fun fc fh => half * fc + fh) ?f _] => set (Fc := f) end.
  assert (FC : same7 Fc F).
  { unfold same7, Fc, F, physical_flux.
    assert (TE : match g_eos c with Adiabatic _ => True | Isothermal _ => total_energy c W Bx = 0 end).
    { unfold total_energy. destruct (g_eos c); auto. }
    assert (TW : total_energy c W0 Bx = total_energy c W Bx) by reflexivity.
    unfold conserved. rewrite TW. set (Q := total_energy c W Bx) in *.
    destruct A as ((F1 & F2) & D & P).
    unfold total_pressure, gas_pressure, magnetic_pressure, v_dot_b, bnorm, pmag, SQR, half, W0.
    cbn [wd wvx wvy wvz wp wby wbz wr].
    destruct (g_mhd c); [|destruct F1 as [-> ->]; [reflexivity|]]; destruct (g_eos c) as [g|a]; rewrite ?TE;
      cbn [ud umx umy umz ue uby ubz]; repeat split; field. }
  clearbody Fc. rewrite odiv_ok by lra. cbn [obind]. f_equal. apply scalars_phys.
  fold F. destruct FC as (E1 & E2 & E3 & E4 & E5 & E6 & E7).
  unfold same7, zip2, along. cbn [ud umx umy umz ue uby ubz].
  rewrite E1, E2, E3, E4, E5, E6, E7. clearbody F V. unfold half.
  repeat split; field; lra.
Qed.
Print Assumptions C38_force.

Theorem C38_hllc :
  forall c W, g_mhd c = false -> eos_ok c -> admissible c W ->
    let U := conserved c W 0 in
    hllc c U U W W = Some (physical_flux c W 0).
Proof.
  intros c W M E A U. unfold hllc, hllc_speeds.
  unfold U. rewrite roe_avg_same by exact A. cbn [obind].
  edestruct (eigenvalues_ok c 0) as (ev & cf & H1 & H2 & H3 & H4); [exact E|apply roe_ok_same; [exact E|apply A]|].
  rewrite H1. cbn [obind].
  assert (C : exists s, hllc_cs c W = Some s /\ 0 < s).
  { destruct A as (F & D & P). unfold hllc_cs, eos_ok in *. destruct (g_eos c) as [g|a].
    - rewrite odiv_ok by lra. cbn [obind].
      assert (0 < g * wp W / wd W).
      { unfold Rdiv. apply Rmult_lt_0_compat; [apply Rmult_lt_0_compat; lra|apply Rinv_0_lt_compat, D]. }
      rewrite osqrt_ok by lra. eexists. split; [reflexivity|]. apply sqrt_lt_R0. assumption.
    - eauto. }
  destruct C as (s & Hs & Ps). rewrite Hs. cbn [obind]. rewrite H3, H4. cbn [r_v1].
  set (ar := MAX _ _). set (al := MIN _ _). cbv zeta.
  assert (L : al < wvx W /\ wvx W < ar).
  { unfold al, ar, MIN, MAX. destruct (Rlt_dec _ _), (Rlt_dec _ _); lra. }
  destruct A as ((F1 & F2) & D & P).
  cbn [conserved ud umx].
  assert (DD : wd W * wvx W - wd W * al + - (wd W * wvx W - wd W * ar) <> 0).
  { replace (wd W * wvx W - wd W * al + - (wd W * wvx W - wd W * ar)) with (wd W * (ar - al)) by ring.
    apply Rmult_integral_contrapositive; lra. }
  rewrite (odiv_ok 1 _ DD). cbn [obind].
  set (t := 1 / _).
  assert (AM : (pgas c W + (wvx W - al) * (wd W * wvx W) - (pgas c W + (wvx W - ar) * (wd W * wvx W))) * t = wvx W).
  { unfold t. field. lra. }
  assert (CP : ((wd W * wvx W - wd W * al) * (pgas c W + (wvx W - ar) * (wd W * wvx W)) +
               - (wd W * wvx W - wd W * ar) * (pgas c W + (wvx W - al) * (wd W * wvx W))) * t = pgas c W).
  { unfold t. field. lra. }
  rewrite AM, CP. clear AM CP t DD.
  assert (PG : 0 < pgas c W).
  { unfold pgas, eos_ok in *. destruct (g_eos c); [exact P|]. apply Rmult_lt_0_compat; nra. }
  destruct (Rlt_dec 0 (pgas c W)); [|lra].
  rewrite !flux_line_spec by (split; assumption).
  set (bp := if Rlt_dec 0 ar then ar else 0). set (bm := if Rlt_dec al 0 then al else 0).
  assert (PF : physical_flux c W 0 = Cons1 (wd W * wvx W) (wd W * wvx W * wvx W + pgas c W) (wd W * wvx W * wvy W)
     (wd W * wvx W * wvz W)
     (match g_eos c with Adiabatic _ => (total_energy c W 0 + pgas c W) * wvx W | Isothermal _ => 0 end) 0 0
     (map (fun r => wd W * wvx W * r) (wr W))).
  { unfold physical_flux, total_pressure, gas_pressure, magnetic_pressure, v_dot_b, bnorm, pgas. rewrite M.
    destruct F1 as [Z1 Z2]; [assumption|]. rewrite Z1, Z2. destruct (g_eos c); f_equal; field. }
  assert (E0 : match g_eos c with Adiabatic _ => True | Isothermal _ => total_energy c W 0 = 0 end).
  { unfold total_energy. destruct (g_eos c); auto. }
  destruct F1 as [Z1 Z2]; [assumption|].
  destruct (Rle_dec 0 (wvx W)).
  - assert (N : wvx W - bm <> 0) by (unfold bm; destruct (Rlt_dec al 0); lra).
    rewrite !odiv_ok by exact N. cbn [obind]. f_equal. apply scalars_phys. unfold same7, zip2, along. rewrite PF.
    cbn [ud umx umy umz ue uby ubz conserved]. rewrite Z1, Z2.
    repeat split; try (field; lra). destruct (g_eos c); [field; lra|rewrite E0; field; lra].
  - assert (N : bp - wvx W <> 0) by (unfold bp; destruct (Rlt_dec 0 ar); lra).
    rewrite !odiv_ok by exact N. cbn [obind]. f_equal. apply scalars_phys. unfold same7, zip2, along. rewrite PF.
    cbn [ud umx umy umz ue uby ubz conserved]. rewrite Z1, Z2.
    repeat split; try (field; lra). destruct (g_eos c); [field; lra|rewrite E0; field; lra].
Qed.
Print Assumptions C38_hllc.

Theorem C38_two_shock :
  forall a W, let c := GCfg false (Isothermal a) in
    0 < a -> admissible c W ->
    let U := conserved c W 0 in
    two_shock a U U W W = Some (physical_flux c W 0).
Proof.
  intros a W c E ((F1 & F2) & D & _) U. destruct F1 as [Z1 Z2]; [reflexivity|].
  assert (PF : physical_flux c W 0 = Cons1 (wd W * wvx W) (wd W * wvx W * wvx W + wd W * (a * a)) (wd W * wvx W * wvy W)
     (wd W * wvx W * wvz W) 0 0 0 (map (fun r => wd W * wvx W * r) (wr W))).
  { unfold physical_flux, total_pressure, gas_pressure, magnetic_pressure, v_dot_b, bnorm, c. cbn [g_mhd g_eos].
    rewrite Z1, Z2. f_equal; field. }
  rewrite PF. unfold two_shock, ts_state, U. cbn [conserved ud umx umy umz].
  destruct (Rlt_dec 0 (wd W)); [|lra].
  rewrite (osqrt_ok (wd W)) by lra. cbn [obind].
  assert (A := sqrt_lt_R0 _ D). assert (B := sqrt_sqrt (wd W) ltac:(lra)). set (z := sqrt (wd W)) in *.
  rewrite odiv_ok by (apply Rgt_not_eq, Rmult_lt_0_compat; lra). cbn [obind].
  replace (z * z * (wvx W - wvx W) / (2 * a * (z + z))) with 0 by (field; lra).
  rewrite osqrt_ok by nra. cbn [obind].
  replace (0 * 0 + z * z) with (z * z) by ring. rewrite sqrt_square by lra.
  rewrite !odiv_ok by lra. cbn [obind].
  replace (a * (0 + z) / z) with a by (field; lra).
  replace ((wvx W * z + wvx W * z) / (z + z) + a * (z - z) / (0 + z)) with (wvx W) by (field; lra).
  replace ((0 + z) * (0 + z)) with (z * z) by ring. rewrite B.
  destruct (Rle_dec (wvx W + a) 0); [f_equal; f_equal; ring|].
  destruct (Rle_dec 0 (wvx W - a)); [f_equal; f_equal; ring|].
  destruct (Rle_dec 0 (wvx W)); reflexivity.
Qed.
Print Assumptions C38_two_shock.
