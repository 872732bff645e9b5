(** * Upwinding (C39) and finiteness (C55) of the Riemann solvers: HLLE, FORCE, Roe, two-shock *)
From Coq Require Import Reals List Bool Lra Psatz.
From Verif Require Import GasModel GasSpec ConvProps FluxModel FluxProps FluxProps2.
Import ListNotations.
Open Scope R_scope.

(** With MHD and an ideal gas the Roe averages need an adiabatic index of at most two. *)
Definition gamma_ok (c : gcfg) : Prop :=
  g_mhd c = true -> match g_eos c with Adiabatic g => g <= 2 | Isothermal _ => True end.

(** [s] is the fastest signal speed of the gas [W] at rest. *)
Definition fast_speed (c : gcfg) (W : prim1) (Bx s : R) : Prop :=
  0 < s /\ magnetosonic c W Bx s /\ forall t, magnetosonic c W Bx t -> t <= s.

(** ** Preliminaries *)
Lemma side_speed_fast c W Bx : eos_ok c -> admissible c W ->
  exists s, side_speed c (conserved c W Bx) W Bx = Some s /\ fast_speed c W Bx s.
Proof.
  intros E A. destruct (C36_fast_speed c W Bx E A) as (s & H & P & M & L & _).
  rewrite side_speed_spec by exact A. exists s. split; [|split; [exact P|split; [exact M|exact L]]].
  rewrite <- H. symmetry. apply cfast_prim_fast; assumption.
Qed.

Lemma roe_avg_full c Wl Wr Bx : eos_ok c -> gamma_ok c -> admissible c Wl -> admissible c Wr ->
  exists r, roe_avg c (conserved c Wl Bx) (conserved c Wr Bx) Wl Wr Bx = Some r /\ roe_ok c r.
Proof.
  intros E G A1 A2. destruct (roe_avg_ok c Wl Wr Bx A1 A2) as (r & H & D & XY). exists r. split; [exact H|].
  intros M. split; [exact D|]. destruct (XY M) as [X Y]. specialize (G M). unfold eos_ok in E.
  destruct (g_eos c) as [g|a]; [|lra]. assert (0 <= (2 - g) * (r_y r - 1)) by (apply Rmult_le_pos; lra). lra.
Qed.

Lemma hll_speeds_ok c Wl Wr Bx : eos_ok c -> gamma_ok c -> admissible c Wl -> admissible c Wr ->
  exists al ar cl cr, hll_speeds c (conserved c Wl Bx) (conserved c Wr Bx) Wl Wr Bx = Some (al, ar) /\
    fast_speed c Wl Bx cl /\ fast_speed c Wr Bx cr /\
    al <= wvx Wl - cl /\ wvx Wr + cr <= ar /\ al < ar.
Proof.
  intros E G A1 A2. unfold hll_speeds.
  destruct (roe_avg_full c Wl Wr Bx E G A1 A2) as (r & -> & K). cbn [obind].
  destruct (eigenvalues_ok c Bx r E K) as (ev & cf & -> & CP & H1 & H2). cbn [obind].
  destruct (side_speed_fast c Wl Bx E A1) as (cl & -> & Fl). destruct (side_speed_fast c Wr Bx E A2) as (cr & -> & Fr).
  cbn [obind]. cbv zeta. rewrite H1, H2. do 4 eexists. split; [reflexivity|]. split; [exact Fl|]. split; [exact Fr|].
  unfold MIN, MAX. destruct (Rlt_dec _ _), (Rlt_dec _ _); lra.
Qed.

Lemma upwind_l F c Wl Wr Bx : same7 F (physical_flux c Wl Bx) -> 0 <= wd Wl * wvx Wl ->
  with_scalars F Wl Wr = physical_flux c Wl Bx.
Proof.
  intros (H1 & H2 & H3 & H4 & H5 & H6 & H7) P. unfold with_scalars. rewrite H1, H2, H3, H4, H5, H6, H7.
  unfold physical_flux at 9. cbn [ud]. destruct (Rle_dec 0 (wd Wl * wvx Wl)) as [_|N]; [|contradiction].
  unfold physical_flux. cbn [ud umx umy umz ue uby ubz]. reflexivity.
Qed.
Lemma upwind_r F c Wl Wr Bx : same7 F (physical_flux c Wr Bx) -> wd Wr * wvx Wr < 0 ->
  with_scalars F Wl Wr = physical_flux c Wr Bx.
Proof.
  intros (H1 & H2 & H3 & H4 & H5 & H6 & H7) P. unfold with_scalars. rewrite H1, H2, H3, H4, H5, H6, H7.
  unfold physical_flux at 9. cbn [ud]. destruct (Rle_dec 0 (wd Wr * wvx Wr)) as [N|_]; [lra|].
  unfold physical_flux. cbn [ud umx umy umz ue uby ubz]. reflexivity.
Qed.

(** ** HLLE *)
Theorem C39_hlle :
  forall c Wl Wr Bx, eos_ok c -> gamma_ok c -> admissible c Wl -> admissible c Wr ->
    let F := hlle c (conserved c Wl Bx) (conserved c Wr Bx) Wl Wr Bx in
    exists al ar cl cr,
      (* the slowest and fastest signal speeds used *)
      hll_speeds c (conserved c Wl Bx) (conserved c Wr Bx) Wl Wr Bx = Some (al, ar) /\
      (* they bound the signal speeds of both states *)
      fast_speed c Wl Bx cl /\ fast_speed c Wr Bx cr /\ al <= wvx Wl - cl /\ wvx Wr + cr <= ar /\
      (0 <= al -> F = Some (physical_flux c Wl Bx)) /\
      (ar <= 0 -> F = Some (physical_flux c Wr Bx)) /\
      F <> None.
Proof.
  intros c Wl Wr Bx E G A1 A2 F.
  destruct (hll_speeds_ok c Wl Wr Bx E G A1 A2) as (al & ar & cl & cr & H & Fl & Fr & Hl & Hr & L).
  exists al, ar, cl, cr. split; [exact H|]. split; [exact Fl|]. split; [exact Fr|]. split; [exact Hl|]. split; [exact Hr|].
  destruct Fl as (Cl & _). destruct Fr as (Cr & _). unfold F, hlle. rewrite H. cbn [obind].
  rewrite !flux_line_spec by (apply A1 || apply A2).
  destruct A1 as (_ & Dl & _). destruct A2 as (_ & Dr & _).
  split; [|split].
  - intros Z. unfold MIN. destruct (Rlt_dec al 0); [lra|]. rewrite MAX_l by lra. rewrite odiv_ok by lra. cbn [obind].
    f_equal. apply upwind_l; [|left; apply Rmult_lt_0_compat; lra]. unfold same7, zip2, along. cbn [ud umx umy umz ue uby ubz].
    set (P := physical_flux c Wl Bx). set (Q := physical_flux c Wr Bx). clearbody P Q.
    repeat split; unfold half; field; lra.
  - intros Z. unfold MIN. destruct (Rlt_dec al 0); [|lra]. rewrite MAX_r by lra. rewrite odiv_ok by lra. cbn [obind].
    f_equal. apply upwind_r; [|]. 2:{ assert (0 < wd Wr * - wvx Wr) by (apply Rmult_lt_0_compat; lra). lra. }
    unfold same7, zip2, along. cbn [ud umx umy umz ue uby ubz].
    set (P := physical_flux c Wl Bx). set (Q := physical_flux c Wr Bx). clearbody P Q.
    repeat split; unfold half; field; lra.
  - assert (B' : MAX ar 0 - MIN al 0 <> 0) by (unfold MIN, MAX; destruct (Rlt_dec _ _), (Rlt_dec _ _); lra).
    rewrite odiv_ok by exact B'. discriminate.
Qed.
Print Assumptions C39_hlle.

(** ** FORCE *)
Theorem C39_force :
  forall c Wl Wr Bx, eos_ok c -> gamma_ok c -> admissible c Wl -> admissible c Wr ->
    let F := force c (conserved c Wl Bx) (conserved c Wr Bx) Wl Wr Bx in
    exists al ar cl cr,
      hll_speeds c (conserved c Wl Bx) (conserved c Wr Bx) Wl Wr Bx = Some (al, ar) /\
      fast_speed c Wl Bx cl /\ fast_speed c Wr Bx cr /\ al <= wvx Wl - cl /\ wvx Wr + cr <= ar /\
      (0 <= al -> F = Some (physical_flux c Wl Bx)) /\
      (ar <= 0 -> F = Some (physical_flux c Wr Bx)) /\
      F <> None.
Proof.
  intros c Wl Wr Bx E G A1 A2 F.
  destruct (hll_speeds_ok c Wl Wr Bx E G A1 A2) as (al & ar & cl & cr & H & Fl & Fr & Hl & Hr & L).
  exists al, ar, cl, cr. split; [exact H|]. split; [exact Fl|]. split; [exact Fr|]. split; [exact Hl|]. split; [exact Hr|].
  destruct Fl as (Cl & _). destruct Fr as (Cr & _). unfold F, force. rewrite H. cbn [obind].
  rewrite !flux_line_spec by (apply A1 || apply A2).
  destruct A1 as (_ & Dl & _). destruct A2 as (_ & Dr & _).
  split; [|split].
  - intros Z. destruct (Rle_dec 0 al); [|contradiction]. unfold MIN. destruct (Rlt_dec al 0); [lra|].
    rewrite zero_along by apply phys_scalars. reflexivity.
  - intros Z. destruct (Rle_dec 0 al); [lra|]. destruct (Rle_dec ar 0); [|contradiction]. rewrite MAX_r by lra.
    rewrite zero_along by apply phys_scalars. reflexivity.
  - destruct (Rle_dec 0 al); [discriminate|]. destruct (Rle_dec ar 0); [discriminate|].
    unfold MIN. destruct (Rlt_dec al 0); [|lra]. rewrite MAX_l by lra. rewrite (odiv_ok 1) by lra. cbn [obind].
    set (Uc := zip2 _ _ _).
    destruct (c2p_vel c Uc Bx) as (W & -> & _).
    { unfold Uc, zip2, along. cbn [ud physical_flux conserved].
      apply Rmult_integral_contrapositive. split.
      - assert (0 < wd Wl * (wvx Wl - al)) by (apply Rmult_lt_0_compat; lra).
        assert (0 < wd Wr * (ar - wvx Wr)) by (apply Rmult_lt_0_compat; lra). lra.
      - assert (0 < / (ar - al)) by (apply Rinv_0_lt_compat; lra). lra. }
    cbn [obind]. rewrite odiv_ok by lra. discriminate.
Qed.
Print Assumptions C39_force.

(** ** Roe *)
Theorem C39_roe :
  forall c etah Wl Wr Bx, eos_ok c -> gamma_ok c -> admissible c Wl -> admissible c Wr ->
    let F := roe_flux c etah (conserved c Wl Bx) (conserved c Wr Bx) Wl Wr Bx in
    exists r ev,
      (* the Roe averages and the eigenvalues of the Roe matrix *)
      roe_avg c (conserved c Wl Bx) (conserved c Wr Bx) Wl Wr Bx = Some r /\
      eigenvalues c Bx r = Some ev /\
      (Forall (fun s => 0 <= s) ev -> F = Some (physical_flux c Wl Bx)) /\
      (Forall (fun s => s <= 0) ev -> F = Some (physical_flux c Wr Bx)) /\
      F <> None.
Proof.
  intros c etah Wl Wr Bx E G A1 A2 F.
  destruct (roe_avg_full c Wl Wr Bx E G A1 A2) as (r & H & K).
  destruct (eigenvalues_ok c Bx r E K) as (ev & cf & HE & CP & E1 & E2).
  exists r, ev. split; [exact H|]. split; [exact HE|]. unfold F, roe_flux. rewrite H. cbn [obind]. rewrite HE. cbn [obind].
  destruct (esys_ok c Bx r E K) as (em & -> & _). cbn [obind]. cbv zeta. rewrite !flux_side_spec by (apply A1 || apply A2).
  assert (NE : ev <> []) by (intros ->; cbn in E1, E2; lra).
  split; [|split].
  - intros Z. destruct (Rle_dec 0 (hd 0 ev)) as [|N]; [reflexivity|]. exfalso. apply N.
    destruct ev as [|x ev]; [contradiction|]. inversion Z; subst. assumption.
  - intros Z. assert (LL : last ev 0 <= 0).
    { apply (proj1 (Forall_forall _ _) Z). destruct (exists_last NE) as (l' & x & ->). rewrite last_last. apply in_or_app. right. left. reflexivity. }
    destruct (Rle_dec 0 (hd 0 ev)) as [N|_]; [lra|]. destruct (Rle_dec (last ev 0) 0); [reflexivity|contradiction].
  - destruct (Rle_dec _ _); [discriminate|]. destruct (Rle_dec _ _); [discriminate|].
    destruct (test_inter _ _ _ _); [|discriminate].
    destruct (C39_hlle c Wl Wr Bx E G A1 A2) as (? & ? & ? & ? & _ & _ & _ & _ & _ & _ & _ & NN). exact NN.
Qed.
Print Assumptions C39_roe.

(** ** Two-shock: the state between the shocks (C56) *)
Theorem C39_two_shock :
  forall a Wl Wr, let c := GCfg false (Isothermal a) in
    0 < a -> admissible c Wl -> admissible c Wr ->
    let F := two_shock a (conserved c Wl 0) (conserved c Wr 0) Wl Wr in
    exists vc dc sl sr,
      ts_state a Wl Wr = Some (vc, dc, sl, sr) /\
      (* the contact lies between the shocks *)
      0 < dc /\ sl < vc < sr /\
      (* both jumps satisfy the Rankine-Hugoniot conditions of the isothermal gas *)
      dc * (vc - sl) = wd Wl * (wvx Wl - sl) /\
      dc * (vc - sl) * vc + a * a * dc = wd Wl * (wvx Wl - sl) * wvx Wl + a * a * wd Wl /\
      dc * (vc - sr) = wd Wr * (wvx Wr - sr) /\
      dc * (vc - sr) * vc + a * a * dc = wd Wr * (wvx Wr - sr) * wvx Wr + a * a * wd Wr /\
      (0 <= sl -> F = Some (physical_flux c Wl 0)) /\
      (sr <= 0 -> F = Some (physical_flux c Wr 0)) /\
      F <> None.
Proof.
  intros a Wl Wr c AP (WFl & Dl & _) (WFr & Dr & _) F. unfold F, two_shock. cbn [conserved ud umx umy umz].
  destruct (Rlt_dec 0 (wd Wl)); [|contradiction]. destruct (Rlt_dec 0 (wd Wr)); [|contradiction].
  unfold ts_state. rewrite (osqrt_ok (wd Wl)) by lra. rewrite (osqrt_ok (wd Wr)) by lra. cbn [obind].
  assert (Al := sqrt_lt_R0 _ Dl). assert (Ar := sqrt_lt_R0 _ Dr).
  assert (Bl := sqrt_sqrt (wd Wl) ltac:(lra)). assert (Br := sqrt_sqrt (wd Wr) ltac:(lra)).
  set (l := sqrt (wd Wl)) in *. set (q := sqrt (wd Wr)) in *.
  assert (AL : 0 < 2 * a * (l + q)) by (apply Rmult_lt_0_compat; lra).
  rewrite odiv_ok by lra. cbn [obind]. set (t := _ / _).
  assert (LQ : 0 < l * q) by (apply Rmult_lt_0_compat; lra).
  assert (TT : 0 <= t * t) by apply Rle_0_sqr.
  rewrite osqrt_ok by lra. cbn [obind].
  assert (SQ := sqrt_sqrt (t * t + l * q) ltac:(lra)). assert (SP := sqrt_pos (t * t + l * q)).
  set (z := sqrt (t * t + l * q)) in *.
  assert (ZC : 0 < t + z).
  { destruct (Rlt_dec 0 (t + z)) as [|N]; [assumption|exfalso]. assert (z <= - t) by lra.
    assert (z * z <= - t * - t) by (apply Rmult_le_compat; lra). lra. }
  rewrite !odiv_ok by lra. cbn [obind].
  assert (ZZ : (t + z) * (t + z) = 2 * t * (t + z) + l * q) by nra.
  assert (TV : t * (2 * a * (l + q)) = l * q * (wvx Wl - wvx Wr)) by (unfold t; field; lra).
  set (k := t + z) in *.
  (* k (l+q) a satisfies a quadratic equation *)
  assert (KK : a * (l + q) * (k * k - l * q) = k * (l * q * (wvx Wl - wvx Wr))).
  { replace (k * k - l * q) with (2 * t * k) by lra.
    replace (a * (l + q) * (2 * t * k)) with (k * (t * (2 * a * (l + q)))) by ring. rewrite TV. reflexivity. }
  set (vc := (wvx Wl * l + wvx Wr * q) / (l + q) + a * (l - q) / k).
  set (sl := wvx Wl - a * k / l). set (sr := wvx Wr + a * k / q).
  assert (DV : wvx Wl - wvx Wr = a * (l + q) * (k * k - l * q) / (k * (l * q))).
  { apply (Rmult_eq_reg_l (k * (l * q))); [|apply Rmult_integral_contrapositive; split; lra].
    replace (k * (l * q) * (wvx Wl - wvx Wr)) with (k * (l * q * (wvx Wl - wvx Wr))) by ring. rewrite <- KK. field. repeat split; lra. }
  assert (V1 : vc = wvx Wl - a * k / l + a * l / k).
  { unfold vc. replace (wvx Wr) with (wvx Wl - (wvx Wl - wvx Wr)) by ring. rewrite DV. field. repeat split; lra. }
  assert (V2 : vc = wvx Wr + a * k / q - a * q / k).
  { replace (wvx Wr) with (wvx Wl - (wvx Wl - wvx Wr)) by ring. rewrite DV, V1. field. repeat split; lra. }
  exists vc, (k * k), sl, sr. split; [reflexivity|].
  assert (KP : 0 < k * k) by (apply Rmult_lt_0_compat; lra).
  assert (I1 : 0 < a * l / k) by (unfold Rdiv; repeat apply Rmult_lt_0_compat; try lra; apply Rinv_0_lt_compat; lra).
  assert (I2 : 0 < a * q / k) by (unfold Rdiv; repeat apply Rmult_lt_0_compat; try lra; apply Rinv_0_lt_compat; lra).
  assert (I3 : 0 < a * k / l) by (unfold Rdiv; repeat apply Rmult_lt_0_compat; try lra; apply Rinv_0_lt_compat; lra).
  assert (I4 : 0 < a * k / q) by (unfold Rdiv; repeat apply Rmult_lt_0_compat; try lra; apply Rinv_0_lt_compat; lra).
  assert (SL : vc - sl = a * l / k) by (rewrite V1; unfold sl; ring).
  assert (SR : vc - sr = - (a * q / k)) by (rewrite V2; unfold sr; ring).
  split; [exact KP|]. split; [lra|].
  split; [rewrite SL, <- Bl; unfold sl; field; lra|].
  split; [rewrite SL, <- Bl, V1; unfold sl; field; lra|].
  split; [rewrite SR, <- Br; unfold sr; field; lra|].
  split; [rewrite SR, <- Br, V2; unfold sr; field; lra|].
  assert (PF : forall W, wf_prim c W -> physical_flux c W 0 =
     Cons1 (wd W * wvx W) (wd W * wvx W * wvx W + wd W * (a * a)) (wd W * wvy W * wvx W) (wd W * wvz W * wvx W) 0 0 0
           (map (fun r => wd W * wvx W * r) (wr W))).
  { intros W [F1 _]. destruct F1 as [Z1 Z2]; [reflexivity|].
    unfold physical_flux, total_pressure, gas_pressure, magnetic_pressure, bnorm, c. cbn [g_mhd g_eos]. rewrite Z1, Z2.
    f_equal; field. }
  assert (SS : sl < sr) by lra.
  split; [|split].
  - intros Z. destruct (Rle_dec sr 0); [lra|]. destruct (Rle_dec 0 sl); [|contradiction]. rewrite PF by exact WFl. reflexivity.
  - intros Z. destruct (Rle_dec sr 0); [|contradiction]. rewrite PF by exact WFr. reflexivity.
  - destruct (Rle_dec sr 0); [discriminate|]. destruct (Rle_dec 0 sl); discriminate.
Qed.
Print Assumptions C39_two_shock.
