(** * C56: Roe's linearisation

    The jumps of the waves add up to the jump of the conserved variables; the
    jumps times the wave speeds add up to the jump of the fluxes (with a defect
    in MHD when the densities differ); a single discontinuity that satisfies
    the jump conditions is resolved exactly. *)
From Coq Require Import Reals Lra List Sorted Arith Lia.
From Verif Require Import GasModel GasSpec ConvProps FluxModel FluxProps FluxProps2 FluxUpwind RoeAlgebra RoeLin.
Import ListNotations.
Open Scope R_scope.

(** The temperature is above the floor of the eigensystems. *)
Definition warm (c : gcfg) (W : prim1) : Prop :=
  match g_eos c with
  | Adiabatic g => TINY_NUMBER <= sound2 c W /\ (g - 1) * TINY_NUMBER <= sound2 c W
  | Isothermal _ => True
  end.

(** ** The Roe averages *)
Lemma roe_avg_explicit c Wl Wr Bx : admissible c Wl -> admissible c Wr ->
  exists l q, 0 < l /\ 0 < q /\ l * l = wd Wl /\ q * q = wd Wr /\
    roe_avg c (conserved c Wl Bx) (conserved c Wr Bx) Wl Wr Bx =
    Some (Roe (l * q) ((l * wvx Wl + q * wvx Wr) / (l + q)) ((l * wvy Wl + q * wvy Wr) / (l + q)) ((l * wvz Wl + q * wvz Wr) / (l + q))
       (match g_eos c with
        | Isothermal _ => 0
        | Adiabatic _ => ((total_energy c Wl Bx + wp Wl + magnetic_pressure c Wl Bx) / l +
                          (total_energy c Wr Bx + wp Wr + magnetic_pressure c Wr Bx) / q) / (l + q)
        end)
       (if g_mhd c then (q * wby Wl + l * wby Wr) / (l + q) else 0)
       (if g_mhd c then (q * wbz Wl + l * wbz Wr) / (l + q) else 0)
       (if g_mhd c then ((wby Wr - wby Wl) * (wby Wr - wby Wl) + (wbz Wr - wbz Wl) * (wbz Wr - wbz Wl)) / 2 / ((l + q) * (l + q)) else 0)
       (if g_mhd c then (l * l + q * q) / 2 / (l * q) else 0)).
Proof.
  intros (Fl & Dl & Pl) (Fr & Dr & Pr). exists (sqrt (wd Wl)), (sqrt (wd Wr)).
  assert (Al := sqrt_lt_R0 _ Dl). assert (Ar := sqrt_lt_R0 _ Dr).
  assert (Bl := sqrt_sqrt (wd Wl) ltac:(lra)). assert (Br := sqrt_sqrt (wd Wr) ltac:(lra)).
  split; [exact Al|]. split; [exact Ar|]. split; [exact Bl|]. split; [exact Br|].
  unfold roe_avg. rewrite (osqrt_ok (wd Wl)) by lra. rewrite (osqrt_ok (wd Wr)) by lra. cbn [obind].
  set (l := sqrt (wd Wl)) in *. set (q := sqrt (wd Wr)) in *. clearbody l q.
  rewrite (odiv_ok 1) by lra. cbn [obind]. cbv zeta.
  assert (PM : forall W, wf_prim c W -> pmag c W Bx = magnetic_pressure c W Bx).
  { intros W [F _]. unfold pmag, magnetic_pressure, bnorm, half, SQR. destruct (g_mhd c); [field|]. destruct F as [-> ->]; [reflexivity|]. field. }
  rewrite !PM by assumption. cbn [conserved ue].
  set (El := total_energy c Wl Bx). set (Er := total_energy c Wr Bx). set (Ml := magnetic_pressure c Wl Bx). set (Mr := magnetic_pressure c Wr Bx).
  clearbody El Er Ml Mr. assert (LQ : 0 < l * q) by (apply Rmult_lt_0_compat; assumption).
  assert (SP : 0 < (l + q) * (l + q)) by (apply Rmult_lt_0_compat; lra). unfold SQR, half.
  destruct (g_mhd c).
  - rewrite (odiv_ok _ ((l + q) * (l + q))), (odiv_ok _ (l * q)) by lra. cbn [obind].
    destruct (g_eos c); cbn [obind].
    + rewrite !odiv_ok by lra. cbn [obind]. rewrite <- Bl, <- Br. f_equal. f_equal; field; lra.
    + cbn [obind]. rewrite <- Bl, <- Br. f_equal. f_equal; field; lra.
  - cbn [obind]. destruct (g_eos c); cbn [obind].
    + rewrite !odiv_ok by lra. cbn [obind]. f_equal. f_equal; field; lra.
    + f_equal. f_equal; field; lra.
Qed.

(** ** What the waves add up to *)

(** The part of the jump of the momentum flux that the MHD linearisation
    misses: proportional to the relative difference of the densities. *)
Definition roe_defect (c : gcfg) (Wl Wr : prim1) : R :=
  if g_mhd c then
    let l := sqrt (wd Wl) in let q := sqrt (wd Wr) in
    (match g_eos c with Isothermal _ => 1 | Adiabatic g => 2 - g end)
    * ((q - l) * (q - l) / (2 * (l * q)))
    * ((q * wby Wl + l * wby Wr) / (l + q) * (wby Wr - wby Wl) + (q * wbz Wl + l * wbz Wr) / (l + q) * (wbz Wr - wbz Wl))
  else 0.

Definition vsub (u v : list R) : list R := vzip (fun l r => r - l) v u.

Definition roe_result (c : gcfg) (Wl Wr : prim1) (Bx : R) (r : roe) (ev : list R) (em : eigen) (A : list R -> list R) : Prop :=
  roe_avg c (conserved c Wl Bx) (conserved c Wr Bx) Wl Wr Bx = Some r /\
  eigenvalues c Bx r = Some ev /\ esys c Bx r = Some em /\ length ev = nwave c /\
  Forall (fun v => length v = nwave c) (e_r em) /\
  StronglySorted Rle ev /\
  linear_system (nwave c) ev em A /\
  forall k, nth k (A (vsub (to_vec c (conserved c Wr Bx)) (to_vec c (conserved c Wl Bx)))) 0 =
    nth k (to_vec c (physical_flux c Wr Bx)) 0 - nth k (to_vec c (physical_flux c Wl Bx)) 0
    + roe_defect c Wl Wr * nth k (to_vec c (Cons1 0 1 0 0 (r_v1 r) 0 0 [])) 0.


Ltac sorted_tac := repeat (constructor; [|repeat (constructor; [lra|]); try constructor]); try constructor.

(** The enthalpy of the averages above the kinetic energy. *)
Lemma avg_asq g l q pl pr vl1 vl2 vl3 vr1 vr2 vr3 x :
  1 < g -> 0 < l -> 0 < q ->
  let v1 := (l * vl1 + q * vr1) / (l + q) in
  let v2 := (l * vl2 + q * vr2) / (l + q) in
  let v3 := (l * vl3 + q * vr3) / (l + q) in
  let el := pl / (g - 1) + l * l * (vl1 * vl1 + vl2 * vl2 + vl3 * vl3) / 2 in
  let er := pr / (g - 1) + q * q * (vr1 * vr1 + vr2 * vr2 + vr3 * vr3) / 2 in
  let h := ((el + pl) / l + (er + pr) / q) / (l + q) in
  0 <= x -> forall t, t <= g * pl / (l * l) -> t <= g * pr / (q * q) ->
  t <= (g - 1) * (h - half * (v1 * v1 + v2 * v2 + v3 * v3)) + g * x.
Proof.
  intros G L Q v1 v2 v3 el er h X t Tl Tr.
  assert (E : (g - 1) * (h - half * (v1 * v1 + v2 * v2 + v3 * v3)) =
    (l * (g * pl / (l * l)) + q * (g * pr / (q * q))) / (l + q) +
    (g - 1) / 2 * (l * q / ((l + q) * (l + q))) *
      ((vl1 - vr1) * (vl1 - vr1) + (vl2 - vr2) * (vl2 - vr2) + (vl3 - vr3) * (vl3 - vr3))).
  { unfold h, el, er, v1, v2, v3, half. field. repeat split; lra. }
  rewrite E. clear E h el er v1 v2 v3.
  set (cl := g * pl / (l * l)) in *. set (cr := g * pr / (q * q)) in *. clearbody cl cr.
  assert (K : 0 <= (g - 1) / 2 * (l * q / ((l + q) * (l + q))) *
      ((vl1 - vr1) * (vl1 - vr1) + (vl2 - vr2) * (vl2 - vr2) + (vl3 - vr3) * (vl3 - vr3))).
  { assert (Z1 := Rle_0_sqr (vl1 - vr1)). assert (Z2 := Rle_0_sqr (vl2 - vr2)). assert (Z3 := Rle_0_sqr (vl3 - vr3)). unfold Rsqr in *.
    apply Rmult_le_pos; [|lra]. apply Rmult_le_pos; [lra|]. unfold Rdiv. apply Rmult_le_pos; [apply Rmult_le_pos; lra|].
    apply Rlt_le, Rinv_0_lt_compat, Rmult_lt_0_compat; lra. }
  assert (M : t <= (l * cl + q * cr) / (l + q)).
  { apply (Rmult_le_reg_r (l + q)); [lra|]. replace ((l * cl + q * cr) / (l + q) * (l + q)) with (l * cl + q * cr) by (field; lra).
    assert (0 <= l * (cl - t)) by (apply Rmult_le_pos; lra). assert (0 <= q * (cr - t)) by (apply Rmult_le_pos; lra). lra. }
  assert (0 <= g * x) by (apply Rmult_le_pos; lra). lra.
Qed.

Lemma roe_lin c Wl Wr Bx : eos_ok c -> gamma_ok c -> admissible c Wl -> admissible c Wr -> warm c Wl -> warm c Wr ->
  exists r ev em A, roe_result c Wl Wr Bx r ev em A.
Proof.
  intros E G A1 A2 H1 H2.
  destruct (roe_avg_full c Wl Wr Bx E G A1 A2) as (r & HR & K).
  destruct (roe_avg_explicit c Wl Wr Bx A1 A2) as (l & q & L & Q & LL & QQ & RE). rewrite HR in RE. injection RE as RE.
  exists r. unfold roe_result, warm, eos_ok, eigenvalues, esys, nwave, roe_defect, vsub in *.
  destruct A1 as ((Fl & _) & Dl & Pl). destruct A2 as ((Fr & _) & Dr & Pr).
  assert (SL : sqrt (wd Wl) = l) by (rewrite <- LL; apply sqrt_square; lra).
  assert (SR : sqrt (wd Wr) = q) by (rewrite <- QQ; apply sqrt_square; lra). rewrite SL, SR.
  assert (N : l <> 0 /\ q <> 0 /\ l + q <> 0) by lra.
  destruct (g_mhd c) eqn:M; destruct (g_eos c) as [g|a0] eqn:GE.
  - (* adiabatic MHD *)
    destruct (lin_adb_mhd c g Bx r) as (s & em & S0 & EM & CS & ORD & LIN); [unfold eos_ok; rewrite GE; exact E|exact M|exact GE|exact K| |].
    { subst r. cbn [r_v1 r_v2 r_v3 r_h r_b2 r_b3 r_x r_d].
      assert (Z := avg_asq g l q (wp Wl) (wp Wr) (wvx Wl) (wvy Wl) (wvz Wl) (wvx Wr) (wvy Wr) (wvz Wr)
         (((wby Wr - wby Wl) * (wby Wr - wby Wl) + (wbz Wr - wbz Wl) * (wbz Wr - wbz Wl)) / 2 / ((l + q) * (l + q))) E L Q).
      cbv zeta in Z. unfold sound2 in H1, H2. rewrite GE, <- LL in H1. rewrite GE, <- QQ in H2.
      assert (XP : 0 <= ((wby Wr - wby Wl) * (wby Wr - wby Wl) + (wbz Wr - wbz Wl) * (wbz Wr - wbz Wl)) / 2 / ((l + q) * (l + q))).
      { assert (Z1 := Rle_0_sqr (wby Wr - wby Wl)). assert (Z2 := Rle_0_sqr (wbz Wr - wbz Wl)). unfold Rsqr in *.
        unfold Rdiv. apply Rmult_le_pos; [lra|]. apply Rlt_le, Rinv_0_lt_compat, Rmult_lt_0_compat; lra. }
      specialize (Z XP TINY_NUMBER (proj1 H1) (proj1 H2)). eapply Rle_trans; [exact Z|]. right. clear Z XP H1 H2 HR K.
      unfold total_energy, magnetic_pressure, kinetic_energy, bnorm. rewrite GE, M, <- LL, <- QQ. unfold half. field. repeat split; lra. }
    rewrite S0. cbn [obind]. rewrite EM. eexists. exists em. eexists. split; [exact HR|]. split; [reflexivity|]. split; [reflexivity|]. split; [reflexivity|].
    split.
    { destruct (esys_ok c Bx r) as (em' & EM' & LEN & _); [unfold eos_ok; rewrite GE; exact E|exact K|].
      unfold esys in EM'. rewrite M, S0 in EM'. cbn [obind] in EM'. rewrite GE, EM in EM'. injection EM' as <-. unfold nwave in LEN. rewrite GE, M in LEN. exact LEN. }
    split; [sorted_tac|]. split; [exact LIN|]. intros k. clear EM LIN S0 K HR ORD CS H1 H2 G.
    unfold to_vec. rewrite GE, M. cbn [app conserved physical_flux ud umx umy umz ue uby ubz vzip A_adb_mhd]. rewrite GE. cbv zeta.
    unfold total_energy, total_pressure, gas_pressure, v_dot_b, magnetic_pressure, kinetic_energy, bnorm. rewrite GE, M, <- LL, <- QQ. subst r. cbn [r_v1 r_v2 r_v3 r_h r_b2 r_b3 r_x r_d r_y].
    unfold total_energy, magnetic_pressure, kinetic_energy, bnorm. rewrite GE, M, <- LL, <- QQ.
    destruct k as [|[|[|[|[|[|[|k]]]]]]]; cbn [nth]; unfold half; try (field; repeat split; lra).
    destruct k; cbn [nth]; ring.
  - (* isothermal MHD *)
    destruct (lin_iso_mhd c a0 Bx r) as (s & em & S0 & EM & CS & ORD & LIN); [unfold eos_ok; rewrite GE; exact E|exact M|exact GE|exact K|].
    rewrite S0. cbn [obind]. rewrite EM. eexists. exists em. eexists. split; [exact HR|]. split; [reflexivity|]. split; [reflexivity|]. split; [reflexivity|].
    split.
    { destruct (esys_ok c Bx r) as (em' & EM' & LEN & _); [unfold eos_ok; rewrite GE; exact E|exact K|].
      unfold esys in EM'. rewrite M, S0 in EM'. cbn [obind] in EM'. rewrite GE, EM in EM'. injection EM' as <-. unfold nwave in LEN. rewrite GE, M in LEN. exact LEN. }
    split; [sorted_tac|]. split; [exact LIN|]. intros k. clear EM LIN S0 K HR ORD CS G.
    unfold to_vec. rewrite GE, M. cbn [app conserved physical_flux ud umx umy umz ue uby ubz vzip A_iso_mhd]. cbv zeta.
    unfold total_pressure, gas_pressure, v_dot_b, magnetic_pressure, kinetic_energy, bnorm. rewrite GE, M, <- LL, <- QQ. subst r. cbn [r_v1 r_v2 r_v3 r_h r_b2 r_b3 r_x r_d r_y].
    destruct k as [|[|[|[|[|[|k]]]]]]; cbn [nth]; unfold half; try (field; repeat split; lra).
    destruct k; cbn [nth]; ring.
  - (* adiabatic hydrodynamics *)
    destruct (Fl eq_refl) as [Bl1 Bl2]. destruct (Fr eq_refl) as [Br1 Br2].
    destruct (lin_adb_hyd c g r GE E) as (em & a & EM & SQ & AP & AA & LIN).
    { subst r. cbn [r_v1 r_v2 r_v3 r_h].
      assert (Z := avg_asq g l q (wp Wl) (wp Wr) (wvx Wl) (wvy Wl) (wvz Wl) (wvx Wr) (wvy Wr) (wvz Wr) 0 E L Q).
      cbv zeta in Z. unfold sound2 in H1, H2. rewrite GE, <- LL in H1. rewrite GE, <- QQ in H2.
      specialize (Z (Rle_refl 0) ((g - 1) * TINY_NUMBER) (proj2 H1) (proj2 H2)).
      apply (Rmult_le_reg_l (g - 1)); [lra|]. eapply Rle_trans; [exact Z|]. right. clear Z H1 H2 HR K.
      unfold total_energy, magnetic_pressure, kinetic_energy, bnorm. rewrite GE, M, Bl1, Bl2, Br1, Br2, <- LL, <- QQ. unfold half. field. repeat split; lra. }
    rewrite SQ. cbn [obind]. rewrite EM. eexists. exists em. eexists. split; [exact HR|]. split; [reflexivity|]. split; [reflexivity|]. split; [reflexivity|].
    split.
    { destruct (esys_ok c Bx r) as (em' & EM' & LEN & _); [unfold eos_ok; rewrite GE; exact E|exact K|].
      unfold esys in EM'. rewrite M, GE, EM in EM'. injection EM' as <-. unfold nwave in LEN. rewrite GE, M in LEN. exact LEN. }
    split; [sorted_tac|]. split; [exact LIN|]. intros k. rewrite AA. clear EM LIN K HR AP AA SQ H1 H2 G.
    unfold to_vec. rewrite GE, M. cbn [app conserved physical_flux ud umx umy umz ue uby ubz vzip A_adb_hyd]. rewrite GE. cbv zeta.
    unfold total_energy, total_pressure, gas_pressure, v_dot_b, magnetic_pressure, kinetic_energy, bnorm. rewrite GE, M, Bl1, Bl2, Br1, Br2, <- LL, <- QQ. subst r. cbn [r_v1 r_v2 r_v3 r_h].
    unfold total_energy, magnetic_pressure, kinetic_energy, bnorm. rewrite GE, M, Bl1, Bl2, Br1, Br2, <- LL, <- QQ.
    destruct k as [|[|[|[|[|k]]]]]; cbn [nth]; unfold half; try (field; repeat split; lra).
    destruct k; cbn [nth]; ring.
  - (* isothermal hydrodynamics *)
    destruct (Fl eq_refl) as [Bl1 Bl2]. destruct (Fr eq_refl) as [Br1 Br2].
    destruct (lin_iso_hyd a0 r E) as (em & EM & LIN).
    rewrite EM. eexists. exists em. eexists. split; [exact HR|]. split; [reflexivity|]. split; [reflexivity|]. split; [reflexivity|].
    split.
    { destruct (esys_ok c Bx r) as (em' & EM' & LEN & _); [unfold eos_ok; rewrite GE; exact E|exact K|].
      unfold esys in EM'. rewrite M, GE, EM in EM'. injection EM' as <-. unfold nwave in LEN. rewrite GE, M in LEN. exact LEN. }
    split; [sorted_tac|]. split; [exact LIN|]. intros k. clear EM LIN K HR G.
    unfold to_vec. rewrite GE, M. cbn [app conserved physical_flux ud umx umy umz ue uby ubz vzip A_iso_hyd]. cbv zeta.
    unfold total_pressure, gas_pressure, v_dot_b, magnetic_pressure, kinetic_energy, bnorm. rewrite GE, M, Bl1, Bl2, Br1, Br2, <- LL, <- QQ. subst r. cbn [r_v1 r_v2 r_v3].
    destruct k as [|[|[|[|k]]]]; cbn [nth]; unfold half; try (field; repeat split; lra).
    destruct k; cbn [nth]; ring.
Qed.

Lemma csum_weight f k : forall ev a rr,
  csum f k (combine (combine ev a) rr) = csum (fun _ => 1) k (combine (combine ev (vzip (fun s x => f s * x) ev a)) rr).
Proof.
  induction ev as [|s ev IH]; intros [|x a] [|v rr]; cbn [combine vzip csum]; try reflexivity.
  rewrite (IH a rr). ring.
Qed.
Lemma csum_id n ev em A w : linear_system n ev em A -> length w = n ->
  forall k, csum (fun s => s) k (waves_of ev em w) = nth k (A w) 0.
Proof.
  intros (L1 & L2 & L3) H k. unfold waves_of. rewrite csum_weight.
  change (fun s x : R => s * x) with Rmult. rewrite <- L3 by exact H. apply L2, L1, H.
Qed.
Lemma vsub_length u v : length u = length v -> length (vsub u v) = length u.
Proof.
  unfold vsub. revert v. induction u as [|x u IH]; intros [|y v]; cbn [vzip length]; try discriminate; [reflexivity|].
  intros H. injection H as H. rewrite (IH v H). reflexivity.
Qed.
Lemma nth_vsub : forall u v k, length u = length v -> nth k (vsub u v) 0 = nth k u 0 - nth k v 0.
Proof.
  unfold vsub. induction u as [|x u IH]; intros [|y v]; cbn [vzip length]; try discriminate.
  - intros [|k] _; cbn [nth]; ring.
  - intros [|k] H; cbn [nth]; [reflexivity|]. apply IH. injection H as H. exact H.
Qed.

(** ** The theorem *)
Theorem C56_roe_waves :
  forall c Wl Wr Bx, eos_ok c -> gamma_ok c -> admissible c Wl -> admissible c Wr -> warm c Wl -> warm c Wr ->
    let Ul := conserved c Wl Bx in let Ur := conserved c Wr Bx in
    let Fl := to_vec c (physical_flux c Wl Bx) in let Fr := to_vec c (physical_flux c Wr Bx) in
    exists r ev em,
      roe_avg c Ul Ur Wl Wr Bx = Some r /\ eigenvalues c Bx r = Some ev /\ esys c Bx r = Some em /\
      let waves := roe_waves c Ul Ur ev em in
      forall k,
        (* the jumps add up to the jump of the state *)
        csum (fun _ => 1) k waves = nth k (to_vec c Ur) 0 - nth k (to_vec c Ul) 0 /\
        (* the jumps times the speeds add up to the jump of the flux, and in MHD an error
           in the normal momentum and the energy *)
        csum (fun s => s) k waves = nth k Fr 0 - nth k Fl 0
          + roe_defect c Wl Wr * nth k (to_vec c (Cons1 0 1 0 0 (r_v1 r) 0 0 [])) 0.
Proof.
  intros c Wl Wr Bx E G A1 A2 H1 H2 Ul Ur Fl Fr.
  destruct (roe_lin c Wl Wr Bx E G A1 A2 H1 H2) as (r & ev & em & A & R1 & R2 & R3 & R4 & R5 & R6 & R7 & R8).
  exists r, ev, em. split; [exact R1|]. split; [exact R2|]. split; [exact R3|]. cbv zeta. intros k.
  assert (LV : length (vsub (to_vec c Ur) (to_vec c Ul)) = nwave c) by (rewrite vsub_length by (rewrite !to_vec_length; reflexivity); apply to_vec_length).
  change (roe_waves c Ul Ur ev em) with (waves_of ev em (vsub (to_vec c Ur) (to_vec c Ul))).
  split.
  - destruct R7 as (_ & L2 & _). rewrite (L2 _ LV). apply nth_vsub. rewrite !to_vec_length. reflexivity.
  - rewrite (csum_id (nwave c) ev em A _ R7 LV). apply R8.
Qed.
Print Assumptions C56_roe_waves.

(** Cases without error: no field, equal densities, or an adiabatic index of 2. *)
Definition exact_pair (c : gcfg) (Wl Wr : prim1) : Prop :=
  g_mhd c = false \/ wd Wl = wd Wr \/ g_eos c = Adiabatic 2.
Lemma no_defect c Wl Wr : exact_pair c Wl Wr -> roe_defect c Wl Wr = 0.
Proof.
  unfold roe_defect, exact_pair. destruct (g_mhd c); [|reflexivity]. cbv zeta. intros [H|[H|H]]; [discriminate| |].
  - rewrite H. unfold Rdiv. ring.
  - rewrite H. unfold Rdiv. ring.
Qed.

Theorem C56_roe_conservative :
  forall c Wl Wr Bx, eos_ok c -> gamma_ok c -> admissible c Wl -> admissible c Wr -> warm c Wl -> warm c Wr ->
    exact_pair c Wl Wr ->
    let Ul := conserved c Wl Bx in let Ur := conserved c Wr Bx in
    let Fl := to_vec c (physical_flux c Wl Bx) in let Fr := to_vec c (physical_flux c Wr Bx) in
    exists r ev em,
      roe_avg c Ul Ur Wl Wr Bx = Some r /\ eigenvalues c Bx r = Some ev /\ esys c Bx r = Some em /\
      let waves := roe_waves c Ul Ur ev em in
      forall k,
        csum (fun _ => 1) k waves = nth k (to_vec c Ur) 0 - nth k (to_vec c Ul) 0 /\
        csum (fun s => s) k waves = nth k Fr 0 - nth k Fl 0.
Proof.
  intros c Wl Wr Bx E G A1 A2 H1 H2 X Ul Ur Fl Fr.
  destruct (C56_roe_waves c Wl Wr Bx E G A1 A2 H1 H2) as (r & ev & em & R1 & R2 & R3 & R4).
  exists r, ev, em. split; [exact R1|]. split; [exact R2|]. split; [exact R3|]. cbv zeta. intros k.
  destruct (R4 k) as [S1 S2]. split; [exact S1|]. etransitivity; [exact S2|]. rewrite no_defect by exact X. unfold Fr, Fl. ring.
Qed.
Print Assumptions C56_roe_conservative.

(** In MHD the statement is false when the densities differ: an isothermal
    example with densities 1 and 4 and transverse fields 0 and 1. *)
Theorem C56_roe_mhd_refuted :
  exists c Wl Wr Bx, eos_ok c /\ gamma_ok c /\ admissible c Wl /\ admissible c Wr /\
    forall r ev em,
      roe_avg c (conserved c Wl Bx) (conserved c Wr Bx) Wl Wr Bx = Some r -> eigenvalues c Bx r = Some ev -> esys c Bx r = Some em ->
      csum (fun s => s) 1 (roe_waves c (conserved c Wl Bx) (conserved c Wr Bx) ev em) <>
      umx (physical_flux c Wr Bx) - umx (physical_flux c Wl Bx).
Proof.
  set (c := GCfg true (Isothermal 1)). set (Wl := Prim1 1 0 0 0 0 0 0 []). set (Wr := Prim1 4 0 0 0 0 1 0 []).
  exists c, Wl, Wr, 1.
  assert (E : eos_ok c) by (unfold eos_ok, c; cbn; lra).
  assert (G : gamma_ok c) by (unfold gamma_ok, c; cbn; trivial).
  assert (A1 : admissible c Wl) by (unfold admissible, wf_prim, c, Wl; cbn; repeat split; try discriminate; lra).
  assert (A2 : admissible c Wr) by (unfold admissible, wf_prim, c, Wr; cbn; repeat split; try discriminate; lra).
  split; [exact E|]. split; [exact G|]. split; [exact A1|]. split; [exact A2|].
  intros r ev em H1 H2 H3.
  destruct (C56_roe_waves c Wl Wr 1 E G A1 A2 I I) as (r' & ev' & em' & R1 & R2 & R3 & R4).
  rewrite H1 in R1. injection R1 as <-. rewrite H2 in R2. injection R2 as <-. rewrite H3 in R3. injection R3 as <-.
  destruct (R4 1%nat) as [_ S]. rewrite S.
  unfold roe_defect. cbn [c g_mhd g_eos wd Wl Wr wby wbz]. rewrite sqrt_1.
  replace (sqrt 4) with 2 by (symmetry; replace 4 with (2 * 2) by ring; apply sqrt_square; lra).
  unfold to_vec. cbn [c g_mhd g_eos app umx nth]. intros H. cbv zeta in H.
  assert (Z : 1 * ((2 - 1) * (2 - 1) / (2 * (1 * 2))) * ((2 * 0 + 1 * 1) / (1 + 2) * (1 - 0) + (2 * 0 + 1 * 0) / (1 + 2) * (0 - 0)) = / 12) by field.
  rewrite Z in H. lra.
Qed.
Print Assumptions C56_roe_mhd_refuted.

(** ** A single discontinuity is resolved exactly *)

(** The jump conditions of a discontinuity that moves with speed [s]. *)
Definition fields : list (cons1 -> R) := [ud; umx; umy; umz; ue; uby; ubz].
Definition jump_condition (c : gcfg) (Wl Wr : prim1) (Bx s : R) : Prop :=
  Forall (fun f => f (physical_flux c Wr Bx) - f (physical_flux c Wl Bx) =
                   s * (f (conserved c Wr Bx) - f (conserved c Wl Bx))) fields.

Definition one_speed (s : R) (w : R * R * list R) : Prop := match w with (ev, a, _) => a = 0 \/ ev = s end.

Lemma csum_one f s k : forall waves, Forall (one_speed s) waves -> csum f k waves = f s * csum (fun _ => 1) k waves.
Proof.
  induction waves as [|[[e a] r] waves IH]; intros H; cbn [csum]; [ring|]. inversion H as [|? ? H1 H2]; subst.
  rewrite IH by exact H2. destruct H1 as [-> | ->]; ring.
Qed.

Lemma nth_add : forall u r x k, length u = length r ->
  nth k (vzip (fun y z => y + x * z) u r) 0 = nth k u 0 + x * nth k r 0.
Proof.
  induction u as [|y u IH]; intros [|z r]; cbn [vzip length]; try discriminate.
  - intros x [|k] _; cbn [nth]; ring.
  - intros x [|k] H; cbn [nth]; [reflexivity|]. apply IH. injection H as H. exact H.
Qed.
Lemma len_add u r x : length u = length r -> length (vzip (fun y z => y + x * z) u r) = length u.
Proof.
  revert r. induction u as [|y u IH]; intros [|z r]; cbn [vzip length]; try discriminate; [reflexivity|].
  intros H. injection H as H. rewrite (IH r H). reflexivity.
Qed.

(** No intermediate state differs from both sides. *)
Lemma test_one c Bx n s ul ur : forall waves u,
  length u = n -> length ul = n -> length ur = n ->
  Forall (fun w => length (snd w) = n) waves ->
  Forall (one_speed s) waves ->
  StronglySorted Rle (map (fun w => fst (fst w)) waves) ->
  (forall k, nth k u 0 + csum (fun _ => 1) k waves = nth k ur 0) ->
  (u = ul \/ match waves with [] => True | w :: _ => s <= fst (fst w) end) ->
  bad_state c Bx ul = false -> bad_state c Bx ur = false ->
  test_inter c Bx u waves = false.
Proof.
  induction waves as [|[[e0 a0] r0] waves IH]; intros u Lu Ll Lr LW OS ST SUM INV B1 B2; [reflexivity|].
  destruct waves as [|[[e1 a1] r1] rest]; [reflexivity|].
  change (test_inter c Bx u ((e0, a0, r0) :: (e1, a1, r1) :: rest)) with
    (let u' := vzip (fun x r => x + a0 * r) u r0 in
      if Rlt_dec e0 e1 then if bad_state c Bx u' then true else test_inter c Bx u' ((e1, a1, r1) :: rest)
      else test_inter c Bx u' ((e1, a1, r1) :: rest)).
  cbv zeta. set (u' := vzip _ u r0).
  inversion LW as [|? ? LW0 LW1]; subst. inversion OS as [|? ? OS0 OS1]; subst.
  cbn [map] in ST. inversion ST as [|? ? ST1 ST0]; subst. cbn [fst snd] in *.
  assert (E01 : e0 <= e1) by (inversion ST0; subst; assumption).
  assert (Lu' : length u' = length u) by (apply len_add; symmetry; exact LW0).
  assert (SUM' : forall k, nth k u' 0 + csum (fun _ => 1) k ((e1, a1, r1) :: rest) = nth k ur 0).
  { intros k. rewrite <- SUM. unfold u'. rewrite nth_add by (symmetry; exact LW0). cbn [csum]. ring. }
  assert (UEQ : a0 = 0 -> u' = u).
  { intros ->. apply (nth_ext _ _ 0 0); [exact Lu'|]. intros k _. unfold u'. rewrite nth_add by (symmetry; exact LW0). ring. }
  assert (INV' : u' = ul \/ s <= e0).
  { destruct INV as [INV|INV]; [|right; exact INV]. destruct OS0 as [Z | ->]; [left; rewrite (UEQ Z); exact INV|right; apply Rle_refl]. }
  assert (REC : test_inter c Bx u' ((e1, a1, r1) :: rest) = false).
  { apply IH; try assumption; try congruence. destruct INV'; [left; assumption|right; cbn [fst]; lra]. }
  destruct (Rlt_dec e0 e1) as [LT|]; [|exact REC].
  assert (GOOD : bad_state c Bx u' = false).
  { destruct INV' as [-> | S0]; [exact B1|].
    assert (Z : forall k, csum (fun _ => 1) k ((e1, a1, r1) :: rest) = 0).
    { assert (AZ : Forall (fun w => match w with (_, a, _) => a = 0 end) ((e1, a1, r1) :: rest)).
      { apply Forall_forall. intros [[e a] r'] IN. assert (O := proj1 (Forall_forall _ _) OS1 _ IN).
        destruct O as [O|O]; [exact O|]. exfalso.
        assert (e1 <= e); [|lra]. destruct IN as [IN|IN]; [injection IN as <- _ _; lra|].
        cbn [map] in ST1. inversion ST1 as [|? ? _ ST2]; subst. cbn [fst] in ST2.
        apply (proj1 (Forall_forall _ _) ST2). apply in_map_iff. exists (s, a, r'). split; [reflexivity|exact IN]. }
      intros k. clear - AZ. induction AZ as [|[[e a] r'] ws H _ IH]; cbn [csum]; [reflexivity|]. rewrite H, IH. ring. }
    replace u' with ur; [exact B2|]. apply (nth_ext _ _ 0 0); [congruence|]. intros k _. rewrite <- SUM', Z. ring. }
  rewrite GOOD. exact REC.
Qed.

Lemma sum_nth etah k : forall waves F n, length F = n -> Forall (fun w => length (snd w) = n) waves ->
  nth k (fold_left (fun F w => match w with (ev, a, r) => vzip (fun f x => f - half * MAX (Rabs ev) etah * a * x) F r end) waves F) 0
  = nth k F 0 - half * csum (fun s => MAX (Rabs s) etah) k waves.
Proof.
  induction waves as [|[[e a] r] waves IH]; intros F n L H; cbn [fold_left csum]; [ring|].
  inversion H as [|? ? H0 H1]; subst. cbn [snd] in H0.
  assert (Q : vzip (fun f x => f - half * MAX (Rabs e) etah * a * x) F r = vzip (fun y z => y + (- (half * MAX (Rabs e) etah * a)) * z) F r).
  { clear. revert r. induction F as [|f F IH]; intros [|x r]; cbn [vzip]; try reflexivity. rewrite IH. f_equal. ring. }
  rewrite Q. rewrite (IH _ (length F)); [|apply len_add; symmetry; exact H0|exact H1].
  rewrite nth_add by (symmetry; exact H0). ring.
Qed.
Lemma half_nth : forall u v k, length u = length v -> nth k (vzip (fun a b => half * (a + b)) u v) 0 = half * (nth k u 0 + nth k v 0).
Proof.
  induction u as [|x u IH]; intros [|y v]; cbn [vzip length]; try discriminate.
  - intros [|k] _; cbn [nth]; ring.
  - intros [|k] H; cbn [nth]; [reflexivity|]. apply IH. injection H as H. exact H.
Qed.
Lemma half_len : forall u v, length u = length v -> length (vzip (fun a b => half * (a + b)) u v) = length u.
Proof.
  induction u as [|x u IH]; intros [|y v]; cbn [vzip length]; try discriminate; [reflexivity|].
  intros H. injection H as H. rewrite (IH v H). reflexivity.
Qed.

Lemma fields_vec c U V s G0 : Forall (fun f => f U - f V = s * (f G0)) fields ->
  forall k, nth k (to_vec c U) 0 - nth k (to_vec c V) 0 = s * nth k (to_vec c G0) 0.
Proof.
  intros H. unfold fields in H. repeat match goal with H : Forall _ (_ :: _) |- _ => inversion H; clear H; subst end.
  intros k. unfold to_vec. destruct (g_mhd c), (g_eos c);
    do 7 (destruct k as [|k]; [cbn [nth app]; first [assumption|ring]|]); cbn [nth app]; destruct k; cbn [nth]; ring.
Qed.

Lemma vec_fields c F V : wf_cons c F -> wf_cons c V ->
  (forall k, nth k (to_vec c F) 0 = nth k (to_vec c V) 0) -> Forall (fun f => f F = f V) fields.
Proof.
  intros [F1 F2] [V1 V2] H. unfold to_vec in H.
  assert (H0 := H 0%nat). assert (H1 := H 1%nat). assert (H2 := H 2%nat). assert (H3 := H 3%nat).
  assert (H4 := H 4%nat). assert (H5 := H 5%nat). assert (H6 := H 6%nat). clear H.
  assert (B : uby F = uby V /\ ubz F = ubz V).
  { destruct (g_mhd c); [|destruct (F1 eq_refl) as [-> ->]; destruct (V1 eq_refl) as [-> ->]; split; reflexivity].
    destruct (g_eos c); cbn [app nth] in *; split; assumption. }
  assert (E : ue F = ue V) by (destruct (g_eos c); [destruct (g_mhd c); cbn [app nth] in *; assumption|rewrite F2, V2; reflexivity]).
  unfold fields. repeat apply Forall_cons; try apply Forall_nil; try tauto; cbn [app nth] in *; assumption.
Qed.

Theorem C56_isolated_discontinuity :
  forall c Wl Wr Bx s, eos_ok c -> gamma_ok c -> admissible c Wl -> admissible c Wr -> warm c Wl -> warm c Wr ->
    exact_pair c Wl Wr -> jump_condition c Wl Wr Bx s ->
    exists F, roe_flux c 0 (conserved c Wl Bx) (conserved c Wr Bx) Wl Wr Bx = Some F /\
      (0 <= s -> Forall (fun f => f F = f (physical_flux c Wl Bx)) fields) /\
      (s <= 0 -> Forall (fun f => f F = f (physical_flux c Wr Bx)) fields).
Proof.
  intros c Wl Wr Bx s E G A1 A2 H1 H2 X J.
  destruct (roe_lin c Wl Wr Bx E G A1 A2 H1 H2) as (r & ev & em & A & R1 & R2 & R3 & R4 & R5 & R6 & R7 & R8).
  unfold roe_flux. rewrite R1. cbn [obind]. rewrite R2. cbn [obind]. rewrite R3. cbn [obind]. cbv zeta.
  rewrite !flux_side_spec by (apply A1 || apply A2).
  set (ul := to_vec c (conserved c Wl Bx)) in *. set (ur := to_vec c (conserved c Wr Bx)) in *.
  set (fl := to_vec c (physical_flux c Wl Bx)) in *. set (fr := to_vec c (physical_flux c Wr Bx)) in *.
  assert (LV : length (vsub ur ul) = nwave c) by (rewrite vsub_length by (unfold ur, ul; rewrite !to_vec_length; reflexivity); apply to_vec_length).
  assert (NV : forall k, nth k (vsub ur ul) 0 = nth k ur 0 - nth k ul 0) by (intros k; apply nth_vsub; unfold ur, ul; rewrite !to_vec_length; reflexivity).
  (* the jump of the flux is s times the jump of the state *)
  assert (JF : forall k, nth k fr 0 - nth k fl 0 = s * (nth k ur 0 - nth k ul 0)).
  { set (D := Cons1 (ud (conserved c Wr Bx) - ud (conserved c Wl Bx)) (umx (conserved c Wr Bx) - umx (conserved c Wl Bx))
       (umy (conserved c Wr Bx) - umy (conserved c Wl Bx)) (umz (conserved c Wr Bx) - umz (conserved c Wl Bx))
       (ue (conserved c Wr Bx) - ue (conserved c Wl Bx)) (uby (conserved c Wr Bx) - uby (conserved c Wl Bx)) (ubz (conserved c Wr Bx) - ubz (conserved c Wl Bx)) []).
    intros k. unfold fr, fl. rewrite (fields_vec c _ _ s D).
    - f_equal. unfold ur, ul, to_vec. destruct (g_mhd c), (g_eos c);
      do 7 (destruct k as [|k]; [cbn [nth app D ud umx umy umz ue uby ubz]; first [reflexivity|ring]|]); cbn [nth app]; destruct k; cbn [nth]; ring.
    - unfold jump_condition, fields in *. repeat match goal with H : Forall _ (_ :: _) |- _ => inversion H; clear H; subst end.
      repeat apply Forall_cons; try apply Forall_nil; assumption. }
  assert (WV : vsub ur ul = vzip (fun l r => r - l) ul ur) by reflexivity.
  change (roe_waves c (conserved c Wl Bx) (conserved c Wr Bx) ev em) with (waves_of ev em (vsub ur ul)).
  (* so every wave that carries a jump has speed s *)
  assert (AW : A (vsub ur ul) = map (fun x => s * x) (vsub ur ul)).
  { apply (nth_ext _ _ 0 0); [rewrite map_length; destruct R7 as (L1 & _); rewrite (L1 _ LV); symmetry; exact LV|].
    intros k _. rewrite R8, (no_defect c Wl Wr X), Rmult_0_l, Rplus_0_r, JF.
    replace 0 with (s * 0) at 3 by ring. rewrite map_nth. rewrite NV. reflexivity. }
  assert (OS : Forall (one_speed s) (waves_of ev em (vsub ur ul))).
  { destruct R7 as (_ & _ & L3). specialize (L3 _ LV). rewrite AW in L3. unfold waves_of.
    assert (VD : forall l v, vdot l (map (fun x => s * x) v) = s * vdot l v).
    { induction l as [|x l IH]; intros [|y v]; cbn [vdot map]; try ring. rewrite IH. ring. }
    rewrite (map_ext _ (fun l => s * vdot l (vsub ur ul))) in L3 by (intros; apply VD).
    clear - L3. set (v := vsub ur ul) in *. clearbody v.
    revert L3. generalize (e_r em) as rr. generalize (e_l em) as ll. revert ev.
    induction ev as [|x ev IH]; intros ll rr L3; cbn [combine]; [constructor|].
    destruct ll as [|l ll]; cbn [map vzip combine] in *; [constructor|]. destruct rr as [|v0 rr]; cbn [combine]; [constructor|].
    injection L3 as L0 L3. constructor; [|apply IH, L3]. unfold one_speed.
    destruct (Req_dec (vdot l v) 0) as [Z|Z]; [left; exact Z|right]. apply (Rmult_eq_reg_r (vdot l v)); [symmetry; exact L0|exact Z]. }
  set (waves := waves_of ev em (vsub ur ul)) in *.
  assert (CS : forall k, csum (fun _ => 1) k waves = nth k ur 0 - nth k ul 0) by (intros k; unfold waves; destruct R7 as (_ & L2 & _); rewrite (L2 _ LV); apply NV).
  assert (EVS : map (fun w => fst (fst w)) waves = firstn (length waves) ev).
  { unfold waves, waves_of. clear. generalize (e_r em) as rr. generalize (map (fun l => vdot l (vsub ur ul)) (e_l em)) as aa. revert ev.
    induction ev as [|x ev IH]; intros [|a aa] [|v rr]; cbn [combine map length firstn]; try reflexivity. rewrite IH. reflexivity. }
  assert (ST : StronglySorted Rle (map (fun w => fst (fst w)) waves)).
  { rewrite EVS. clear - R6. generalize (length waves) as n. induction R6 as [|x l ST IH F]; intros [|n]; cbn [firstn]; try constructor; [apply IH|].
    clear - F. revert n. induction F; intros [|n]; cbn [firstn]; constructor; [assumption|apply IHF]. }
  assert (LW : Forall (fun w => length (snd w) = nwave c) waves).
  { apply Forall_forall. intros [[x y] z] IN. cbn [snd]. apply in_combine_r in IN. apply (proj1 (Forall_forall _ _) R5). exact IN. }
  assert (INE : forall w, In w waves -> In (fst (fst w)) ev).
  { intros [[x y] z] IN. cbn [fst]. apply in_combine_l in IN. apply in_combine_l in IN. exact IN. }
  (* unless the fluxes agree, s is one of the speeds *)
  assert (SE : (forall k, nth k fl 0 = nth k fr 0) \/ In s ev).
  { destruct (Forall_Exists_dec (fun w : R * R * list R => snd (fst w) = 0) (fun w => Req_EM_T (snd (fst w)) 0) waves) as [Z|Z].
    - left. intros k. assert (C0 : csum (fun _ => 1) k waves = 0).
      { clear - Z. induction Z as [|[[x y] z] ws H _ IH]; cbn [csum]; [reflexivity|]. cbn [fst snd] in H. rewrite H, IH. ring. }
      rewrite CS in C0. assert (Q := JF k). rewrite C0, Rmult_0_r in Q. lra.
    - right. apply Exists_exists in Z. destruct Z as ([[x y] z] & IN & NZ). cbn [fst snd] in NZ.
      assert (O := proj1 (Forall_forall _ _) OS _ IN). destruct O as [O|O]; [contradiction|]. subst x. exact (INE _ IN). }
  assert (HDL : forall x, In x ev -> hd 0 ev <= x).
  { intros x IN. destruct ev as [|e0 ev']; [destruct IN|]. cbn [hd]. inversion R6 as [|? ? _ Q]; subst. destruct IN as [->|IN]; [lra|]. exact (proj1 (Forall_forall _ _) Q _ IN). }
  assert (LAL : forall x, In x ev -> x <= last ev 0).
  { clear - R6. induction R6 as [|y l ST IH F]; intros x IN; [destruct IN|]. destruct l as [|z l]; [destruct IN as [->|[]]; cbn; lra|].
    change (last (y :: z :: l) 0) with (last (z :: l) 0). destruct IN as [->|IN]; [|apply IH, IN].
    assert (x <= z) by (inversion F; assumption). assert (z <= last (z :: l) 0) by (apply IH; left; reflexivity). lra. }
  assert (WFl : wf_cons c (physical_flux c Wl Bx)) by (apply wf_flux, A1).
  assert (WFr : wf_cons c (physical_flux c Wr Bx)) by (apply wf_flux, A2).
  destruct (Rle_dec 0 (hd 0 ev)) as [P|P].
  { eexists. split; [reflexivity|]. split; intros S0; [repeat constructor|].
    apply (vec_fields c); [exact WFl|exact WFr|]. fold fl fr. destruct SE as [SE|SE]; [exact SE|].
    assert (s = 0) by (specialize (HDL _ SE); lra). subst s. intros k. assert (Q := JF k). lra. }
  destruct (Rle_dec (last ev 0) 0) as [P'|P'].
  { eexists. split; [reflexivity|]. split; intros S0; [|repeat constructor].
    apply (vec_fields c); [exact WFr|exact WFl|]. fold fl fr. destruct SE as [SE|SE]; [intros k; symmetry; apply SE|].
    assert (s = 0) by (specialize (LAL _ SE); lra). subst s. intros k. assert (Q := JF k). lra. }
  rewrite (test_one c Bx (nwave c) s ul ur).
  - set (V := roe_sum fl fr waves 0).
    assert (LF : length fl = length fr) by (unfold fl, fr; rewrite !to_vec_length; reflexivity).
    assert (VK : forall k, nth k V 0 = half * (nth k fl 0 + nth k fr 0) - half * (Rabs s * (nth k ur 0 - nth k ul 0))).
    { intros k. unfold V, roe_sum. rewrite (sum_nth 0 k waves _ (nwave c)); [|rewrite half_len by exact LF; apply to_vec_length|exact LW].
      rewrite half_nth by exact LF. rewrite (csum_one _ s) by exact OS. rewrite CS. f_equal. f_equal. f_equal.
      unfold MAX. assert (Z := Rabs_pos s). destruct (Rlt_dec _ _); lra. }
    assert (TV : forall k, nth k (to_vec c (with_scalars (of_vec c V) Wl Wr)) 0 = nth k V 0 \/ (nwave c <= k)%nat).
    { intros k. unfold nwave, to_vec, with_scalars, of_vec. cbn [ud umx umy umz ue uby ubz].
      destruct (g_mhd c), (g_eos c); cbn [app]; do 7 (destruct k as [|k]; [first [left; reflexivity|right; lia]|]); right; lia. }
    assert (TV' : forall k, nth k (to_vec c (with_scalars (of_vec c V) Wl Wr)) 0 = half * (nth k fl 0 + nth k fr 0) - half * (Rabs s * (nth k ur 0 - nth k ul 0))).
    { intros k. destruct (TV k) as [Q|Q]; [rewrite Q; apply VK|].
      rewrite !(nth_overflow _ 0) by (unfold fl, fr, ul, ur; rewrite to_vec_length; exact Q). ring. }
    assert (WFF : wf_cons c (with_scalars (of_vec c V) Wl Wr)).
    { unfold wf_cons, with_scalars, of_vec. cbn [uby ubz ue]. split; [intros ->; split; reflexivity|destruct (g_eos c); [exact I|reflexivity]]. }
    eexists. split; [reflexivity|]. split; intros S0; (apply (vec_fields c); [exact WFF|assumption|]); intros k; rewrite TV'; fold fl fr; assert (Q := JF k).
    + rewrite Rabs_right by lra. rewrite <- Q. unfold half. lra.
    + rewrite Rabs_left1 by lra. replace (- s * (nth k ur 0 - nth k ul 0)) with (- (nth k fr 0 - nth k fl 0)) by (rewrite Q; ring). unfold half. lra.
  - apply to_vec_length.
  - apply to_vec_length.
  - apply to_vec_length.
  - exact LW.
  - exact OS.
  - exact ST.
  - intros k. rewrite CS. fold ul. lra.
  - left. reflexivity.
  - apply bad_state_false; assumption.
  - apply bad_state_false; assumption.
Qed.
Print Assumptions C56_isolated_discontinuity.

(** ** The hypotheses are satisfiable: a standing isothermal shock, a moving
    contact and a rotation of the field. *)
Example ex_shock : let c := GCfg false (Isothermal 1) in
  let Wl := Prim1 1 2 0 0 0 0 0 [] in let Wr := Prim1 4 (/ 2) 0 0 0 0 0 [] in
  eos_ok c /\ gamma_ok c /\ admissible c Wl /\ admissible c Wr /\ warm c Wl /\ warm c Wr /\
  exact_pair c Wl Wr /\ jump_condition c Wl Wr 0 0 /\ conserved c Wl 0 <> conserved c Wr 0.
Proof.
  intros c Wl Wr. unfold eos_ok, gamma_ok, admissible, wf_prim, warm, exact_pair, jump_condition, fields, c, Wl, Wr.
  repeat match goal with |- _ /\ _ => split end; try (cbn; lra); try (cbn; tauto); try (cbn; discriminate); try (cbn; intros; split; reflexivity).
  - repeat constructor; cbn; unfold total_energy, total_pressure, gas_pressure, magnetic_pressure, v_dot_b, bnorm; cbn; lra.
  - cbn. intros H. injection H. lra.
Qed.
Example ex_contact : let c := GCfg false (Adiabatic 2) in
  let Wl := Prim1 1 3 5 0 2 0 0 [] in let Wr := Prim1 4 3 7 1 2 0 0 [] in
  eos_ok c /\ gamma_ok c /\ admissible c Wl /\ admissible c Wr /\ warm c Wl /\ warm c Wr /\
  exact_pair c Wl Wr /\ jump_condition c Wl Wr 0 3.
Proof.
  intros c Wl Wr. unfold eos_ok, gamma_ok, admissible, wf_prim, warm, exact_pair, jump_condition, fields, sound2, c, Wl, Wr. assert (T := TINY_small). assert (T' := TINY_pos).
  cbn [g_mhd g_eos wd wp wby wbz].
  repeat match goal with |- _ /\ _ => split end; try lra; try tauto; try discriminate; try (intros; lra); try (left; reflexivity).
  repeat constructor; cbn; unfold total_energy, kinetic_energy, total_pressure, gas_pressure, magnetic_pressure, v_dot_b, bnorm; cbn; lra.
Qed.
Example ex_rotation : let c := GCfg true (Adiabatic (3 / 2)) in
  let Wl := Prim1 4 0 0 0 2 1 0 [] in let Wr := Prim1 4 0 (- / 2) (/ 2) 2 0 1 [] in
  eos_ok c /\ gamma_ok c /\ admissible c Wl /\ admissible c Wr /\ warm c Wl /\ warm c Wr /\
  exact_pair c Wl Wr /\ jump_condition c Wl Wr (-2) 1.
Proof.
  intros c Wl Wr. unfold eos_ok, gamma_ok, admissible, wf_prim, warm, exact_pair, jump_condition, fields, sound2, c, Wl, Wr. assert (T := TINY_small). assert (T' := TINY_pos).
  cbn [g_mhd g_eos wd wp wby wbz].
  repeat match goal with |- _ /\ _ => split end; try lra; try tauto; try discriminate; try (intros; lra).
  repeat constructor; cbn; unfold total_energy, kinetic_energy, total_pressure, gas_pressure, magnetic_pressure, v_dot_b, bnorm; cbn; lra.
Qed.
