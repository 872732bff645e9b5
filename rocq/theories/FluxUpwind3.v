(** * Supersonic flow in terms of the two states; where HLLC fails (C39, C55) *)
From Coq Require Import Reals List Bool Lra Psatz.
From Verif Require Import GasModel GasSpec ConvProps FluxModel FluxProps FluxProps2 FluxUpwind FluxUpwind2.
Import ListNotations.
Open Scope R_scope.

(** A speed no signal between the two gas states exceeds, in a frame in which they
    are at rest on average: the sound speed of either state, raised by the part
    of the kinetic energy of their relative motion that can become heat. *)
Definition signal_bound (c : gcfg) (Wl Wr : prim1) (s : R) : Prop :=
  0 < s /\
  match g_eos c with
  | Isothermal a => a <= s
  | Adiabatic g =>
      let dv2 := (wvx Wl - wvx Wr) ^ 2 + (wvy Wl - wvy Wr) ^ 2 + (wvz Wl - wvz Wr) ^ 2 in
      sound2 c Wl + (g - 1) / 8 * dv2 <= s ^ 2 /\ sound2 c Wr + (g - 1) / 8 * dv2 <= s ^ 2 /\
      (g - 1) * TINY_NUMBER <= s ^ 2
  end.

Lemma sq_le x y : 0 <= y -> x * x <= y * y -> x <= y.
Proof. intros H1 H2. destruct (Rle_dec x y); [assumption|]. exfalso. assert (y * y < x * x) by (apply Rmult_le_0_lt_compat; lra). lra. Qed.

Lemma bound_sound c Wl Wr s : eos_ok c -> signal_bound c Wl Wr s -> sound2 c Wl <= s * s /\ sound2 c Wr <= s * s.
Proof.
  intros E [H0 H]. unfold eos_ok, sound2 in *. destruct (g_eos c) as [g|a].
  - set (dv := _ + _ + _) in H. cbv zeta in H.
    assert (0 <= (g - 1) / 8 * dv).
    { apply Rmult_le_pos; [lra|]. unfold dv. repeat apply Rplus_le_le_0_compat; apply pow2_ge_0. }
    replace (s ^ 2) with (s * s) in H by ring. lra.
  - assert (a * a <= s * s) by (apply Rmult_le_compat; lra). lra.
Qed.

Lemma bound_roe c Wl Wr s l q a : eos_ok c -> signal_bound c Wl Wr s -> 0 < l -> 0 < q -> 0 < a ->
  match g_eos c with
    | Isothermal b => a = b
    | Adiabatic g =>
        a * a = (g - 1) * TINY_NUMBER \/
        (l + q) * (a * a) =  l * sound2 c Wl + q * sound2 c Wr +
        (g - 1) / 2 * (l * q / (l + q)) *
        ((wvx Wl - wvx Wr) * (wvx Wl - wvx Wr) + (wvy Wl - wvy Wr) * (wvy Wl - wvy Wr) + (wvz Wl - wvz Wr) * (wvz Wl - wvz Wr))
    end -> a <= s.
Proof.
  intros E [H0 H] HL HQ HA HE. unfold eos_ok in E. destruct (g_eos c) as [g|b]; [|lra].
  cbv zeta in H. replace (s ^ 2) with (s * s) in H by ring.
  apply sq_le; [lra|]. destruct HE as [HE|HE]; [lra|].
  set (dv := (wvx Wl - wvx Wr) * (wvx Wl - wvx Wr) + (wvy Wl - wvy Wr) * (wvy Wl - wvy Wr) + (wvz Wl - wvz Wr) * (wvz Wl - wvz Wr)) in HE.
  assert (D : (wvx Wl - wvx Wr) ^ 2 + (wvy Wl - wvy Wr) ^ 2 + (wvz Wl - wvz Wr) ^ 2 = dv) by (unfold dv; ring).
  rewrite D in H. assert (DP : 0 <= dv) by (unfold dv; repeat apply Rplus_le_le_0_compat; apply Rle_0_sqr).
  apply (Rmult_le_reg_l (l + q)); [lra|]. rewrite HE.
  assert (A : l * q / (l + q) <= (l + q) / 4).
  { apply (Rmult_le_reg_r (l + q)); [lra|]. replace (l * q / (l + q) * (l + q)) with (l * q) by (field; lra).
    assert (Z := Rle_0_sqr (l - q)). unfold Rsqr in Z. lra. }
  assert (B : (g - 1) / 2 * (l * q / (l + q)) * dv <= (g - 1) / 2 * ((l + q) / 4) * dv).
  { apply Rmult_le_compat_r; [exact DP|]. apply Rmult_le_compat_l; lra. }
  destruct H as (H1 & H2 & _).
  assert (l * (sound2 c Wl + (g - 1) / 8 * dv) <= l * (s * s)) by (apply Rmult_le_compat_l; lra).
  assert (q * (sound2 c Wr + (g - 1) / 8 * dv) <= q * (s * s)) by (apply Rmult_le_compat_l; lra).
  lra.
Qed.

(** The wave speeds of supersonic flow have one sign. *)
Lemma supersonic c Wl Wr s : g_mhd c = false -> eos_ok c -> admissible c Wl -> admissible c Wr -> signal_bound c Wl Wr s ->
  exists r ev cl cr vh a, roe_avg c (conserved c Wl 0) (conserved c Wr 0) Wl Wr 0 = Some r /\ eigenvalues c 0 r = Some ev /\
    hd 0 ev = vh - a /\ last ev 0 = vh + a /\ Forall (fun x => vh - a <= x <= vh + a) ev /\ 0 < a <= s /\
    (s <= wvx Wl -> s <= wvx Wr -> s <= vh) /\ (wvx Wl <= - s -> wvx Wr <= - s -> vh <= - s) /\
    hllc_cs c Wl = Some cl /\ hllc_cs c Wr = Some cr /\ 0 < cl <= s /\ 0 < cr <= s /\ cl * cl = sound2 c Wl /\ cr * cr = sound2 c Wr.
Proof.
  intros M E A1 A2 SB.
  destruct (eig_hydro c Wl Wr M E A1 A2) as (r & ev & l & q & vh & a & HR & HE & H1 & H2 & HF & AP & L0 & Q0 & LL & QQ & HV & K & HA).
  destruct (hllc_cs_ok c Wl E A1) as (cl & Hl & C1 & C2). destruct (hllc_cs_ok c Wr E A2) as (cr & Hr & C3 & C4).
  destruct (bound_sound c Wl Wr s E SB) as [B1 B2]. assert (AS := bound_roe c Wl Wr s l q a E SB L0 Q0 AP HA).
  assert (SP : 0 < s) by apply SB.
  exists r, ev, cl, cr, vh, a. do 5 (split; [assumption|]). split; [lra|].
  split.
  { intros X Y. apply (Rmult_le_reg_l (l + q)); [lra|]. rewrite HV.
    assert (l * s <= l * wvx Wl) by (apply Rmult_le_compat_l; lra). assert (q * s <= q * wvx Wr) by (apply Rmult_le_compat_l; lra). lra. }
  split.
  { intros X Y. apply (Rmult_le_reg_l (l + q)); [lra|]. rewrite HV.
    assert (l * wvx Wl <= l * - s) by (apply Rmult_le_compat_l; lra). assert (q * wvx Wr <= q * - s) by (apply Rmult_le_compat_l; lra). lra. }
  do 2 (split; [assumption|]).
  assert (cl <= s) by (apply sq_le; lra). assert (cr <= s) by (apply sq_le; lra). lra.
Qed.

Lemma side_is_cs c W : g_mhd c = false -> eos_ok c -> admissible c W -> exists s, hllc_cs c W = Some s /\ side_speed c (conserved c W 0) W 0 = Some s.
Proof.
  intros M E A. destruct (hllc_cs_ok c W E A) as (s & H & P & S2). exists s. split; [exact H|].
  unfold side_speed. rewrite M.
  assert (X : match g_eos c with Isothermal a => Some (a * a) | Adiabatic g => odiv (g * wp W) (wd W) end = Some (sound2 c W)).
  { unfold sound2. destruct A as (_ & D & _). destruct (g_eos c); [apply odiv_ok; lra|reflexivity]. }
  rewrite X. cbn [obind]. rewrite <- S2.
  assert (0 <= s * s) by apply Rle_0_sqr.
  assert (0 <= s * s * (s * s)) by apply Rle_0_sqr.
  rewrite osqrt_ok by lra. cbn [obind].
  replace ((0 + 0 - s * s) * (0 + 0 - s * s) + 4 * (s * s) * 0) with (s * s * (s * s)) by ring.
  rewrite sqrt_square by assumption.
  replace (half * (0 + 0 + s * s + s * s)) with (s * s) by (unfold half; field).
  rewrite osqrt_ok by assumption. rewrite sqrt_square by lra. reflexivity.
Qed.

Lemma hydro_gamma_ok c : g_mhd c = false -> gamma_ok c.
Proof. intros H H'. congruence. Qed.

Theorem C39_supersonic_right :
  forall c etah Wl Wr s, g_mhd c = false -> eos_ok c -> admissible c Wl -> admissible c Wr ->
    signal_bound c Wl Wr s -> s <= wvx Wl -> s <= wvx Wr ->
    let Ul := conserved c Wl 0 in let Ur := conserved c Wr 0 in
    let F := Some (physical_flux c Wl 0) in
    hlle c Ul Ur Wl Wr 0 = F /\ force c Ul Ur Wl Wr 0 = F /\ roe_flux c etah Ul Ur Wl Wr 0 = F /\
    hllc c Ul Ur Wl Wr = F.
Proof.
  intros c etah Wl Wr s M E A1 A2 SB V1 V2 Ul Ur F. subst Ul Ur.
  assert (G := hydro_gamma_ok c M).
  destruct (supersonic c Wl Wr s M E A1 A2 SB) as (r & ev & cl & cr & vh & a & HR & HE & H1 & H2 & HF & AP & VV & _ & Hl & Hr & C1 & C2 & S1 & S2).
  specialize (VV V1 V2).
  destruct (side_is_cs c Wl M E A1) as (cl' & X1 & X2). destruct (side_is_cs c Wr M E A2) as (cr' & Y1 & Y2).
  assert (cl' = cl) by congruence. assert (cr' = cr) by congruence. subst cl' cr'.
  assert (HS : hll_speeds c (conserved c Wl 0) (conserved c Wr 0) Wl Wr 0 = Some (MIN (vh - a) (wvx Wl - cl), MAX (vh + a) (wvx Wr + cr))).
  { unfold hll_speeds. rewrite HR. cbn [obind]. rewrite HE. cbn [obind]. rewrite X2, Y2. cbn [obind]. rewrite H1, H2. reflexivity. }
  assert (AL : 0 <= MIN (vh - a) (wvx Wl - cl)) by (unfold MIN; destruct (Rlt_dec _ _); lra).
  split; [|split; [|split]].
  - destruct (C39_hlle c Wl Wr 0 E G A1 A2) as (al & ar & _ & _ & X & _ & _ & _ & _ & Q & _).
    rewrite HS in X. injection X as <- <-. apply Q, AL.
  - destruct (C39_force c Wl Wr 0 E G A1 A2) as (al & ar & _ & _ & X & _ & _ & _ & _ & Q & _).
    rewrite HS in X. injection X as <- <-. apply Q, AL.
  - destruct (C39_roe c etah Wl Wr 0 E G A1 A2) as (r' & ev' & X & Y & Q & _).
    rewrite HR in X. injection X as <-. rewrite HE in Y. injection Y as <-. apply Q.
    eapply Forall_impl; [|exact HF]. intros x Hx. cbv beta in Hx. lra.
  - assert (HM : exists al ar am cp, hllc_speeds c (conserved c Wl 0) (conserved c Wr 0) Wl Wr = Some (al, ar, am, cp) /\ 0 <= al /\ 0 < am).
    { unfold hllc_speeds. rewrite HR. cbn [obind]. rewrite HE. cbn [obind]. rewrite Hl, Hr. cbn [obind]. rewrite H1, H2.
    set (ar := MAX _ _). set (al := MIN _ _) in *. cbv zeta. cbn [conserved ud umx].
    assert (R2 : wvx Wr + cr <= ar) by (unfold ar, MAX; destruct (Rlt_dec _ _); lra).
    assert (L2 : al <= wvx Wl - cl) by (unfold al, MIN; destruct (Rlt_dec _ _); lra).
    clearbody al ar.
    destruct A1 as (_ & Dl & Pl). destruct A2 as (_ & Dr & Pr).
    assert (M1 : 0 < wd Wl * (wvx Wl - al)) by (apply Rmult_lt_0_compat; lra).
    assert (M2 : 0 < wd Wr * (ar - wvx Wr)) by (apply Rmult_lt_0_compat; lra).
    set (m := wd Wl * wvx Wl - wd Wl * al + - (wd Wr * wvx Wr - wd Wr * ar)).
    assert (MM : m = wd Wl * (wvx Wl - al) + wd Wr * (ar - wvx Wr)) by (unfold m; ring).
    rewrite odiv_ok by lra. cbn [obind].
    assert (PP : 0 < pgas c Wl /\ pgas c Wr <= wd Wr * (cr * cr)).
    { rewrite S2. unfold pgas, sound2, eos_ok in *. destruct (g_eos c) as [g|b].
      - split; [exact Pl|]. replace (wd Wr * (g * wp Wr / wd Wr)) with (g * wp Wr) by (field; lra).
        assert (0 < (g - 1) * wp Wr) by (apply Rmult_lt_0_compat; lra). lra.
      - split; [apply Rmult_lt_0_compat; [lra|apply Rmult_lt_0_compat; lra]|lra]. }
    assert (AM : 0 < (pgas c Wl + (wvx Wl - al) * (wd Wl * wvx Wl) - (pgas c Wr + (wvx Wr - ar) * (wd Wr * wvx Wr))) * (1 / m)).
    { apply Rmult_lt_0_compat; [|unfold Rdiv; rewrite Rmult_1_l; apply Rinv_0_lt_compat; lra].
      assert (0 < wd Wl * (wvx Wl - al) * wvx Wl) by (apply Rmult_lt_0_compat; lra).
      assert (Z : cr * cr <= (ar - wvx Wr) * wvx Wr) by (apply Rmult_le_compat; lra).
      assert (wd Wr * (cr * cr) <= wd Wr * ((ar - wvx Wr) * wvx Wr)) by (apply Rmult_le_compat_l; lra). lra. }
    do 4 eexists. split; [reflexivity|]. split; [exact AL|exact AM]. }
    destruct HM as (al & ar & am & cp & HM & LM1 & LM2). unfold hllc. rewrite HM. cbn [obind].
    rewrite !flux_line_spec by (apply A1 || apply A2). destruct A1 as (_ & Dl & Pl).
    destruct (Rlt_dec al 0); [lra|]. destruct (Rle_dec 0 am); [|lra]. rewrite !odiv_ok by lra. cbn [obind].
    unfold F. f_equal. apply upwind_l; [|left; apply Rmult_lt_0_compat; lra]. unfold same7, zip2, along. cbn [ud umx umy umz ue uby ubz].
    set (P := physical_flux c Wl 0). set (Q := physical_flux c Wr 0). clearbody P Q.
    repeat split; try (field; lra). destruct (g_eos c); field; lra.
Qed.
Print Assumptions C39_supersonic_right.

Theorem C39_supersonic_left :
  forall c etah Wl Wr s, g_mhd c = false -> eos_ok c -> admissible c Wl -> admissible c Wr ->
    signal_bound c Wl Wr s -> wvx Wl <= - s -> wvx Wr <= - s ->
    let Ul := conserved c Wl 0 in let Ur := conserved c Wr 0 in
    let F := Some (physical_flux c Wr 0) in
    hlle c Ul Ur Wl Wr 0 = F /\ force c Ul Ur Wl Wr 0 = F /\ roe_flux c etah Ul Ur Wl Wr 0 = F /\
    hllc c Ul Ur Wl Wr = F.
Proof.
  intros c etah Wl Wr s M E A1 A2 SB V1 V2 Ul Ur F. subst Ul Ur.
  assert (G := hydro_gamma_ok c M).
  destruct (supersonic c Wl Wr s M E A1 A2 SB) as (r & ev & cl & cr & vh & a & HR & HE & H1 & H2 & HF & AP & _ & VV & Hl & Hr & C1 & C2 & S1 & S2).
  specialize (VV V1 V2).
  destruct (side_is_cs c Wl M E A1) as (cl' & X1 & X2). destruct (side_is_cs c Wr M E A2) as (cr' & Y1 & Y2).
  assert (cl' = cl) by congruence. assert (cr' = cr) by congruence. subst cl' cr'.
  assert (HS : hll_speeds c (conserved c Wl 0) (conserved c Wr 0) Wl Wr 0 = Some (MIN (vh - a) (wvx Wl - cl), MAX (vh + a) (wvx Wr + cr))).
  { unfold hll_speeds. rewrite HR. cbn [obind]. rewrite HE. cbn [obind]. rewrite X2, Y2. cbn [obind]. rewrite H1, H2. reflexivity. }
  assert (AR : MAX (vh + a) (wvx Wr + cr) <= 0) by (unfold MAX; destruct (Rlt_dec _ _); lra).
  split; [|split; [|split]].
  - destruct (C39_hlle c Wl Wr 0 E G A1 A2) as (al & ar & _ & _ & X & _ & _ & _ & _ & _ & Q & _).
    rewrite HS in X. injection X as <- <-. apply Q, AR.
  - destruct (C39_force c Wl Wr 0 E G A1 A2) as (al & ar & _ & _ & X & _ & _ & _ & _ & _ & Q & _).
    rewrite HS in X. injection X as <- <-. apply Q, AR.
  - destruct (C39_roe c etah Wl Wr 0 E G A1 A2) as (r' & ev' & X & Y & _ & Q & _).
    rewrite HR in X. injection X as <-. rewrite HE in Y. injection Y as <-. apply Q.
    eapply Forall_impl; [|exact HF]. intros x Hx. cbv beta in Hx. lra.
  - assert (HM : exists al ar am cp, hllc_speeds c (conserved c Wl 0) (conserved c Wr 0) Wl Wr = Some (al, ar, am, cp) /\ ar <= 0 /\ am < 0).
    { unfold hllc_speeds. rewrite HR. cbn [obind]. rewrite HE. cbn [obind]. rewrite Hl, Hr. cbn [obind]. rewrite H1, H2.
    set (ar := MAX _ _) in *. set (al := MIN _ _). cbv zeta. cbn [conserved ud umx].
    assert (R2 : wvx Wr + cr <= ar) by (unfold ar, MAX; destruct (Rlt_dec _ _); lra).
    assert (L2 : al <= wvx Wl - cl) by (unfold al, MIN; destruct (Rlt_dec _ _); lra).
    clearbody al ar.
    destruct A1 as (_ & Dl & Pl). destruct A2 as (_ & Dr & Pr).
    assert (M1 : 0 < wd Wl * (wvx Wl - al)) by (apply Rmult_lt_0_compat; lra).
    assert (M2 : 0 < wd Wr * (ar - wvx Wr)) by (apply Rmult_lt_0_compat; lra).
    set (m := wd Wl * wvx Wl - wd Wl * al + - (wd Wr * wvx Wr - wd Wr * ar)).
    assert (MM : m = wd Wl * (wvx Wl - al) + wd Wr * (ar - wvx Wr)) by (unfold m; ring).
    rewrite odiv_ok by lra. cbn [obind].
    assert (PP : 0 < pgas c Wr /\ pgas c Wl <= wd Wl * (cl * cl)).
    { rewrite S1. unfold pgas, sound2, eos_ok in *. destruct (g_eos c) as [g|b].
      - split; [exact Pr|]. replace (wd Wl * (g * wp Wl / wd Wl)) with (g * wp Wl) by (field; lra).
        assert (0 < (g - 1) * wp Wl) by (apply Rmult_lt_0_compat; lra). lra.
      - split; [apply Rmult_lt_0_compat; [lra|apply Rmult_lt_0_compat; lra]|lra]. }
    assert (AM : (pgas c Wl + (wvx Wl - al) * (wd Wl * wvx Wl) - (pgas c Wr + (wvx Wr - ar) * (wd Wr * wvx Wr))) * (1 / m) < 0).
    { assert (IM : 0 < 1 / m) by (unfold Rdiv; rewrite Rmult_1_l; apply Rinv_0_lt_compat; lra).
      assert (0 < wd Wr * (ar - wvx Wr) * - wvx Wr) by (apply Rmult_lt_0_compat; lra).
      assert (Z : cl * cl <= (wvx Wl - al) * - wvx Wl) by (apply Rmult_le_compat; lra).
      assert (wd Wl * (cl * cl) <= wd Wl * ((wvx Wl - al) * - wvx Wl)) by (apply Rmult_le_compat_l; lra).
      assert (0 < (pgas c Wr + (wvx Wr - ar) * (wd Wr * wvx Wr) - (pgas c Wl + (wvx Wl - al) * (wd Wl * wvx Wl))) * (1 / m)) by (apply Rmult_lt_0_compat; lra).
      lra. }
    do 4 eexists. split; [reflexivity|]. split; [exact AR|exact AM]. }
    destruct HM as (al & ar & am & cp & HM & LM1 & LM2). unfold hllc. rewrite HM. cbn [obind].
    rewrite !flux_line_spec by (apply A1 || apply A2). destruct A2 as (_ & Dr & Pr).
    destruct (Rlt_dec 0 ar); [lra|]. destruct (Rle_dec 0 am); [lra|]. rewrite !odiv_ok by lra. cbn [obind].
    unfold F. f_equal. apply upwind_r; [|]. 2:{ assert (0 < wd Wr * - wvx Wr) by (apply Rmult_lt_0_compat; lra). lra. }
    unfold same7, zip2, along. cbn [ud umx umy umz ue uby ubz].
    set (P := physical_flux c Wl 0). set (Q := physical_flux c Wr 0). clearbody P Q.
    repeat split; try (field; lra). destruct (g_eos c); field; lra.
Qed.
Print Assumptions C39_supersonic_left.

Example ex_supersonic :
  let c := GCfg false (Adiabatic (7/5)) in
  let Wl := Prim1 1 6 1 0 1 0 0 [] in let Wr := Prim1 (1/8) 7 0 0 (1/10) 0 0 [] in
  eos_ok c /\ admissible c Wl /\ admissible c Wr /\ signal_bound c Wl Wr 2 /\ 2 <= wvx Wl /\ 2 <= wvx Wr /\ hllc_gamma c.
Proof.
  cbv zeta. assert (T := TINY_small). unfold eos_ok, admissible, wf_prim, signal_bound, sound2, hllc_gamma.
  cbn [g_mhd g_eos wd wvx wvy wvz wp wby wbz wr]. repeat split; try lra; auto.
Qed.

(** ** HLLC with an adiabatic index close to one *)
Lemma sqrt_is x y : 0 <= y -> x = y * y -> sqrt x = y.
Proof. intros H ->. apply sqrt_square, H. Qed.

Section Witness.
Variable g : R.
Hypothesis G1 : 1 < g <= 2.
Let c := GCfg false (Adiabatic g).
(* sound speeds 1 and 19, Roe sound speed 17, both at velocity 17 *)
Let Wl := Prim1 1 17 0 0 (1 / g) 0 0 [].
Let Wr := Prim1 16 17 0 0 (16 * 361 / g) 0 0 [].
Lemma wit_speeds : exists cp, hllc_speeds c (conserved c Wl 0) (conserved c Wr 0) Wl Wr =
  Some (0, 36, (1 / g + 289 - (16 * 361 / g - 16 * 19 * 17)) / 321, cp).
Proof.
  unfold hllc_speeds, roe_avg, c, Wl, Wr, hllc_cs, eigenvalues, pmag, pgas, conserved, total_energy, kinetic_energy, magnetic_pressure, bnorm, adb_asq, gam1.
  cbn [g_mhd g_eos wd wvx wvy wvz wp wby wbz wr ud umx umy umz ue uby ubz].
  rewrite !(osqrt_ok 1), !(osqrt_ok 16) by lra. rewrite sqrt_1. rewrite (sqrt_is 16 4) by lra. cbn [obind].
  rewrite (odiv_ok 1) by lra. cbn [obind]. rewrite (odiv_ok _ 1), (odiv_ok _ 4) by lra. cbn [obind r_v1 r_v2 r_v3 r_h].
  set (k := _ - half * _).
  assert (HK : k = 289 / (g - 1)) by (unfold k, half; field; lra).
  assert (KP : TINY_NUMBER < k).
  { rewrite HK. assert (T := TINY_small).
    assert (289 <= 289 / (g - 1)) by (apply (Rmult_le_reg_r (g - 1)); [lra|]; replace (289 / (g - 1) * (g - 1)) with 289 by (field; lra); lra). lra. }
  rewrite MAX_l by lra. replace ((g - 1) * k) with (17 * 17) by (rewrite HK; field; lra).
  rewrite osqrt_ok by lra. rewrite sqrt_square by lra. cbn [obind].
  rewrite (odiv_ok _ 1), (odiv_ok _ 16) by lra. cbn [obind].
  replace (g * (1 / g) / 1) with (1 * 1) by (field; lra). replace (g * (16 * 361 / g) / 16) with (19 * 19) by (field; lra).
  rewrite !osqrt_ok by lra. rewrite !sqrt_square by lra. cbn [obind hd last].
  replace ((1 * 17 + 4 * 17) * (1 / (1 + 4))) with 17 by field.
  replace (MIN (17 - 17) (17 - 1)) with 0 by (unfold MIN; destruct (Rlt_dec _ _); lra).
  replace (MAX (17 + 17) (17 + 19)) with 36 by (unfold MAX; destruct (Rlt_dec _ _); lra).
  cbv zeta. rewrite odiv_ok by lra. cbn [obind]. eexists. f_equal. f_equal. f_equal. field. lra.
Qed.
End Witness.

Lemma hllc_mass c Ul Ur Wl Wr ar am cp : hllc_speeds c Ul Ur Wl Wr = Some (0, ar, am, cp) -> 0 < ar -> am < 0 ->
  umx Ur < ar * ud Ur -> exists F, hllc c Ul Ur Wl Wr = Some F /\ ud F < 0.
Proof.
  intros H A B D. unfold hllc. rewrite H. cbn [obind].
  destruct (Rlt_dec 0 ar); [|lra]. destruct (Rlt_dec 0 0); [lra|]. destruct (Rle_dec 0 am); [lra|].
  rewrite !odiv_ok by lra. cbn [obind]. eexists. split; [reflexivity|].
  unfold with_scalars, zip2. cbn [ud].
  assert (X : ud (flux_line c Ur Wr 0 ar) = umx Ur - ar * ud Ur) by (unfold flux_line; destruct (g_mhd c); reflexivity).
  rewrite X, Rmult_0_l, Rplus_0_l.
  assert (0 < - am / (ar - am)) by (unfold Rdiv; apply Rmult_lt_0_compat; [lra|apply Rinv_0_lt_compat; lra]).
  assert (0 < - am / (ar - am) * (ar * ud Ur - umx Ur)) by (apply Rmult_lt_0_compat; lra). lra.
Qed.

(** Both states move to the right, no signal speed is negative, and yet the
    flux is not that of the left state: even the mass flux has the wrong sign. *)
Theorem C39_hllc_refuted :
  exists c Wl Wr al ar am cp F,
    g_mhd c = false /\ eos_ok c /\ admissible c Wl /\ admissible c Wr /\ 0 < wvx Wl /\ 0 < wvx Wr /\
    hllc_speeds c (conserved c Wl 0) (conserved c Wr 0) Wl Wr = Some (al, ar, am, cp) /\ 0 <= al /\
    hllc c (conserved c Wl 0) (conserved c Wr 0) Wl Wr = Some F /\ ud F < 0.
Proof.
  set (c := GCfg false (Adiabatic (21 / 20))). set (Wl := Prim1 1 17 0 0 (1 / (21 / 20)) 0 0 []). set (Wr := Prim1 16 17 0 0 (16 * 361 / (21 / 20)) 0 0 []).
  destruct (wit_speeds (21 / 20) ltac:(lra)) as (cp & H). fold c Wl Wr in H.
  destruct (hllc_mass _ _ _ _ _ _ _ _ H) as (F & HF & NF); [lra|lra|cbn [conserved ud umx wd wvx Wr]; lra|].
  exists c, Wl, Wr. do 4 eexists. exists F.
  split; [reflexivity|]. split; [unfold eos_ok; cbn; lra|].
  split; [unfold admissible, wf_prim; cbn [c Wl g_mhd g_eos wvx wd wp wby wbz]; repeat split; lra|].
  split; [unfold admissible, wf_prim; cbn [c Wr g_mhd g_eos wvx wd wp wby wbz]; repeat split; lra|].
  split; [cbn [Wl wvx]; lra|]. split; [cbn [Wr wvx]; lra|]. split; [exact H|]. split; [lra|]. split; [exact HF|exact NF].
Qed.
Print Assumptions C39_hllc_refuted.

(** For one adiabatic index in between the flux is 0/0. *)
Theorem C55_hllc_refuted :
  exists c Wl Wr,
    g_mhd c = false /\ eos_ok c /\ admissible c Wl /\ admissible c Wr /\
    hllc c (conserved c Wl 0) (conserved c Wr 0) Wl Wr = None.
Proof.
  set (g := 5775 / 5457).
  exists (GCfg false (Adiabatic g)), (Prim1 1 17 0 0 (1 / g) 0 0 []), (Prim1 16 17 0 0 (16 * 361 / g) 0 0 []).
  assert (GG : 1 < g <= 2) by (unfold g; lra).
  destruct (wit_speeds g GG) as (cp & H).
  unfold eos_ok, admissible, wf_prim. cbn [g_mhd g_eos wvx wd wp wby wbz].
  assert (0 < 1 / g) by (unfold Rdiv; rewrite Rmult_1_l; apply Rinv_0_lt_compat; lra).
  assert (0 < 16 * 361 / g) by (unfold Rdiv; apply Rmult_lt_0_compat; [lra|apply Rinv_0_lt_compat; lra]).
  split; [reflexivity|]. split; [lra|]. split; [repeat split; lra|]. split; [repeat split; lra|].
  unfold hllc. rewrite H. cbn [obind]. destruct (Rlt_dec 0 36); [|lra]. destruct (Rlt_dec 0 0); [lra|].
  replace ((1 / g + 289 - (16 * 361 / g - 16 * 19 * 17)) / 321) with 0 by (unfold g; field).
  destruct (Rle_dec 0 0); [|lra]. unfold odiv at 1. destruct (Req_EM_T (0 - 0) 0); [reflexivity|lra].
Qed.
Print Assumptions C55_hllc_refuted.

(** ** MHD with an adiabatic index above two *)
Lemma osqrt_neg x : x < 0 -> osqrt x = None.
Proof. intros H. unfold osqrt. destruct (Rlt_dec x 0); [reflexivity|contradiction]. Qed.

Theorem C55_gamma_above_two_refuted :
  exists c Wl Wr Bx, g_mhd c = true /\ eos_ok c /\ admissible c Wl /\ admissible c Wr /\
    hlle c (conserved c Wl Bx) (conserved c Wr Bx) Wl Wr Bx = None /\
    (forall etah, roe_flux c etah (conserved c Wl Bx) (conserved c Wr Bx) Wl Wr Bx = None).
Proof.
  set (c := GCfg true (Adiabatic 3)). set (Wl := Prim1 1 0 0 0 (4/3) 8 0 []). set (Wr := Prim1 16 0 0 0 (4/3) 8 0 []).
  exists c, Wl, Wr, 4.
  assert (X : exists r, roe_avg c (conserved c Wl 4) (conserved c Wr 4) Wl Wr 4 = Some r /\ eigenvalues c 4 r = None).
  { unfold roe_avg, c, Wl, Wr, conserved, total_energy, kinetic_energy, magnetic_pressure, bnorm, pmag, SQR, half.
    cbn [g_mhd g_eos wd wvx wvy wvz wp wby wbz wr ud umx umy umz ue uby ubz].
    rewrite !(osqrt_ok 1), !(osqrt_ok 16) by lra. rewrite sqrt_1. rewrite (sqrt_is 16 4) by lra. cbn [obind].
    rewrite (odiv_ok 1) by lra. cbn [obind]. cbv zeta. rewrite !odiv_ok by lra. cbn [obind].
    eexists. split; [reflexivity|]. unfold eigenvalues, mhd_speeds, gam1, gam2, half. cbn [g_mhd g_eos r_d r_v1 r_v2 r_v3 r_h r_b2 r_b3 r_x r_y].
    rewrite !odiv_ok by lra. cbn [obind]. cbv zeta.
    assert (T := TINY_small).
    match goal with |- context [MAX ?a TINY_NUMBER] => replace (MAX a TINY_NUMBER) with 1 by (rewrite MAX_l by lra; lra) end.
    rewrite osqrt_neg by lra. reflexivity. }
  destruct X as (r & H1 & H2).
  split; [reflexivity|]. split; [unfold eos_ok; cbn; lra|].
  split; [unfold admissible, wf_prim; cbn [c Wl g_mhd g_eos wd wp]; repeat split; try lra; discriminate|].
  split; [unfold admissible, wf_prim; cbn [c Wr g_mhd g_eos wd wp]; repeat split; try lra; discriminate|].
  split.
  - unfold hlle, hll_speeds. rewrite H1. cbn [obind]. rewrite H2. reflexivity.
  - intros etah. unfold roe_flux. rewrite H1. cbn [obind]. rewrite H2. reflexivity.
Qed.
Print Assumptions C55_gamma_above_two_refuted.
