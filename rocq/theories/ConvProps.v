(** * Conversions between conserved and primitive variables (C35), wave speed (C36) *)
From Coq Require Import Reals List Bool Lra Psatz.
From Verif Require Import GasModel GasSpec.
Import ListNotations.
Open Scope R_scope.

Lemma odiv_ok a b : b <> 0 -> odiv a b = Some (a / b).
Proof. unfold odiv. destruct (Req_EM_T b 0); [contradiction|reflexivity]. Qed.
Lemma osqrt_ok a : 0 <= a -> osqrt a = Some (sqrt a).
Proof. unfold osqrt. destruct (Rlt_dec a 0); [lra|reflexivity]. Qed.
Lemma MAX_l a b : b <= a -> MAX a b = a.
Proof. unfold MAX. destruct (Rlt_dec b a); lra. Qed.
Lemma MAX_r a b : a <= b -> MAX a b = b.
Proof. unfold MAX. destruct (Rlt_dec b a); lra. Qed.
Lemma MIN_l a b : a <= b -> MIN a b = a.
Proof. unfold MIN. destruct (Rlt_dec a b); lra. Qed.
Lemma MIN_r a b : b <= a -> MIN a b = b.
Proof. unfold MIN. destruct (Rlt_dec a b); lra. Qed.
Lemma TINY_pos : 0 < TINY_NUMBER.
Proof. unfold TINY_NUMBER. apply Rinv_0_lt_compat, pow_lt. lra. Qed.

Lemma map_inv (f g : R -> R) l : (forall x, g (f x) = x) -> map g (map f l) = l.
Proof. intros H. rewrite map_map. induction l; cbn; [reflexivity|]. rewrite H, IHl. reflexivity. Qed.

Lemma p2c_spec c W Bx : eos_ok c -> wf_prim c W ->
  Prim1D_to_Cons1D c W Bx = Some (conserved c W Bx).
Proof.
  intros E [F1 F2]. unfold Prim1D_to_Cons1D, conserved, total_energy, eos_ok in *.
  assert (Q : (if g_mhd c then wby W else 0) = wby W /\ (if g_mhd c then wbz W else 0) = wbz W).
  { destruct (g_mhd c); [auto|]. destruct F1; auto. }
  destruct Q as [-> ->].
  assert (M : map (fun r => r * wd W) (wr W) = map (fun r => wd W * r) (wr W)).
  { apply map_ext. intros. ring. } rewrite M.
  destruct (g_eos c) as [g|a].
  - rewrite odiv_ok by lra. cbn [obind]. do 2 f_equal.
    unfold kinetic_energy, magnetic_pressure, bnorm, SQR, half. destruct (g_mhd c).
    + field. lra.
    + destruct F1 as [-> ->]; [reflexivity|]. field. lra.
  - reflexivity.
Qed.

(** The gas pressure of a conserved state: what is left of the energy. *)
Definition pressure_of (c : gcfg) (g : R) (U : cons1) (Bx : R) : R :=
  (g - 1) * (ue U - (umx U ^ 2 + umy U ^ 2 + umz U ^ 2) / (2 * ud U)
             - (bnorm c Bx ^ 2 + uby U ^ 2 + ubz U ^ 2) / 2).

(** The primitive state of conserved variables, for a given pressure. *)
Definition primitive (U : cons1) (P : R) : prim1 :=
  Prim1 (ud U) (umx U / ud U) (umy U / ud U) (umz U / ud U) P (uby U) (ubz U)
        (map (fun s => s / ud U) (us U)).

Lemma c2p_spec c U Bx : wf_cons c U -> 0 < ud U ->
  Cons1D_to_Prim1D c U Bx =
  Some (primitive U (match g_eos c with Adiabatic g => Rmax (pressure_of c g U Bx) TINY_NUMBER
                                   | Isothermal _ => 0 end)).
Proof.
  intros [F1 F2] D. unfold Cons1D_to_Prim1D, primitive. rewrite odiv_ok by lra. cbn [obind].
  assert (Q : (if g_mhd c then uby U else 0) = uby U /\ (if g_mhd c then ubz U else 0) = ubz U).
  { destruct (g_mhd c); [auto|]. destruct F1; auto. }
  destruct Q as [-> ->]. f_equal.
  assert (Z : forall x, x * (1 / ud U) = x / ud U) by (intros; field; lra).
  rewrite !Z.
  assert (M : map (fun s => s * (1 / ud U)) (us U) = map (fun s => s / ud U) (us U)).
  { apply map_ext. intros. apply Z. } rewrite M.
  f_equal. destruct (g_eos c) as [g|a]; [|reflexivity].
  match goal with |- MAX ?p _ = Rmax ?q _ => assert (EQ : p = q) end.
  { unfold pressure_of, bnorm, SQR, half. destruct (g_mhd c).
    - field. lra.
    - destruct F1 as [-> ->]; [reflexivity|]. field. lra. }
  rewrite EQ. unfold MAX, Rmax. destruct (Rlt_dec _ _), (Rle_dec _ _); lra.
Qed.

Lemma pressure_conserved c g W Bx : g_eos c = Adiabatic g -> 1 < g -> 0 < wd W ->
  pressure_of c g (conserved c W Bx) Bx = wp W.
Proof.
  intros E G D. unfold pressure_of, conserved, total_energy. rewrite E. cbn [ud umx umy umz ue uby ubz].
  unfold kinetic_energy, magnetic_pressure. field. lra.
Qed.

Lemma wf_conserved c W Bx : wf_prim c W -> wf_cons c (conserved c W Bx).
Proof.
  intros [F1 F2]. split; cbn [uby ubz ue conserved]; [exact F1|].
  unfold conserved, total_energy; cbn [ue]. destruct (g_eos c); auto.
Qed.

(** C35, first direction: converting a primitive state gives its conserved
    variables (mass, momentum, total energy, ...), and converting back restores it. *)
Theorem C35_prim_cons_prim :
  forall c W Bx, eos_ok c -> wf_prim c W -> 0 < wd W ->
    (match g_eos c with Adiabatic _ => TINY_NUMBER <= wp W | Isothermal _ => True end) ->
    Prim1D_to_Cons1D c W Bx = Some (conserved c W Bx) /\
    Cons1D_to_Prim1D c (conserved c W Bx) Bx = Some W.
Proof.
  intros c W Bx E F D P. split; [apply p2c_spec; assumption|].
  rewrite c2p_spec; [|apply wf_conserved, F|exact D].
  f_equal. unfold primitive, conserved; cbn [ud umx umy umz ue uby ubz us].
  rewrite map_inv by (intros; field; lra).
  assert (Q : (match g_eos c with Adiabatic g => Rmax (pressure_of c g (conserved c W Bx) Bx) TINY_NUMBER
             | Isothermal _ => 0 end) = wp W).
  { unfold eos_ok in E. destruct F as [_ F2]. destruct (g_eos c) as [g|a] eqn:G.
    - rewrite (pressure_conserved c g); auto. apply Rmax_left, P.
    - auto. }
  unfold conserved in Q. rewrite Q. destruct W as [d vx vy vz p by_ bz r].
  cbn [wd wvx wvy wvz wp wby wbz wr] in *. f_equal; field; lra.
Qed.
Print Assumptions C35_prim_cons_prim.

(** C35, second direction. *)
Theorem C35_cons_prim_cons :
  forall c U Bx, eos_ok c -> wf_cons c U -> 0 < ud U ->
    (match g_eos c with Adiabatic g => TINY_NUMBER <= pressure_of c g U Bx | Isothermal _ => True end) ->
    exists W, Cons1D_to_Prim1D c U Bx = Some W /\ Prim1D_to_Cons1D c W Bx = Some U /\
              conserved c W Bx = U.
Proof.
  intros c U Bx E F D P. eexists. split; [apply c2p_spec; assumption|].
  assert (WF : wf_prim c (primitive U (match g_eos c with
     Adiabatic g => Rmax (pressure_of c g U Bx) TINY_NUMBER | Isothermal _ => 0 end))).
  { destruct F as [F1 F2]. split; cbn [primitive wby wbz wp]; [exact F1|]. destruct (g_eos c); auto. }
  rewrite p2c_spec by assumption.
  match goal with |- Some ?a = Some ?b /\ _ => cut (a = b); [intros ->; auto|] end.
  destruct F as [F1 F2]. unfold conserved, total_energy. cbn [primitive wd wvx wvy wvz wp wby wbz wr].
  rewrite map_inv by (intros; field; lra).
  destruct U as [d mx my mz e by_ bz s]. cbn [ud umx umy umz ue uby ubz us] in *.
  unfold eos_ok in E. destruct (g_eos c) as [g|a].
  - rewrite (Rmax_left _ _ P). unfold pressure_of, kinetic_energy, magnetic_pressure.
    cbn [primitive wd wvx wvy wvz wp wby wbz ud umx umy umz ue uby ubz]. f_equal; field; lra.
  - f_equal; try (field; lra). auto.
Qed.
Print Assumptions C35_cons_prim_cons.

(** C35, below the floor: the pressure is the floor and the other members are unaffected. *)
Theorem C35_floor :
  forall c g U Bx, g_eos c = Adiabatic g -> wf_cons c U -> 0 < ud U ->
    pressure_of c g U Bx <= TINY_NUMBER ->
    exists W, Cons1D_to_Prim1D c U Bx = Some W /\
      wp W = TINY_NUMBER /\ wd W = ud U /\
      wvx W * wd W = umx U /\ wvy W * wd W = umy U /\ wvz W * wd W = umz U /\
      wby W = uby U /\ wbz W = ubz U /\ map (fun r => r * wd W) (wr W) = us U.
Proof.
  intros c g U Bx G F D P. eexists. split; [apply c2p_spec; assumption|].
  cbn [primitive wd wvx wvy wvz wp wby wbz wr]. rewrite G, (Rmax_right _ _ P).
  repeat split; try (field; lra). apply map_inv. intros. field. lra.
Qed.
Print Assumptions C35_floor.

(** The wrappers for three-dimensional states: same laws.  Without MHD the
    states have no field, without energy equation neither energy nor pressure. *)
Definition wf_cons3 (c : gcfg) (C : cons) : Prop :=
  (g_mhd c = false -> cB1 C = 0 /\ cB2 C = 0 /\ cB3 C = 0) /\
  (match g_eos c with Adiabatic _ => True | Isothermal _ => cE C = 0 end).
Definition wf_prim3 (c : gcfg) (P : prim) : Prop :=
  (g_mhd c = false -> pB1 P = 0 /\ pB2 P = 0 /\ pB3 P = 0) /\
  (match g_eos c with Adiabatic _ => True | Isothermal _ => pP P = 0 end).
(** Energy minus kinetic and magnetic energy, times gamma-1. *)
Definition pressure3 (g : R) (C : cons) : R :=
  (g - 1) * (cE C - (cM1 C ^ 2 + cM2 C ^ 2 + cM3 C ^ 2) / (2 * cd C)
             - (cB1 C ^ 2 + cB2 C ^ 2 + cB3 C ^ 2) / 2).

Theorem C35_cell_cons_prim_cons :
  forall c C, eos_ok c -> wf_cons3 c C -> 0 < cd C ->
    (match g_eos c with Adiabatic g => TINY_NUMBER <= pressure3 g C | Isothermal _ => True end) ->
    exists P, Cons_to_Prim c C = Some P /\ Prim_to_Cons c P = Some C /\
      pd P = cd C /\ pV1 P * cd C = cM1 C /\ pV2 P * cd C = cM2 C /\ pV3 P * cd C = cM3 C /\
      (match g_eos c with Adiabatic g => pP P = pressure3 g C | Isothermal _ => True end) /\
      pB1 P = cB1 C /\ pB2 P = cB2 C /\ pB3 P = cB3 C /\ map (fun r => r * cd C) (pr P) = cs C.
Proof.
  intros c [d m1 m2 m3 e b1 b2 b3 s] E [F1 F2] D P. cbn [cd cM1 cM2 cM3 cE cB1 cB2 cB3 cs] in *.
  set (U := Cons1 d m1 m2 m3 e b2 b3 s).
  assert (WU : wf_cons c U).
  { split; cbn; [intros H; destruct (F1 H) as (_ & ? & ?); auto|exact F2]. }
  assert (B0 : (if g_mhd c then b1 else 0) = b1 /\ (if g_mhd c then b2 else 0) = b2 /\
               (if g_mhd c then b3 else 0) = b3).
  { destruct (g_mhd c); auto. destruct F1 as (-> & -> & ->); auto. }
  assert (PU : forall g, g_eos c = Adiabatic g -> pressure_of c g U b1 = pressure3 g (Cons d m1 m2 m3 e b1 b2 b3 s)).
  { intros g G. unfold pressure_of, pressure3, bnorm. cbn [ud umx umy umz ue uby ubz U cd cM1 cM2 cM3 cE cB1 cB2 cB3].
    rewrite (proj1 B0). reflexivity. }
  assert (PP : match g_eos c with Adiabatic g => TINY_NUMBER <= pressure_of c g U b1 | Isothermal _ => True end).
  { destruct (g_eos c) as [g|a] eqn:G; [|exact I]. rewrite PU; auto. }
  destruct (C35_cons_prim_cons c U b1 E WU D PP) as (W & W1 & W2 & W3).
  assert (WW := W1). rewrite c2p_spec in WW by assumption. injection WW as WW.
  unfold Cons_to_Prim. cbn [cd cM1 cM2 cM3 cE cB1 cB2 cB3 cs].
  destruct B0 as (B1 & B2 & B3). rewrite B1, B2, B3.
  assert (E0 : (match g_eos c with Adiabatic _ => e | Isothermal _ => 0 end) = e)
    by (destruct (g_eos c); auto).
  rewrite E0. fold U. rewrite W1. cbn [obind].
  eexists. split; [reflexivity|].
  assert (WP : (match g_eos c with Adiabatic _ => wp W | Isothermal _ => 0 end) = wp W).
  { rewrite <- WW. cbn [wp primitive]. destruct (g_eos c); auto. }
  assert (WB : (if g_mhd c then wby W else 0) = b2 /\ (if g_mhd c then wbz W else 0) = b3).
  { rewrite <- WW. cbn [wby wbz primitive uby ubz U]. auto. }
  destruct WB as [WB1 WB2]. rewrite WP, WB1, WB2.
  split.
  - unfold Prim_to_Cons. cbn [pd pV1 pV2 pV3 pP pB1 pB2 pB3 pr]. rewrite B1, B2, B3, WP.
    replace (Prim1 _ _ _ _ _ b2 b3 _) with W by (rewrite <- WW; reflexivity).
    rewrite ?B1, W2. cbn [obind ud umx umy umz ue uby ubz us U]. rewrite E0, ?B1, B2, B3. reflexivity.
  - cbn [pd pV1 pV2 pV3 pP pB1 pB2 pB3 pr]. rewrite <- WW. cbn [primitive wd wvx wvy wvz wp wby wbz wr U ud umx umy umz ue uby ubz us].
    repeat split; try (field; lra).
    + destruct (g_eos c) as [g|a] eqn:G; [|exact I]. rewrite PU by reflexivity. apply Rmax_left.
      rewrite PU in PP by reflexivity. exact PP.
    + exact B1.
    + apply map_inv. intros. field. lra.
Qed.
Print Assumptions C35_cell_cons_prim_cons.

Theorem C35_cell_prim_cons_prim :
  forall c P, eos_ok c -> wf_prim3 c P -> 0 < pd P ->
    (match g_eos c with Adiabatic _ => TINY_NUMBER <= pP P | Isothermal _ => True end) ->
    exists C, Prim_to_Cons c P = Some C /\ Cons_to_Prim c C = Some P.
Proof.
  intros c [d v1 v2 v3 p b1 b2 b3 r] E [F1 F2] D H. cbn [pd pV1 pV2 pV3 pP pB1 pB2 pB3 pr] in *.
  set (W := Prim1 d v1 v2 v3 p b2 b3 r).
  assert (WW : wf_prim c W).
  { split; cbn; [intros X; destruct (F1 X) as (_ & ? & ?); auto|exact F2]. }
  assert (B0 : (if g_mhd c then b1 else 0) = b1 /\ (if g_mhd c then b2 else 0) = b2 /\
               (if g_mhd c then b3 else 0) = b3).
  { destruct (g_mhd c); auto. destruct F1 as (-> & -> & ->); auto. }
  destruct B0 as (B1 & B2 & B3).
  destruct (C35_prim_cons_prim c W b1 E WW D H) as [K1 K2].
  assert (P0 : (match g_eos c with Adiabatic _ => p | Isothermal _ => 0 end) = p)
    by (destruct (g_eos c); auto).
  unfold Prim_to_Cons. cbn [pd pV1 pV2 pV3 pP pB1 pB2 pB3 pr]. rewrite B1, B2, B3, P0. fold W.
  rewrite K1. cbn [obind]. eexists. split; [reflexivity|].
  unfold Cons_to_Prim. cbn [cd cM1 cM2 cM3 cE cB1 cB2 cB3 cs conserved ud umx umy umz ue uby ubz us W wby wbz].
  fold W. rewrite !B1, !B2, !B3.
  assert (E0 : (match g_eos c with
     Adiabatic _ => match g_eos c with Adiabatic _ => total_energy c W b1 | Isothermal _ => 0 end
     | Isothermal _ => 0 end) = total_energy c W b1).
  { unfold total_energy. destruct (g_eos c); auto. }
  rewrite E0. change (Cons1 _ _ _ _ _ b2 b3 _) with (conserved c W b1).
  rewrite K2. cbn [obind W wd wvx wvy wvz wp wby wbz wr]. rewrite P0, ?B1, !B2, !B3. reflexivity.
Qed.
Print Assumptions C35_cell_prim_cons_prim.

(** ** C36 *)
Lemma fast_facts a b x : 0 <= a -> 0 <= x -> x <= b ->
  (* a sound speed squared, b Alfven speed squared, x normal Alfven speed squared *)
  exists s, fast a (b - x) x = Some s /\ 0 <= s /\ a <= s * s /\ x <= s * s /\ b <= s * s /\
    s^4 - (a + b) * s^2 + a * x = 0 /\
    s * s = half * ((a + b) + sqrt ((b - a) * (b - a) + 4 * a * (b - x))).
Proof.
  intros A X B. unfold fast.
  replace (x + (b - x) - a) with (b - a) by ring.
  replace (a + (b - x) + x) with (a + b) by ring.
  set (q := (b - a) * (b - a) + 4 * a * (b - x)).
  assert (AB : 0 <= a * (b - x)) by (apply Rmult_le_pos; lra).
  assert (Q0 := Rle_0_sqr (b - a)). unfold Rsqr in Q0.
  assert (Q : 0 <= q) by (unfold q; lra).
  rewrite osqrt_ok by exact Q. cbn [obind].
  assert (RP := sqrt_pos q). assert (RR := sqrt_sqrt q Q). set (r := sqrt q) in *.
  assert (Ha : Rabs (b - a) <= r).
  { apply Rsqr_incr_0; try assumption; [|apply Rabs_pos]. rewrite <- Rsqr_abs. unfold Rsqr. rewrite RR. unfold q. lra. }
  assert (Ha' := Rle_abs (b - a)). assert (Hb' := Rle_abs (- (b - a))). rewrite Rabs_Ropp in Hb'.
  assert (N : 0 <= half * (a + b + r)) by (unfold half; lra).
  rewrite osqrt_ok by exact N.
  eexists. split; [reflexivity|].
  assert (SP := sqrt_pos (half * (a + b + r))). assert (SS := sqrt_sqrt _ N).
  set (s := sqrt (half * (a + b + r))) in *. unfold half in SS.
  split; [exact SP|]. split; [lra|]. split; [lra|]. split; [lra|]. split.
  - replace (s ^ 4) with ((s * s) * (s * s)) by ring. replace (s ^ 2) with (s * s) by ring.
    rewrite SS. unfold q in RR. nra.
  - rewrite SS. unfold half. ring.
Qed.

Lemma speeds_nonneg c W Bx : eos_ok c -> admissible c W ->
  0 < sound2 c W /\ 0 <= alfven_x2 c W Bx /\ alfven_x2 c W Bx <= alfven2 c W Bx.
Proof.
  intros E (F & D & P). unfold sound2, alfven_x2, alfven2, eos_ok in *.
  assert (I := Rinv_0_lt_compat _ D).
  assert (Q1 := Rle_0_sqr (bnorm c Bx)). assert (Q2 := Rle_0_sqr (wby W)). assert (Q3 := Rle_0_sqr (wbz W)).
  unfold Rsqr in *. split; [|split].
  - destruct (g_eos c) as [g|a].
    + unfold Rdiv. apply Rmult_lt_0_compat; [|exact I]. apply Rmult_lt_0_compat; lra.
    + nra.
  - unfold Rdiv. nra.
  - unfold Rdiv. nra.
Qed.

Lemma cfast_prim_fast c W Bx : eos_ok c -> admissible c W ->
  cfast_prim c W Bx = fast (sound2 c W) (alfven2 c W Bx - alfven_x2 c W Bx) (alfven_x2 c W Bx).
Proof.
  intros E A. destruct (speeds_nonneg c W Bx E A) as (S1 & _ & _). destruct A as (F & D & P). unfold cfast_prim.
  assert (S0 : match g_eos c with Isothermal a => Some (a * a) | Adiabatic g => odiv (g * wp W) (wd W) end
             = Some (sound2 c W)).
  { unfold sound2. destruct (g_eos c); [apply odiv_ok; lra|reflexivity]. }
  rewrite S0. cbn [obind]. destruct (g_mhd c) eqn:M.
  - rewrite !odiv_ok by lra. cbn [obind]. f_equal; unfold alfven2, alfven_x2, bnorm; rewrite M; unfold SQR; field; lra.
  - destruct F as [F _]. destruct (F M) as [Z1 Z2].
    unfold fast, alfven2, alfven_x2, bnorm. rewrite M, Z1, Z2.
    set (a := sound2 c W) in *.
    replace ((0 * 0 + 0 * 0 + 0 * 0) / wd W - 0 * 0 / wd W) with 0 by (field; lra).
    replace (0 * 0 / wd W) with 0 by (field; lra).
    replace ((0 + 0 - a) * (0 + 0 - a) + 4 * a * 0) with (a * a) by ring.
    rewrite (osqrt_ok (a * a)) by nra. cbn [obind]. rewrite sqrt_square by lra.
    f_equal. unfold half. field.
Qed.

(** C36: the speed returned is the fast magnetosonic speed: it satisfies the
    dispersion relation, no magnetosonic wave is faster, and it is not below
    the sound speed and the normal Alfven speed. *)
Theorem C36_fast_speed :
  forall c W Bx, eos_ok c -> admissible c W ->
    exists s, cfast_prim c W Bx = Some s /\ 0 < s /\
      magnetosonic c W Bx s /\
      (forall t, magnetosonic c W Bx t -> t <= s) /\
      sound2 c W <= s ^ 2 /\ alfven_x2 c W Bx <= s ^ 2.
Proof.
  intros c W Bx E A. rewrite cfast_prim_fast by assumption.
  destruct (speeds_nonneg c W Bx E A) as (S1 & X & B).
  destruct (fast_facts (sound2 c W) (alfven2 c W Bx) (alfven_x2 c W Bx)) as (s & Es & Hs & H1 & H2 & H2' & H3 & H4); try lra.
  exists s. split; [exact Es|]. assert (SP : 0 < s) by nra. split; [exact SP|].
  split; [exact H3|]. split; [|split; nra].
  intros t T. unfold magnetosonic in T. destruct (Rle_lt_dec t s) as [?|L]; [assumption|exfalso].
  set (a := sound2 c W) in *. set (b := alfven2 c W Bx) in *. set (x := alfven_x2 c W Bx) in *.
  (* (t^2 - s^2) (t^2 + s^2 - a - b) = 0 *)
  assert (K : (t * t - s * s) * (t * t + s * s - a - b) = 0) by nra.
  assert (L2 : s * s < t * t) by nra.
  apply Rmult_integral in K. destruct K; [lra|].
  assert (2 * (s * s) >= a + b). { rewrite H4. unfold half. assert (Z := sqrt_pos ((b - a) * (b - a) + 4 * a * (b - x))). lra. }
  lra.
Qed.
Print Assumptions C36_fast_speed.

(** Without field it is the sound speed. *)
Theorem C36_no_field :
  forall c W Bx, eos_ok c -> admissible c W -> bnorm c Bx = 0 -> wby W = 0 -> wbz W = 0 ->
    exists s, cfast_prim c W Bx = Some s /\ 0 <= s /\ s ^ 2 = sound2 c W.
Proof.
  intros c W Bx E A B0 B1 B2. rewrite cfast_prim_fast by assumption.
  destruct (speeds_nonneg c W Bx E A) as (S1 & X & B).
  destruct (fast_facts (sound2 c W) (alfven2 c W Bx) (alfven_x2 c W Bx)) as (s & Es & Hs & _ & _ & _ & _ & H4); try lra.
  exists s. split; [exact Es|]. split; [exact Hs|].
  destruct A as (_ & D & _).
  assert (Z1 : alfven2 c W Bx = 0) by (unfold alfven2; rewrite B0, B1, B2; field; lra).
  assert (Z2 : alfven_x2 c W Bx = 0) by (unfold alfven_x2; rewrite B0; field; lra).
  rewrite Z1, Z2 in H4. set (a := sound2 c W) in *.
  replace ((0 - a) * (0 - a) + 4 * a * (0 - 0)) with (a * a) in H4 by ring.
  rewrite sqrt_square in H4 by lra. unfold half in H4. nra.
Qed.
Print Assumptions C36_no_field.

(** The same speed comes out of the conserved variables of the state. *)
Theorem C36_same_from_conserved :
  forall c W Bx, eos_ok c -> admissible c W ->
    cfast c (conserved c W Bx) Bx = cfast_prim c W Bx.
Proof.
  intros c W Bx E (F & D & P). unfold cfast, cfast_prim.
  assert (S0 : match g_eos c with Isothermal a => Some (a * a) | Adiabatic g =>
      k <~ odiv (half * (SQR (umx (conserved c W Bx)) + SQR (umy (conserved c W Bx)) + SQR (umz (conserved c W Bx)))) (ud (conserved c W Bx)) ;;
      odiv (g * ((g - 1) * (ue (conserved c W Bx) - (if g_mhd c then half * (SQR Bx + SQR (uby (conserved c W Bx)) + SQR (ubz (conserved c W Bx))) else 0) - k))) (ud (conserved c W Bx)) end
    = match g_eos c with Isothermal a => Some (a * a) | Adiabatic g => odiv (g * wp W) (wd W) end).
  { unfold conserved, total_energy, eos_ok in *. cbn [ud umx umy umz ue uby ubz]. destruct (g_eos c) as [g|a]; [|reflexivity].
    rewrite !odiv_ok by lra. cbn [obind]. rewrite !odiv_ok by lra. f_equal.
    unfold kinetic_energy, magnetic_pressure, bnorm, SQR, half. destruct F as [F _]. destruct (g_mhd c).
    - field. lra.
    - destruct F as [-> ->]; [reflexivity|]. field. lra. }
  cbv zeta. rewrite S0. cbn [conserved ud uby ubz]. reflexivity.
Qed.
Print Assumptions C36_same_from_conserved.

(** Refutation of the last law for conserved states below the pressure floor:
    Cons1D_to_Prim1D applies the floor, cfast does not, and takes the square
    root of a negative number. *)
Theorem C36_below_floor_refuted :
  exists c U Bx W, eos_ok c /\ wf_cons c U /\ 0 < ud U /\
    Cons1D_to_Prim1D c U Bx = Some W /\ (exists s, cfast_prim c W Bx = Some s) /\
    cfast c U Bx = None.
Proof.
  exists (GCfg false (Adiabatic 2)), (Cons1 1 2 0 0 1 0 0 []), 0.
  assert (T := TINY_pos).
  eexists. split; [cbn; lra|]. split; [split; cbn; auto|]. split; [cbn; lra|]. split; [|split].
  - apply c2p_spec; [split; cbn; auto|cbn; lra].
  - eexists. unfold cfast_prim. cbn [g_eos g_mhd wp wd primitive ud].
    rewrite odiv_ok by lra. cbn [obind]. apply osqrt_ok.
    assert (Z := Rmax_r (pressure_of (GCfg false (Adiabatic 2)) 2 (Cons1 1 2 0 0 1 0 0 []) 0) TINY_NUMBER).
    set (m := Rmax _ _) in *. apply Rmult_le_pos; [|left; apply Rinv_0_lt_compat; lra]. lra.
  - unfold cfast. cbn [g_eos g_mhd ud umx umy umz ue uby ubz]. rewrite !odiv_ok by lra. cbn [obind].
    rewrite !odiv_ok by lra. cbn [obind]. unfold osqrt, SQR, half.
    destruct (Rlt_dec _ _) as [?|N]; [reflexivity|]. exfalso. apply N.
    replace (2 * ((2 - 1) * (1 - 0 - 1 / 2 * (2 * 2 + 0 * 0 + 0 * 0) / 1)) / 1) with (-2) by field. lra.
Qed.
Print Assumptions C36_below_floor_refuted.

(** A magnetised state with a scalar meets all hypotheses. *)
Definition ex_cfg : gcfg := GCfg true (Adiabatic (5 / 3)).
Definition ex_state : prim1 := Prim1 2 3 (-1) (1/2) (7/10) 1 (-2) [1/4; 3].
Lemma TINY_small : TINY_NUMBER <= 1 / 2.
Proof.
  unfold TINY_NUMBER. assert (2 <= 10 ^ 20).
  { replace (10 ^ 20) with (10 * 10 ^ 19) by ring. assert (1 <= 10 ^ 19) by (apply pow_R1_Rle; lra). lra. }
  replace (1 / 2) with (/ 2) by field. apply Rinv_le_contravar; lra.
Qed.
Example ex_ok : eos_ok ex_cfg /\ admissible ex_cfg ex_state /\ wf_prim ex_cfg ex_state /\
  0 < wd ex_state /\ TINY_NUMBER <= wp ex_state.
Proof.
  assert (H := TINY_small). unfold admissible, wf_prim; cbn. repeat split; auto; try lra; discriminate.
Qed.
Example ex_conserved : conserved ex_cfg ex_state 3 =
  Cons1 2 6 (-2) 1 (183 / 10) 1 (-2) [1/2; 6].
Proof.
  unfold conserved, total_energy, kinetic_energy, magnetic_pressure, bnorm; cbn [g_eos ex_cfg ex_state g_mhd wd wvx wvy wvz wp wby wbz wr map].
  f_equal; try lra; try field.
  repeat (apply f_equal2; try reflexivity; try lra).
Qed.
