(** * C93 in one dimension: a step with self-gravity and its correction *)
From Coq Require Import Reals ZArith List Bool Lia Lra.
From Verif Require Import GasModel IntegModel IntegSpec IntegFacts SchemeModel SchemeNearby Integ1Spec Integ1Local Integ1Props SelfgModel SelfgSpec SelfgFacts.
From Verif Require Ctu1Model Vl1Model.
Import Ctu1Model (grid1, scratch1, Grid1, Scratch1, is, ie, dt, dx1, MinX1, X2, X3, U, B1i, B2i, B3i, Phi, x1Mass, x1c).
Open Scope R_scope.

(** The cells after the correction: [h] is the Grid after the integrator, whose potential is still the old one, and [P] the new potential. *)
Definition corrected1 (G4 mean : R) (h : grid1) (P : Z -> R) : Z -> cons :=
  selfg_fc_1d G4 mean (dt h) (dx1 h) (is h) (ie h) P (Phi h) (x1Mass h) (U h).

(** What the integrator leaves: the mass fluxes and the energy. *)
Lemma step_mass : forall k sc z g a i, s_selfg sc = Some a -> (is g <= i <= ie g + 1)%Z ->
  x1Mass (integrate_1d k sc z g) i = ud (flux1 k sc z g i).
Proof.
  intros k sc z g a i Hs Hi. destruct k; cbn [integrate_1d flux1].
  - unfold Ctu1Model.integrate_1d_ctu. cbn [x1Mass]. unfold Ctu1Model.mass. rewrite Hs. now rewrite loop1_in by lia.
  - unfold Vl1Model.integrate_1d_vl. cbn [x1Mass]. unfold Vl1Model.mass. rewrite Hs. now rewrite loop1_in by lia.
Qed.
Lemma step_Phi : forall k sc z g, Phi (integrate_1d k sc z g) = Phi g.
Proof. intros k sc z g. destruct k; reflexivity. Qed.
Lemma step_energy : forall k sc z g a i, s_grav sc = None -> s_cool sc = None -> s_selfg sc = Some a -> (is g <= i <= ie g)%Z ->
  let F := flux1 k sc z g in
  cE (U (integrate_1d k sc z g) i) = cE (U g i) - dt g / dx1 g * (ue (F (i + 1)%Z) - ue (F i))
    - dt g / dx1 g * (ud (F i) * (Phi g i - half * (Phi g (i - 1)%Z + Phi g i)) + ud (F (i + 1)%Z) * (half * (Phi g i + Phi g (i + 1)%Z) - Phi g i)).
Proof.
  intros k sc z g [a b] i Hg Hc Hs Hi F. unfold F; clear F. destruct k; cbn [integrate_1d flux1].
  - unfold Ctu1Model.integrate_1d_ctu. cbn [U]. unfold Ctu1Model.U12. rewrite loop1_in by lia.
    unfold Ctu1Model.U11c, Ctu1Model.U11b, Ctu1Model.U11a. rewrite Hc, Hs, Hg. rewrite loop1_in by lia. cbv zeta.
    generalize (Ctu1Model.F sc z g); intro F. cbn [upd1 cd cE set_E set_M1]. unfold Ctu1Model.q. ring.
  - unfold Vl1Model.integrate_1d_vl. cbn [U]. unfold Vl1Model.U13. rewrite loop1_in by lia.
    unfold Vl1Model.U12b, Vl1Model.U12a. rewrite Hs, Hg. rewrite loop1_in by lia. cbv zeta.
    generalize (Vl1Model.F sc z g); intro F. cbn [upd1 cd cE set_E set_M1]. unfold Vl1Model.q. ring.
Qed.
Lemma step_density : forall k sc z g i, (is g <= i <= ie g)%Z ->
  let F := flux1 k sc z g in
  cd (U (integrate_1d k sc z g) i) = cd (U g i) - dt g / dx1 g * (ud (F (i + 1)%Z) - ud (F i)).
Proof.
  intros k sc z g i Hi F. unfold F; clear F. destruct k; cbn [integrate_1d flux1].
  - unfold Ctu1Model.integrate_1d_ctu. cbn [U]. unfold Ctu1Model.U12. rewrite loop1_in by lia.
    assert (E : cd (Ctu1Model.U11c sc z g i) = cd (U g i)).
    { unfold Ctu1Model.U11c, Ctu1Model.U11b, Ctu1Model.U11a.
      destruct (s_cool sc), (s_selfg sc) as [[? ?]|], (s_grav sc); rewrite ?loop1_in by lia; reflexivity. }
    cbn [upd1 cd]. rewrite E. reflexivity.
  - unfold Vl1Model.integrate_1d_vl. cbn [U]. unfold Vl1Model.U13. rewrite loop1_in by lia.
    assert (E : cd (Vl1Model.U12b sc z g i) = cd (U g i)).
    { unfold Vl1Model.U12b, Vl1Model.U12a. destruct (s_selfg sc) as [[? ?]|], (s_grav sc); rewrite ?loop1_in by lia; reflexivity. }
    cbn [upd1 cd]. rewrite E. reflexivity.
Qed.

(** The correction touches M1 and E of the active cells, nothing else. *)
Theorem C93_touches_1d : forall G4 mean h P i,
  let V := corrected1 G4 mean h P in
  (~ (is h <= i <= ie h)%Z -> V i = U h i) /\
  cd (V i) = cd (U h i) /\ cM2 (V i) = cM2 (U h i) /\ cM3 (V i) = cM3 (U h i) /\
  cB1 (V i) = cB1 (U h i) /\ cB2 (V i) = cB2 (U h i) /\ cB3 (V i) = cB3 (U h i) /\ cs (V i) = cs (U h i).
Proof.
  intros G4 mean h P i V. unfold V, corrected1, selfg_fc_1d.
  destruct (Z_le_dec (is h) i), (Z_le_dec i (ie h)); [rewrite loop1_in by lia | rewrite loop1_out by lia ..];
    cbn [set_E set_M1 cd cM1 cM2 cM3 cE cB1 cB2 cB3 cs]; split; try (intro; lia); auto 10.
Qed.
Print Assumptions C93_touches_1d.

(** The acceleration of a cell. *)
Definition accel (dx : R) (P : Z -> R) (i : Z) : R := - ((P (i + 1)%Z - P (i - 1)%Z) / (2 * dx)).
Lemma stress_force : forall G4 mean dx P i d, G4 <> 0 -> dx <> 0 -> diff2 dx P i = G4 * (d - mean) ->
  - ((half * ((P i - P (i + 1)%Z) / dx * ((P i - P (i + 1)%Z) / dx)) / G4 + mean * (half * (P i + P (i + 1)%Z))
      - (half * ((P (i - 1)%Z - P i) / dx * ((P (i - 1)%Z - P i) / dx)) / G4 + mean * (half * (P (i - 1)%Z + P i)))) / dx) = d * accel dx P i.
Proof.
  intros G4 mean dx P i d G X E. unfold diff2, accel in *.
  assert (D : d = mean + (P (i + 1)%Z - 2 * P i + P (i - 1)%Z) / (dx * dx) / G4). { rewrite E. field. auto. }
  rewrite D. unfold half. field. auto.
Qed.
(** Momentum: in one step the gas of a cell receives, besides the fluxes of the Riemann solver, the mean of the gravitational force
    on the old gas in the old potential and on the new gas in the new potential. *)
Theorem C93_force_1d : forall k sc z g G4 mean P ns i,
  s_grav sc = None -> s_selfg sc = Some (G4, mean) -> G4 <> 0 -> dx1 g <> 0 -> scalars1 g ns -> (is g <= i <= ie g)%Z ->
  let h := integrate_1d k sc z g in let F := flux1 k sc z g in
  diff2 (dx1 g) (Phi g) i = G4 * (cd (U g i) - mean) -> diff2 (dx1 g) P i = G4 * (cd (U h i) - mean) ->
  cM1 (corrected1 G4 mean h P i) = cM1 (U g i) - dt g / dx1 g * (umx (F (i + 1)%Z) - umx (F i))
    + dt g * ((cd (U g i) * accel (dx1 g) (Phi g) i + cd (U h i) * accel (dx1 g) P i) / 2).
Proof.
  intros k sc z g G4 mean P ns i Hg Hs G X HS Hi h F EO EN.
  assert (S : cM1 (U h i) = cM1 (U g i) - dt g / dx1 g * (umx (F (i + 1)%Z) + sg_stress sc g (i + 1) - (umx (F i) + sg_stress sc g i))).
  { unfold h, F. exact (cell_form k sc z g Mom1 ns i Hg HS ltac:(discriminate) Hi). }
  unfold corrected1, selfg_fc_1d. destruct (geom1 k sc z g) as (E1 & E2 & E3 & E4 & _). fold h in E1, E2, E3, E4. rewrite E1, E2, E3, E4.
  assert (EP : Phi h = Phi g) by apply step_Phi. rewrite EP. rewrite loop1_in by lia. cbv zeta. cbn [set_E cM1 set_M1].
  rewrite S. unfold sg_stress. rewrite Hs. unfold kick, flx_m1l1, flx_m1r1, phil1, phir1. cbv zeta. replace (i + 1 - 1)%Z with i by lia.
  pose proof (stress_force G4 mean (dx1 g) (Phi g) i _ G X EO) as TO. pose proof (stress_force G4 mean (dx1 g) P i _ G X EN) as TN.
  rewrite <- TO, <- TN. unfold half, Rdiv. set (y := / dx1 g). set (x := / G4). field.
Qed.
Print Assumptions C93_force_1d.

(** The total of the cells of a Grid. *)
Definition gas1 (g : grid1) (V : Z -> cons) (f : cons -> Z -> R) : R := sumZ (is g) (ie g) (fun i => f (V i) i).

(** With periodic boundaries, step and correction together leave the total momentum exactly as it was, whatever the potentials. *)
Theorem C93_momentum_1d : forall k sc z g G4 mean P ns q, nearby (s_lr sc) -> (is g <= ie g)%Z ->
  s_grav sc = None -> s_selfg sc = Some (G4, mean) -> scalars1 g ns -> periodic1 sc g -> wraps (is g) (ie g) P ->
  q = Mom1 \/ q = Mom2 \/ q = Mom3 ->
  gas1 g (corrected1 G4 mean (integrate_1d k sc z g) P) (fun u _ => density q u) = gas1 g (U g) (fun u _ => density q u).
Proof.
  intros k sc z g G4 mean P ns q Hlr Hle Hg Hs HS Hp [W1 W2] Hq.
  assert (Hu : unsourced1 sc q) by (destruct Hq as [-> | [-> | ->]]; cbn; auto).
  assert (Hn : forall n, q = Scal n -> (n < ns)%nat) by (intros n E; destruct Hq as [H | [H | H]]; congruence).
  pose proof (C40_periodic_1d k sc z g q ns Hlr Hle Hu HS Hn Hp) as C. unfold total1 in C.
  unfold gas1. rewrite <- C. destruct (geom1 k sc z g) as (E1 & E2 & E3 & E4 & _). rewrite E1, E2. clear C.
  set (h := integrate_1d k sc z g) in *.
  assert (EP : Phi h = Phi g) by apply step_Phi.
  assert (WO : wraps (is g) (ie g) (Phi g)).
  { destruct Hp as [_ Hp]. unfold nghost in Hp. assert (Hsg : s_selfg sc <> None) by congruence. split.
    - destruct (Hp (is g - 1)%Z) as (_ & A & _); [lia|lia|]. rewrite <- (A Hsg). f_equal. lia.
    - destruct (Hp (is g)) as (_ & A & _); [lia|lia|]. rewrite <- (A Hsg). f_equal. lia. }
  destruct WO as [O1 O2].
  assert (T : forall Q, Q (is g - 1)%Z = Q (ie g) -> Q (ie g + 1)%Z = Q (is g) ->
    sumZ (is g) (ie g) (fun i => flx_m1r1 G4 mean (dx1 g) Q i - flx_m1l1 G4 mean (dx1 g) Q i) = 0).
  { intros Q Q1 Q2. set (T := fun i => flx_m1l1 G4 mean (dx1 g) Q i).
    rewrite (sumZ_ext _ _ _ (fun i => T (i + 1)%Z - T i)).
    2:{ intros i Hi. unfold T, flx_m1r1, flx_m1l1, phil1, phir1. replace (i + 1 - 1)%Z with i by lia. reflexivity. }
    rewrite sumZ_tele by lia. unfold T, flx_m1l1, phil1. replace (ie g + 1 - 1)%Z with (ie g) by lia. rewrite Q1, Q2. ring. }
  destruct Hq as [-> | Hq].
  2:{ apply sumZ_ext. intros i Hi. destruct (C93_touches_1d G4 mean h P i) as (_ & A & B2 & B3 & _). destruct Hq as [-> | ->]; cbn [density]; auto. }
  cbn [density].
  rewrite (sumZ_ext _ _ _ (fun i => cM1 (U h i) + (- (half * (dt g / dx1 g))) * ((flx_m1r1 G4 mean (dx1 g) P i - flx_m1l1 G4 mean (dx1 g) P i)
     - (flx_m1r1 G4 mean (dx1 g) (Phi g) i - flx_m1l1 G4 mean (dx1 g) (Phi g) i)))).
  { rewrite sumZ_plus, sumZ_scal, sumZ_minus, !T by auto. ring. }
  intros i Hi. unfold corrected1, selfg_fc_1d. rewrite E1, E2, E3, E4, EP, loop1_in by lia. cbv zeta. cbn [set_E set_M1 cM1]. unfold kick. ring.
Qed.
Print Assumptions C93_momentum_1d.

(** With periodic boundaries, step and correction together leave the sum of the energy of the gas and of its gravitational energy
    (half of density times potential) exactly as it was. *)
Theorem C93_energy_1d : forall k sc z g G4 mean P, nearby (s_lr sc) -> (is g <= ie g)%Z ->
  s_grav sc = None -> s_cool sc = None -> s_selfg sc = Some (G4, mean) -> G4 <> 0 -> periodic1 sc g ->
  let h := integrate_1d k sc z g in
  solves1 G4 (dx1 g) (is g) (ie g) (fun i => cd (U g i)) (Phi g) ->
  solves1 G4 (dx1 g) (is g) (ie g) (fun i => cd (U h i)) P ->
  gas1 g (corrected1 G4 mean h P) (fun u i => cE u + cd u * P i / 2) = gas1 g (U g) (fun u i => cE u + cd u * Phi g i / 2).
Proof.
  intros k sc z g G4 mean P Hlr Hle Hg Hc Hs G Hp h SO SN.
  pose proof (green1 G4 (dx1 g) (is g) (ie g) _ _ _ _ Hle G SO SN) as GR. cbv beta in GR.
  destruct SO as [[O1 O2] _], SN as [[N1 N2] _].
  destruct (geom1 k sc z g) as (E1 & E2 & E3 & E4 & _). fold h in E1, E2, E3, E4.
  assert (EP : Phi h = Phi g) by apply step_Phi.
  set (F := flux1 k sc z g).
  assert (FP : F (ie g + 1)%Z = F (is g)).
  { unfold F. apply (flux_local k sc z z g g (is g) (ie g + 1) Hlr (periodic_near sc g Hp Hle)); lia. }
  set (b := fun i => (Phi g i + P i) / 2).
  set (X := fun i => ue (F i) + ud (F i) * ((b (i - 1)%Z + b i) / 2)).
  assert (C : forall i, (is g <= i <= ie g)%Z -> cE (corrected1 G4 mean h P i) + b i * cd (U h i) = cE (U g i) + b i * cd (U g i) - dt g / dx1 g * (X (i + 1)%Z - X i)).
  { intros i Hi. pose proof (step_energy k sc z g (G4, mean) i Hg Hc Hs Hi) as EE. cbv zeta in EE. fold h F in EE.
    pose proof (step_density k sc z g i Hi) as ED. cbv zeta in ED. fold h F in ED.
    pose proof (step_mass k sc z g (G4, mean) i Hs ltac:(lia)) as M0. pose proof (step_mass k sc z g (G4, mean) (i + 1)%Z Hs ltac:(lia)) as M1. fold h F in M0, M1.
    unfold corrected1, selfg_fc_1d. rewrite E1, E2, E3, E4, EP, loop1_in by lia. cbv zeta. cbn [set_E set_M1 cE]. rewrite EE, ED, M0, M1.
    unfold X, b, phil1, phir1, half. replace (i + 1 - 1)%Z with i by lia. unfold Rdiv. set (y := / dx1 g). field. }
  assert (T : sumZ (is g) (ie g) (fun i => X (i + 1)%Z - X i) = 0).
  { rewrite sumZ_tele by lia. unfold X, b. rewrite FP. replace (ie g + 1 - 1)%Z with (ie g) by lia. rewrite O1, O2, N1, N2. ring. }
  unfold gas1.
  rewrite (sumZ_ext _ _ _ (fun i => (cE (U g i) + cd (U g i) * Phi g i / 2) + ((- (dt g / dx1 g)) * (X (i + 1)%Z - X i) + / 2 * (cd (U g i) * P i - cd (U h i) * Phi g i)))).
  { rewrite (sumZ_plus _ _ (fun i => cE (U g i) + _)), (sumZ_plus _ _ (fun i => - (dt g / dx1 g) * _)), !sumZ_scal, T, sumZ_minus, GR. ring. }
  intros i Hi. destruct (C93_touches_1d G4 mean h P i) as (_ & -> & _). pose proof (C i Hi) as Ci. unfold b in Ci.
  replace (cE (corrected1 G4 mean h P i)) with (cE (U g i) + (Phi g i + P i) / 2 * cd (U g i) - dt g / dx1 g * (X (i + 1)%Z - X i) - (Phi g i + P i) / 2 * cd (U h i)) by (rewrite <- Ci; ring).
  unfold Rdiv. set (y := / dx1 g). field.
Qed.
Print Assumptions C93_energy_1d.
