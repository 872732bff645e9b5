(** * Conservation, locality and boundary independence of the 1D integrators *)
From Coq Require Import Reals ZArith List Bool Lia Lra.
From Verif Require Import GasModel IntegModel IntegSpec IntegFacts SchemeModel SchemeNearby Integ1Spec Integ1Local.
From Verif Require Ctu1Model Vl1Model.
Import Ctu1Model (grid1, scratch1, Grid1, Scratch1, is, ie, dt, dx1, MinX1, X2, X3, U, B1i, B2i, B3i, Phi, x1Mass, x1c).
Open Scope R_scope.

Definition flux1 (k : integrator) : scheme -> scratch1 -> grid1 -> Z -> cons1 :=
  match k with CTU => Ctu1Model.F | VL => Vl1Model.F end.

Lemma geom1 : forall k sc z g, let g' := integrate_1d k sc z g in
  is g' = is g /\ ie g' = ie g /\ dt g' = dt g /\ dx1 g' = dx1 g /\ MinX1 g' = MinX1 g /\ X2 g' = X2 g /\ X3 g' = X3 g.
Proof. intros k sc z g g'. unfold g'. destruct k; repeat split; reflexivity. Qed.

(** The flux of quantity q through the faces, including the gravitational stress. *)
Definition sg_stress (sc : scheme) (g : grid1) (i : Z) : R :=
  match s_selfg sc with
  | None => 0
  | Some (four_pi_G, mean_rho) =>
      half * ((Phi g (i - 1)%Z - Phi g i) / dx1 g * ((Phi g (i - 1)%Z - Phi g i) / dx1 g)) / four_pi_G
      + mean_rho * (half * (Phi g (i - 1)%Z + Phi g i))
  end.
Definition qflux (sc : scheme) (g : grid1) (q : quantity) (F : Z -> cons1) (i : Z) : R :=
  match q with
  | Mass => ud (F i) | Mom1 => umx (F i) + sg_stress sc g i | Mom2 => umy (F i) | Mom3 => umz (F i)
  | Energy => ue (F i) | Fld1 => 0 | Fld2 => if s_mhd sc then uby (F i) else 0
  | Fld3 => if s_mhd sc then ubz (F i) else 0 | Scal n => nth n (us (F i)) 0
  end.

Lemma cell_form : forall k sc z g q ns i, unsourced1 sc q -> scalars1 g ns -> (forall n, q = Scal n -> (n < ns)%nat) ->
  (is g <= i <= ie g)%Z ->
  density q (U (integrate_1d k sc z g) i) =
  density q (U g i) - dt g / dx1 g * (qflux sc g q (flux1 k sc z g) (i + 1) - qflux sc g q (flux1 k sc z g) i).
Proof.
  intros k sc z g q ns i Hq Hs Hn Hi.
  assert (Hn' : forall n, q = Scal n -> (n < length (cs (U g i)))%nat) by (intros; rewrite Hs; auto).
  clear Hn Hs. unfold unsourced1 in Hq.
  destruct k; cbn [integrate_1d flux1].
  - unfold Ctu1Model.integrate_1d_ctu. cbn [U]. unfold Ctu1Model.U12. rewrite loop1_in by lia.
    unfold Ctu1Model.U11c, Ctu1Model.U11b, Ctu1Model.U11a.
    generalize (Ctu1Model.F sc z g); intro F.
    destruct q; cbn [qflux density];
      try (destruct Hq as (Hg & Hc & Hsg); rewrite ?Hg, ?Hc, ?Hsg);
      try rewrite Hq; unfold sg_stress;
      destruct (s_cool sc), (s_selfg sc) as [[? ?]|], (s_grav sc); try discriminate; cbv zeta;
      rewrite ?loop1_in by lia; cbn [upd1 cd cM1 cM2 cM3 cE cB1 cB2 cB3 cs set_E set_M1];
      rewrite ?sub_s_nth by (apply Hn'; reflexivity);
      unfold Ctu1Model.q; replace (i + 1 - 1)%Z with i by lia; destruct (s_mhd sc); ring.
  - unfold Vl1Model.integrate_1d_vl. cbn [U]. unfold Vl1Model.U13. rewrite loop1_in by lia.
    unfold Vl1Model.U12b, Vl1Model.U12a.
    generalize (Vl1Model.F sc z g); intro F.
    destruct q; cbn [qflux density];
      try (destruct Hq as (Hg & Hc & Hsg); rewrite ?Hg, ?Hc, ?Hsg);
      try rewrite Hq; unfold sg_stress;
      destruct (s_selfg sc) as [[? ?]|], (s_grav sc); try discriminate; cbv zeta;
      rewrite ?loop1_in by lia; cbn [upd1 cd cM1 cM2 cM3 cE cB1 cB2 cB3 cs set_E set_M1];
      rewrite ?sub_s_nth by (apply Hn'; reflexivity);
      unfold Vl1Model.q; replace (i + 1 - 1)%Z with i by lia; destruct (s_mhd sc); ring.
Qed.

Lemma cell_form_energy : forall k sc z g phi i,
  s_grav sc = Some phi -> s_cool sc = None -> s_selfg sc = None -> (is g <= i <= ie g)%Z ->
  let e := fun i => ue (flux1 k sc z g i) + ud (flux1 k sc z g i) * phi (x1c g i - half * dx1 g) (X2 g) (X3 g) in
  etot1 phi g (U (integrate_1d k sc z g) i) i = etot1 phi g (U g i) i - dt g / dx1 g * (e (i + 1)%Z - e i).
Proof.
  intros k sc z g phi i Hg Hc Hsg Hi e. unfold e; clear e.
  assert (Hx : x1c g (i + 1) - half * dx1 g = x1c g i + half * dx1 g) by (rewrite x1c_off; unfold half; lra).
  rewrite Hx; clear Hx. unfold etot1.
  destruct k; cbn [integrate_1d flux1].
  - unfold Ctu1Model.integrate_1d_ctu. cbn [U]. unfold Ctu1Model.U12. rewrite loop1_in by lia.
    unfold Ctu1Model.U11c, Ctu1Model.U11b, Ctu1Model.U11a. rewrite Hc, Hsg, Hg. rewrite loop1_in by lia. cbv zeta.
    generalize (Ctu1Model.F sc z g); intro F. cbn [upd1 cd cE set_E set_M1]. unfold Ctu1Model.q. ring.
  - unfold Vl1Model.integrate_1d_vl. cbn [U]. unfold Vl1Model.U13. rewrite loop1_in by lia.
    unfold Vl1Model.U12b, Vl1Model.U12a. rewrite Hsg, Hg. rewrite loop1_in by lia. cbv zeta.
    generalize (Vl1Model.F sc z g); intro F. cbn [upd1 cd cE set_E set_M1]. unfold Vl1Model.q. ring.
Qed.

Lemma flux_local : forall k sc z z' g g' i i', nearby (s_lr sc) -> near1 sc g g' i i' (-4) 3 ->
  (is g <= i <= ie g + 1)%Z -> (is g' <= i' <= ie g' + 1)%Z ->
  flux1 k sc z' g' i' = flux1 k sc z g i.
Proof.
  intros k sc z z' g g' i i' Hlr N H H'. rewrite <- (Z.add_0_r i), <- (Z.add_0_r i'). destruct k; cbn [flux1].
  - eapply ctu_F; eauto; lia.
  - eapply vl_F; eauto; lia.
Qed.
(** ** C61.  The value computed for a cell is a function of the cells within nghost
    of it: neither the size of the Grid, the place of the cell in it, the rest of
    the arrays nor the contents of the work arrays matter. *)
Theorem C61_local_1d : forall k sc z z' g g' i i', nearby (s_lr sc) ->
  (is g <= i <= ie g)%Z -> (is g' <= i' <= ie g')%Z ->
  near1 sc g g' i i' (- nghost) nghost ->
  let h := integrate_1d k sc z g in let h' := integrate_1d k sc z' g' in
  U h' i' = U h i /\ B1i h' i' = B1i h i /\
  (s_mhd sc = true -> B2i h' i' = B2i h i /\ B3i h' i' = B3i h i).
Proof.
  intros k sc z z' g g' i i' Hlr Hi Hi' N. unfold nghost in N.
  assert (E : U (integrate_1d k sc z' g') i' = U (integrate_1d k sc z g) i).
  { rewrite <- (Z.add_0_r i), <- (Z.add_0_r i').
    destruct k; cbn [integrate_1d Ctu1Model.integrate_1d_ctu Vl1Model.integrate_1d_vl U].
    - eapply ctu_U12; eauto; lia.
    - eapply vl_U13; eauto; lia. }
  intros h h'. split; [exact E|]. split.
  - unfold h, h'. pose proof (n_B _ _ _ _ _ _ _ N 0%Z ltac:(lia)) as HB. rewrite !Z.add_0_r in HB.
    destruct k; exact HB.
  - intro Hm. unfold h, h'.
    destruct k; cbn [integrate_1d] in *; unfold Ctu1Model.integrate_1d_ctu, Vl1Model.integrate_1d_vl in *;
      cbn [U B2i B3i] in *; rewrite Hm; rewrite !loop1_in by lia; rewrite E; auto.
Qed.
Print Assumptions C61_local_1d.

Lemma tele_total : forall (f : cons -> Z -> R) (F : Z -> R) g g' a, is g' = is g -> ie g' = ie g -> (is g <= ie g + 1)%Z ->
  (forall i, (is g <= i <= ie g)%Z -> f (U g' i) i = f (U g i) i - a * (F (i + 1)%Z - F i)) ->
  total1 f g' - total1 f g = - a * (F (ie g + 1)%Z - F (is g)).
Proof.
  intros f F g g' a His Hie Hle H. unfold total1. rewrite His, Hie.
  rewrite (sumZ_ext _ _ _ (fun i => f (U g i) i + (- a) * (F (i + 1)%Z - F i))) by (intros; rewrite H by auto; ring).
  rewrite sumZ_plus, sumZ_scal, sumZ_tele by lia. ring.
Qed.


Lemma stress_local : forall sc g g' i i', near1 sc g g' i i' (-4) 3 -> sg_stress sc g' i' = sg_stress sc g i.
Proof.
  intros sc g g' i i' N. unfold sg_stress. destruct (s_selfg sc) as [[? ?]|] eqn:Hsg; [|reflexivity].
  pose proof (n_Phi _ _ _ _ _ _ _ N ltac:(congruence) 0%Z ltac:(lia)) as H0. pose proof (n_Phi _ _ _ _ _ _ _ N ltac:(congruence) (-1)%Z ltac:(lia)) as H1.
  rewrite !Z.add_0_r in H0. replace (i' + -1)%Z with (i' - 1)%Z in H1 by lia. replace (i + -1)%Z with (i - 1)%Z in H1 by lia.
  rewrite H0, H1, (n_dx _ _ _ _ _ _ _ N). reflexivity.
Qed.
Lemma qflux_local : forall k sc z z' g g' i i' q, nearby (s_lr sc) -> near1 sc g g' i i' (-4) 3 ->
  (is g <= i <= ie g + 1)%Z -> (is g' <= i' <= ie g' + 1)%Z ->
  qflux sc g' q (flux1 k sc z' g') i' = qflux sc g q (flux1 k sc z g) i.
Proof.
  intros k sc z z' g g' i i' q Hlr N H H'. pose proof (flux_local k sc z z' g g' i i' Hlr N H H') as E.
  unfold qflux. rewrite E, (stress_local _ _ _ _ _ N). reflexivity.
Qed.
Lemma periodic_near : forall sc g, periodic1 sc g -> (is g <= ie g)%Z -> near1 sc g g (is g) (ie g + 1) (-4) 3.
Proof.
  intros sc g [Hp H] Hle. split; auto.
  - intros phi Hg x. rewrite <- (Hp phi Hg (x1c g (is g) + x)). f_equal.
    unfold x1c. rewrite Z.sub_diag. rewrite (minus_IZR (ie g + 1)), !plus_IZR, minus_IZR. ring.
  - intros d Hd. replace (ie g + 1 + d)%Z with (is g + d + (ie g - is g + 1))%Z by lia. unfold nghost in H. apply H; lia.
  - intros d Hd. replace (ie g + 1 + d)%Z with (is g + d + (ie g - is g + 1))%Z by lia. unfold nghost in H. apply H; lia.
  - intros Hsg d Hd. replace (ie g + 1 + d)%Z with (is g + d + (ie g - is g + 1))%Z by lia. unfold nghost in H. apply H; auto; lia.
Qed.

(** ** C40.  With periodic boundaries the amount of every quantity on which no
    source acts is unchanged by a step; for a gas in a static periodic potential
    the same holds of the energy including the potential energy. *)
Theorem C40_periodic_1d : forall k sc z g q ns, nearby (s_lr sc) -> (is g <= ie g)%Z ->
  unsourced1 sc q -> scalars1 g ns -> (forall n, q = Scal n -> (n < ns)%nat) -> periodic1 sc g ->
  total1 (fun u _ => density q u) (integrate_1d k sc z g) = total1 (fun u _ => density q u) g.
Proof.
  intros k sc z g q ns Hlr Hle Hq Hs Hn Hp.
  destruct (geom1 k sc z g) as (His & Hie & _).
  pose proof (tele_total (fun u _ => density q u) (qflux sc g q (flux1 k sc z g)) g (integrate_1d k sc z g) (dt g / dx1 g)
    His Hie ltac:(lia) (fun i Hi => cell_form k sc z g q ns i Hq Hs Hn Hi)) as T.
  rewrite (qflux_local k sc z z g g (is g) (ie g + 1) q Hlr (periodic_near sc g Hp Hle)) in T by lia. lra.
Qed.
Print Assumptions C40_periodic_1d.

(** Whatever happens inside, the change of the total only depends on the data
    near the two ends: two runs that agree within nghost zones of the ends of the
    Grid lose or gain the same amounts. *)
Definition same_ends (sc : scheme) (g g' : grid1) : Prop :=
  is g' = is g /\ ie g' = ie g /\ near1 sc g g' (is g) (is g) (- nghost) (nghost - 1) /\
  near1 sc g g' (ie g + 1) (ie g + 1) (- nghost) (nghost - 1).
Theorem C40_interior_1d : forall k sc z z' g g' q ns ns', nearby (s_lr sc) -> (is g <= ie g)%Z ->
  unsourced1 sc q -> scalars1 g ns -> scalars1 g' ns' -> (forall n, q = Scal n -> (n < ns)%nat /\ (n < ns')%nat) ->
  same_ends sc g g' ->
  let f := fun (u : cons) (_ : Z) => density q u in
  total1 f (integrate_1d k sc z' g') - total1 f g' = total1 f (integrate_1d k sc z g) - total1 f g.
Proof.
  intros k sc z z' g g' q ns ns' Hlr Hle Hq Hs Hs' Hn (His & Hie & Nl & Nr) f.
  unfold nghost in Nl, Nr.
  destruct (geom1 k sc z g) as (E1 & E2 & _). destruct (geom1 k sc z' g') as (E1' & E2' & _).
  unfold f. rewrite (tele_total (fun u _ => density q u) (qflux sc g q (flux1 k sc z g)) g (integrate_1d k sc z g) (dt g / dx1 g)
    E1 E2 ltac:(lia) (fun i Hi => cell_form k sc z g q ns i Hq Hs (fun n E => proj1 (Hn n E)) Hi)).
  rewrite (tele_total (fun u _ => density q u) (qflux sc g' q (flux1 k sc z' g')) g' (integrate_1d k sc z' g') (dt g' / dx1 g')
    E1' E2' ltac:(lia) (fun i Hi => cell_form k sc z' g' q ns' i Hq Hs' (fun n E => proj2 (Hn n E)) Hi)).
  rewrite His, Hie.
  rewrite (qflux_local k sc z z' g g' (is g) (is g) q Hlr Nl) by lia.
  rewrite (qflux_local k sc z z' g g' (ie g + 1) (ie g + 1) q Hlr Nr) by lia.
  rewrite (n_dt _ _ _ _ _ _ _ Nl), (n_dx _ _ _ _ _ _ _ Nl). reflexivity.
Qed.
Print Assumptions C40_interior_1d.

(** ** C62.  In a static potential the energy including potential energy is
    conserved: exactly with periodic data, and otherwise up to what crosses the ends. *)
Lemma eflux_local : forall k sc z z' g g' i i' phi, nearby (s_lr sc) -> s_grav sc = Some phi -> near1 sc g g' i i' (-4) 3 ->
  (is g <= i <= ie g + 1)%Z -> (is g' <= i' <= ie g' + 1)%Z ->
  ue (flux1 k sc z' g' i') + ud (flux1 k sc z' g' i') * phi (x1c g' i' - half * dx1 g') (X2 g') (X3 g') =
  ue (flux1 k sc z g i) + ud (flux1 k sc z g i) * phi (x1c g i - half * dx1 g) (X2 g) (X3 g).
Proof.
  intros k sc z z' g g' i i' phi Hlr Hg N H H'. rewrite (flux_local k sc z z' g g' i i' Hlr N H H').
  unfold Rminus. rewrite (n_pot _ _ _ _ _ _ _ N phi Hg), (n_dx _ _ _ _ _ _ _ N). reflexivity.
Qed.
Theorem C62_energy_periodic_1d : forall k sc z g phi, nearby (s_lr sc) -> (is g <= ie g)%Z ->
  s_grav sc = Some phi -> s_cool sc = None -> s_selfg sc = None -> periodic1 sc g ->
  total1 (etot1 phi g) (integrate_1d k sc z g) = total1 (etot1 phi g) g.
Proof.
  intros k sc z g phi Hlr Hle Hg Hc Hsg Hp. destruct (geom1 k sc z g) as (His & Hie & _).
  pose proof (tele_total (etot1 phi g) _ g (integrate_1d k sc z g) (dt g / dx1 g) His Hie ltac:(lia)
    (fun i Hi => cell_form_energy k sc z g phi i Hg Hc Hsg Hi)) as T. cbv beta in T.
  rewrite (eflux_local k sc z z g g (is g) (ie g + 1) phi Hlr Hg (periodic_near sc g Hp Hle)) in T by lia. lra.
Qed.
Print Assumptions C62_energy_periodic_1d.
Theorem C62_energy_interior_1d : forall k sc z z' g g' phi, nearby (s_lr sc) -> (is g <= ie g)%Z ->
  s_grav sc = Some phi -> s_cool sc = None -> s_selfg sc = None -> same_ends sc g g' ->
  total1 (etot1 phi g') (integrate_1d k sc z' g') - total1 (etot1 phi g') g' =
  total1 (etot1 phi g) (integrate_1d k sc z g) - total1 (etot1 phi g) g.
Proof.
  intros k sc z z' g g' phi Hlr Hle Hg Hc Hsg (His & Hie & Nl & Nr). unfold nghost in Nl, Nr.
  destruct (geom1 k sc z g) as (E1 & E2 & _). destruct (geom1 k sc z' g') as (E1' & E2' & _).
  rewrite (tele_total (etot1 phi g) _ g (integrate_1d k sc z g) (dt g / dx1 g) E1 E2 ltac:(lia)
    (fun i Hi => cell_form_energy k sc z g phi i Hg Hc Hsg Hi)).
  rewrite (tele_total (etot1 phi g') _ g' (integrate_1d k sc z' g') (dt g' / dx1 g') E1' E2' ltac:(lia)
    (fun i Hi => cell_form_energy k sc z' g' phi i Hg Hc Hsg Hi)).
  cbv beta. rewrite His, Hie.
  rewrite (eflux_local k sc z z' g g' (is g) (is g) phi Hlr Hg Nl) by lia.
  rewrite (eflux_local k sc z z' g g' (ie g + 1) (ie g + 1) phi Hlr Hg Nr) by lia.
  rewrite (n_dt _ _ _ _ _ _ _ Nl), (n_dx _ _ _ _ _ _ _ Nl). reflexivity.
Qed.
Print Assumptions C62_energy_interior_1d.

(** ** Whole runs, for every configuration of the code *)
Lemma scalars_step1 : forall k sc z g n, scalars1 g n -> scalars1 (integrate_1d k sc z g) n.
Proof.
  intros k sc z g n H i Hi. destruct (geom1 k sc z g) as (His & Hie & _). rewrite His, Hie in Hi. rewrite <- (H i Hi).
  destruct k; cbn [integrate_1d] in *.
  - unfold Ctu1Model.integrate_1d_ctu. cbn [U]. unfold Ctu1Model.U12. rewrite loop1_in by lia. cbn [upd1 cs].
    rewrite sub_s_length. unfold Ctu1Model.U11c, Ctu1Model.U11b, Ctu1Model.U11a.
    destruct (s_cool sc), (s_selfg sc) as [[? ?]|], (s_grav sc); rewrite ?loop1_in by lia; reflexivity.
  - unfold Vl1Model.integrate_1d_vl. cbn [U]. unfold Vl1Model.U13. rewrite loop1_in by lia. cbn [upd1 cs].
    rewrite sub_s_length. unfold Vl1Model.U12b, Vl1Model.U12a.
    destruct (s_selfg sc) as [[? ?]|], (s_grav sc); rewrite ?loop1_in by lia; reflexivity.
Qed.
(** ** C63.  A uniform state, moving and magnetised or not, stays exactly as it is. *)
Definition uniform1 (g : grid1) (u : cons) (b1 : R) : Prop :=
  forall i, (is g - nghost <= i <= ie g + nghost)%Z -> U g i = u /\ ((is g - nghost < i)%Z -> B1i g i = b1).
Theorem C63_uniform_1d : forall k sc z g u b1, nearby (s_lr sc) ->
  s_grav sc = None -> s_cool sc = None -> s_selfg sc = None -> uniform1 g u b1 ->
  forall i, (is g <= i <= ie g)%Z -> U (integrate_1d k sc z g) i = u /\ B1i (integrate_1d k sc z g) i = b1.
Proof.
  intros k sc z g u b1 Hlr Hg Hc Hsg Hu i Hi. unfold uniform1, nghost in Hu.
  assert (N : near1 sc g g i (i + 1) (-4) 3).
  { split; try reflexivity; try (intros; congruence); intros d Hd;
      destruct (Hu (i + d)%Z ltac:(lia)) as [A B]; destruct (Hu (i + 1 + d)%Z ltac:(lia)) as [A' B'].
    - congruence.
    - rewrite B, B' by lia. reflexivity. }
  assert (HU : U g i = u) by (apply Hu; lia).
  assert (Hs : scalars1 g (length (cs u))) by (intros i' Hi'; destruct (Hu i' ltac:(lia)) as [A _]; now rewrite A).
  split.
  - apply cons_ext.
    + destruct (geom1 k sc z g) as (E1 & E2 & _). apply (scalars_step1 k sc z g _ Hs). rewrite E1, E2. exact Hi.
    + intros q Hq. rewrite <- HU. rewrite (cell_form k sc z g q (length (cs u)) i); auto.
      2:{ destruct q; cbn; auto. }
      rewrite (qflux_local k sc z z g g i (i + 1) q Hlr N) by lia. unfold Rdiv. ring.
  - destruct (Hu i ltac:(lia)) as [_ B]. destruct k; apply B; lia.
Qed.
Print Assumptions C63_uniform_1d.

Lemma same_active_total : forall f h g', same_active1 h g' -> total1 f g' = total1 f h.
Proof.
  intros f h g' (His & Hie & _ & _ & _ & _ & HU). unfold total1. rewrite His, Hie. apply sumZ_ext. intros i Hi.
  rewrite HU by lia. reflexivity.
Qed.
Lemma total1_ext : forall f f' g, (forall u i, f u i = f' u i) -> total1 f g = total1 f' g.
Proof. intros. unfold total1. apply sumZ_ext. auto. Qed.
Lemma run_geom : forall k sc g g', run1 k sc g g' ->
  is g' = is g /\ ie g' = ie g /\ dx1 g' = dx1 g /\ MinX1 g' = MinX1 g /\ X2 g' = X2 g /\ X3 g' = X3 g.
Proof.
  intros k sc g g' H. induction H as [|h z g' _ IH _ S]; [auto 10|].
  destruct (geom1 k sc z h) as (A1 & A2 & A3 & A4 & A5 & A6 & A7). destruct S as (B1 & B2 & B3 & B4 & B5 & B6 & _).
  destruct IH as (C1 & C2 & C3 & C4 & C5 & C6). repeat split; congruence.
Qed.

(** In any number of steps of any size the total of every quantity on which no
    source acts stays the same, for every equation of state, order of
    reconstruction, Riemann solver and integrator that can be configured. *)
Theorem C40_run_1d : forall c k o f grav cool selfg dmin g g' q ns,
  let sc := athena c k o f grav cool selfg dmin in
  (is g <= ie g)%Z -> unsourced1 sc q -> scalars1 g ns -> (forall n, q = Scal n -> (n < ns)%nat) ->
  run1 k sc g g' ->
  total1 (fun u _ => density q u) g' = total1 (fun u _ => density q u) g.
Proof.
  intros c k o f grav cool selfg dmin g g' q ns sc Hle Hq Hs Hn H.
  assert (Hl : nearby (s_lr sc)) by apply lr_states_nearby. clearbody sc.
  enough (E : scalars1 g' ns /\ total1 (fun u _ => density q u) g' = total1 (fun u _ => density q u) g) by apply E.
  induction H as [|h z g' Hr IH Hp S]; [auto|].
  destruct IH as [IH1 IH2]. destruct (run_geom _ _ _ _ Hr) as (A1 & A2 & _).
  split.
  - pose proof (scalars_step1 k sc z h ns IH1) as S1. destruct S as (B1 & B2 & _ & _ & _ & _ & BU).
    intros i Hi. rewrite B1, B2 in Hi. rewrite BU by exact Hi. apply S1, Hi.
  - rewrite (same_active_total _ _ _ S). rewrite <- IH2. apply C40_periodic_1d with (ns := ns); auto. lia.
Qed.
Print Assumptions C40_run_1d.
Theorem C62_energy_run_1d : forall c k o f phi dmin g g',
  let sc := athena c k o f (Some phi) None None dmin in
  (is g <= ie g)%Z -> run1 k sc g g' -> total1 (etot1 phi g') g' = total1 (etot1 phi g) g.
Proof.
  intros c k o f phi dmin g g' sc Hle H.
  assert (Hl : nearby (s_lr sc)) by apply lr_states_nearby.
  assert (Hg : s_grav sc = Some phi) by reflexivity. assert (Hc : s_cool sc = None) by reflexivity.
  assert (Hsg : s_selfg sc = None) by reflexivity. clearbody sc.
  induction H as [|h z g' Hr IH Hp S]; [reflexivity|].
  destruct (run_geom _ _ _ _ Hr) as (A1 & A2 & _). destruct (geom1 k sc z h) as (E1 & E2 & E3 & E4 & E5 & E6 & E7).
  rewrite <- IH, <- (C62_energy_periodic_1d k sc z h phi Hl ltac:(lia) Hg Hc Hsg Hp), (same_active_total _ _ _ S).
  apply total1_ext. intros u i. destruct S as (B1 & B2 & B3 & B4 & B5 & B6 & _).
  unfold etot1, x1c. rewrite B1, B3, B4, B5, B6, E1, E4, E5, E6, E7. reflexivity.
Qed.
Print Assumptions C62_energy_run_1d.

(** ** The hypotheses are met: an isothermal flow with two cells that differ, one
    scalar, in a periodic potential; and the same cell in a longer Grid whose other
    cells hold something else. *)
Definition ex_cell (i : Z) : cons := if Z.even i then Cons 1 2 0 0 0 0 0 0 (1 :: nil) else Cons 3 (-1) 1 0 0 0 0 0 (2 :: nil).
Definition ex_grid : grid1 :=
  Grid1 4 5 (1 / 10) 1 0 0 0 ex_cell (fun _ => 0) (fun _ => 0) (fun _ => 0) (fun _ => 0) (fun _ => 0).
Definition ex_phi (x _ _ : R) : R := sin (PI * x).
Definition ex_scheme (k : integrator) : scheme := athena (GCfg false (Isothermal 1)) k O3 SHlle (Some ex_phi) None None (/ 10).
Example ex_periodic : forall k, periodic1 (ex_scheme k) ex_grid.
Proof.
  intro k. split.
  - intros phi E x. injection E as <-. unfold ex_phi. cbn [ie is ex_grid dx1].
    replace (PI * (x + IZR (5 - 4 + 1) * 1)) with (PI * x + 2 * PI) by (change (5 - 4 + 1)%Z with 2%Z; ring).
    rewrite sin_plus, sin_2PI, cos_2PI. ring.
  - intros i _ _. cbn [U B1i Phi ex_grid ie is]. repeat split; auto.
    unfold ex_cell. rewrite Z.even_add. destruct (Z.even i); reflexivity.
Qed.
Example ex_scalars : scalars1 ex_grid 1.
Proof. intros i _. cbn [U ex_grid]. unfold ex_cell. destruct (Z.even i); reflexivity. Qed.
Example ex_totals : total1 (fun u _ => density Mass u) ex_grid = 4 /\ total1 (fun u _ => density (Scal 0) u) ex_grid = 3.
Proof. split; unfold total1, ex_grid; cbn [is ie U]; rewrite (sumZ_last 4 5), (sumZ_last 4 (5 - 1)), sumZ_empty by lia; change (5 - 1)%Z with 4%Z; unfold ex_cell; change (Z.even 4) with true; change (Z.even 5) with false; cbn [density cd cs nth]; lra. Qed.
Example ex_run : forall k, exists g', run1 k (ex_scheme k) ex_grid g' /\ U g' 4%Z = U (integrate_1d k (ex_scheme k) (Ctu1Model.Scratch1 (fun _ => (no_prim1, 0)) (fun _ => (no_prim1, no_prim1)) (fun _ => no_cons1) (fun _ => 0) (fun _ => 0) ex_cell) ex_grid) 4%Z.
Proof.
  intro k. eexists. split; [|reflexivity]. eapply run1_step; [apply run1_start|apply ex_periodic|].
  repeat split.
Qed.
Definition ex_long : grid1 :=
  Grid1 10 30 (1 / 10) 1 (-6) 0 0 (fun j => if within 16 24 j then ex_cell (j - 16) else Cons 7 7 7 7 7 0 0 0 (7 :: nil))
    (fun _ => 0) (fun _ => 0) (fun _ => 0) (fun _ => 0) (fun _ => 0).
Example ex_near : forall k, near1 (ex_scheme k) ex_grid ex_long 4 20 (- nghost) nghost.
Proof.
  intro k. split; try reflexivity.
  - intros phi E x. injection E as <-. unfold ex_phi, x1c. cbn [MinX1 dx1 is ex_grid ex_long].
    change (20 - 10)%Z with 10%Z. change (4 - 4)%Z with 0%Z. replace (PI * (-6 + (10 + half) * 1 + x)) with (PI * (0 + (0 + half) * 1 + x) + 2 * PI + 2 * PI) by ring.
    rewrite !sin_plus, !cos_plus, sin_2PI, cos_2PI. ring.
  - intros d Hd. unfold nghost in Hd. cbn [U ex_grid ex_long]. rewrite within_in by lia. f_equal. lia.
Qed.
