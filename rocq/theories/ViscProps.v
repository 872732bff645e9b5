(** * Viscosity: what it changes, conservation, locality *)
From Coq Require Import Reals ZArith List Bool Lia Lra Psatz.
From Verif Require Import GasModel ConvProps IntegModel IntegSpec IntegFacts Ctu3Model Integ3Spec Integ3Props CondModel DiffSpec CondProps ViscModel.
Open Scope R_scope.

(** Velocity and divergence without the bounds of the loops that fill the arrays. *)
Definition Vm (g : grid3) (k j i : Z) : vec := velof (U g k j i).
Definition Dm (c : dcfg) (g : grid3) (k j i : Z) : R :=
  (vx (Vm g k j (i + 1)) - vx (Vm g k j (i - 1))) / (2 * dx1 g)
  + (if two c then (vy (Vm g k (j + 1) i) - vy (Vm g k (j - 1) i)) / (2 * dx2 g) else 0)
  + (if three c then (vz (Vm g (k + 1) j i) - vz (Vm g (k - 1) j i)) / (2 * dx3 g) else 0).
Definition viso (c : dcfg) : bool := if Rlt_dec 0 (nu_iso c) then true else false.
Definition vf1 (c : dcfg) (g : grid3) (k j i : Z) : vflux :=
  let f := if viso c then fadd no_flux (iso1 c g (Vm g) (Dm c g) k j i) else no_flux in
  if visc_aniso c then fadd_x1 f (aniso_x1 c g (Vm g) k j i) else f.
Definition vf2 (c : dcfg) (g : grid3) (k j i : Z) : vflux :=
  let f := if viso c then fadd no_flux (iso2 c g (Vm g) (Dm c g) k j i) else no_flux in
  if visc_aniso c then fadd f (aniso_x2 c g (Vm g) k j i) else f.
Definition vf3 (c : dcfg) (g : grid3) (k j i : Z) : vflux :=
  let f := if viso c then fadd no_flux (iso3 c g (Vm g) (Dm c g) k j i) else no_flux in
  if visc_aniso c then fadd f (aniso_x3 c g (Vm g) k j i) else f.

Ltac vcong leaf := lazymatch goal with
  | |- ?x = ?x => reflexivity
  | |- U _ _ _ _ = U _ _ _ _ => leaf
  | |- Vel _ _ _ _ _ _ = Vm _ _ _ _ => leaf
  | |- divv _ _ _ _ _ _ = Dm _ _ _ _ _ => leaf
  | |- B1i _ _ _ _ = B1i _ _ _ _ => leaf
  | |- B2i _ _ _ _ = B2i _ _ _ _ => leaf
  | |- B3i _ _ _ _ = B3i _ _ _ _ => leaf
  | |- dx1 _ = dx1 _ => leaf
  | |- dx2 _ = dx2 _ => leaf
  | |- dx3 _ = dx3 _ => leaf
  | |- _ => f_equal; vcong leaf
  end.

Section Fluxes.
Variables (c : dcfg) (z : vscratch) (g : grid3).
Hypothesis (S : shaped c g).
Ltac rng := unfold wkl, wku, wjl, wju in *; destruct (two c), (three c); try discriminate; lia.
Lemma Vel_in : forall k j i, (wkl c g <= k <= wku c g)%Z -> (wjl c g <= j <= wju c g)%Z -> (is g - 2 <= i <= ie g + 2)%Z ->
  Vel c z g k j i = Vm g k j i.
Proof. intros k j i Hk Hj Hi. unfold Vel. rewrite loop3_in by lia. reflexivity. Qed.
Lemma Fz_in : forall old k j i, (wkl c g <= k <= wku c g)%Z -> (wjl c g <= j <= wju c g)%Z -> (is g - 2 <= i <= ie g + 2)%Z -> Fz c g old k j i = no_flux.
Proof. intros old k j i Hk Hj Hi. unfold Fz. rewrite loop3_in by lia. reflexivity. Qed.
Lemma divv_in : forall k j i, (if three c then (ks g - 1 <= k <= ke g + 1)%Z else k = ks g) -> (if two c then (js g - 1 <= j <= je g + 1)%Z else j = js g) ->
  (is g - 1 <= i <= ie g + 1)%Z -> divv c z g k j i = Dm c g k j i.
Proof.
  intros k j i Hk Hj Hi. destruct S as ((N1 & N2 & N3) & D2 & D3 & D32).
  unfold divv, divv2, divv1, Dm, Vm. destruct (two c) eqn:Tw, (three c) eqn:Th; try (specialize (D32 eq_refl); discriminate);
    rewrite !loop3_in by rng; rewrite !Vel_in by rng; unfold Vm; ring.
Qed.
Lemma an_two : visc_aniso c = true -> two c = true.
Proof. unfold visc_aniso. intros H. apply andb_prop in H. tauto. Qed.
Ltac leaf Tw Th := first [apply Vel_in | apply divv_in]; unfold wkl, wku, wjl, wju; rewrite ?Tw, ?Th; try lia; auto.
Lemma F1_eq : forall k j i, (ks g <= k <= ke g)%Z -> (js g <= j <= je g)%Z -> (is g <= i <= ie g + 1)%Z -> F1 c z g k j i = vf1 c g k j i.
Proof.
  intros k j i Hk Hj Hi. destruct S as ((N1 & N2 & N3) & D2 & D3 & D32).
  assert (Hz : Fz c g (z_F1 z) k j i = no_flux) by (apply Fz_in; rng).
  assert (E : Fi1 c z g k j i = if viso c then fadd no_flux (iso1 c g (Vm g) (Dm c g) k j i) else no_flux).
  { unfold Fi1, viso. destruct (Rlt_dec 0 (nu_iso c)); [rewrite loop3_in by lia; rewrite Hz|exact Hz].
    unfold iso1. cbv beta zeta. destruct (two c) eqn:Tw, (three c) eqn:Th; try (specialize (D32 eq_refl); discriminate);
      try specialize (D2 eq_refl); try specialize (D3 eq_refl); vcong ltac:(leaf Tw Th). }
  unfold F1, vf1. cbv zeta. destruct (visc_aniso c) eqn:A; [|exact E]. pose proof (an_two A) as Tw.
  rewrite loop3_in by lia. rewrite E. f_equal. unfold aniso_x1, dT2, dT3, com. cbv beta zeta. destruct (three c) eqn:Th; vcong ltac:(leaf Tw Th).
Qed.
Lemma F2_eq : forall k j i, two c = true -> (ks g <= k <= ke g)%Z -> (js g <= j <= je g + 1)%Z -> (is g <= i <= ie g)%Z -> F2 c z g k j i = vf2 c g k j i.
Proof.
  intros k j i Tw Hk Hj Hi. destruct S as ((N1 & N2 & N3) & D2 & D3 & D32).
  assert (Hz : Fz c g (z_F2 z) k j i = no_flux) by (apply Fz_in; rng).
  assert (E : Fi2 c z g k j i = if viso c then fadd no_flux (iso2 c g (Vm g) (Dm c g) k j i) else no_flux).
  { unfold Fi2, viso. rewrite Tw. destruct (Rlt_dec 0 (nu_iso c)); [rewrite loop3_in by lia; rewrite Hz|exact Hz].
    unfold iso2. cbv beta zeta. destruct (three c) eqn:Th; try specialize (D3 eq_refl); vcong ltac:(leaf Tw Th). }
  unfold F2, vf2. cbv zeta. destruct (visc_aniso c) eqn:A; [|exact E].
  rewrite loop3_in by lia. rewrite E. f_equal. unfold aniso_x2, dT1, dT3, com. cbv beta zeta. destruct (three c) eqn:Th; vcong ltac:(leaf Tw Th).
Qed.
Lemma F3_eq : forall k j i, three c = true -> (ks g <= k <= ke g + 1)%Z -> (js g <= j <= je g)%Z -> (is g <= i <= ie g)%Z -> F3 c z g k j i = vf3 c g k j i.
Proof.
  intros k j i Th Hk Hj Hi. destruct S as ((N1 & N2 & N3) & D2 & D3 & D32). pose proof (D32 Th) as Tw.
  assert (Hz : Fz c g (z_F3 z) k j i = no_flux) by (apply Fz_in; unfold wkl, wku, wjl, wju; rewrite ?Tw, ?Th; lia).
  assert (E : Fi3 c z g k j i = if viso c then fadd no_flux (iso3 c g (Vm g) (Dm c g) k j i) else no_flux).
  { unfold Fi3, viso. rewrite Th. destruct (Rlt_dec 0 (nu_iso c)); [rewrite loop3_in by lia; rewrite Hz|exact Hz].
    unfold iso3. cbv beta zeta. vcong ltac:(leaf Tw Th). }
  unfold F3, vf3. cbv zeta. rewrite Th, andb_true_r. destruct (visc_aniso c) eqn:A; [|exact E].
  rewrite loop3_in by lia. rewrite E. f_equal. unfold aniso_x3, dT1, dT2, com. cbv beta zeta. vcong ltac:(leaf Tw Th).
Qed.
Lemma add_flux_eq : forall q u f1 f0, add_flux c q u f1 f0 =
  Cons (cd u) (cM1 u + q * (fx f1 - fx f0)) (cM2 u + q * (fy f1 - fy f0)) (cM3 u + q * (fz f1 - fz f0))
    (if barotropic c then cE u else cE u + q * (fe f1 - fe f0)) (cB1 u) (cB2 u) (cB3 u) (cs u).
Proof. intros q u f1 f0. unfold add_flux. destruct (barotropic c); reflexivity. Qed.
(** What a call does to an active cell. *)
Definition vnew (h : R) (k j i : Z) (f : vflux -> R) (x : R) : R :=
  x - (- (h / dx1 g)) * (f (vf1 c g k j (i + 1)) - f (vf1 c g k j i))
    - (if two c then - (h / dx2 g) else 0) * (f (vf2 c g k (j + 1) i) - f (vf2 c g k j i))
    - (if three c then - (h / dx3 g) else 0) * (f (vf3 c g (k + 1) j i) - f (vf3 c g k j i)).
Lemma visc_cell : forall h k j i, active3 g k j i -> U (viscosity c h z g) k j i =
  let u := U g k j i in
  Cons (cd u) (vnew h k j i fx (cM1 u)) (vnew h k j i fy (cM2 u)) (vnew h k j i fz (cM3 u))
    (if barotropic c then cE u else vnew h k j i fe (cE u)) (cB1 u) (cB2 u) (cB3 u) (cs u).
Proof.
  intros h k j i (Hk & Hj & Hi). unfold viscosity, set_U. cbn [U]. destruct S as (_ & _ & _ & D32).
  assert (E1 : Uv1 c h z g k j i = add_flux c (h / dx1 g) (U g k j i) (vf1 c g k j (i + 1)) (vf1 c g k j i)).
  { unfold Uv1. rewrite loop3_in by lia. rewrite !F1_eq by lia. reflexivity. }
  assert (E2 : Uv2 c h z g k j i = if two c then add_flux c (h / dx2 g) (Uv1 c h z g k j i) (vf2 c g k (j + 1) i) (vf2 c g k j i) else Uv1 c h z g k j i).
  { unfold Uv2. destruct (two c) eqn:Tw; [|reflexivity]. rewrite loop3_in by lia. rewrite !F2_eq by (auto; lia). reflexivity. }
  assert (E3 : Uv3 c h z g k j i = if three c then add_flux c (h / dx3 g) (Uv2 c h z g k j i) (vf3 c g (k + 1) j i) (vf3 c g k j i) else Uv2 c h z g k j i).
  { unfold Uv3. destruct (three c) eqn:Th; [|reflexivity]. rewrite loop3_in by lia. rewrite !F3_eq by (auto; lia). reflexivity. }
  rewrite E3, E2, E1. cbv zeta. unfold vnew. rewrite !add_flux_eq.
  set (f1 := vf1 c g k j i). set (f1' := vf1 c g k j (i + 1)). set (f2 := vf2 c g k j i). set (f2' := vf2 c g k (j + 1) i). set (f3 := vf3 c g k j i). set (f3' := vf3 c g (k + 1) j i).
  clearbody f1 f1' f2 f2' f3 f3'. clear E1 E2 E3.
  destruct (two c), (three c), (barotropic c); cbn [cd cM1 cM2 cM3 cE cB1 cB2 cB3 cs]; f_equal; ring.
Qed.
Lemma visc_outside : forall h k j i, ~ active3 g k j i -> U (viscosity c h z g) k j i = U g k j i.
Proof.
  intros h k j i Hn. unfold viscosity, set_U, Uv3, Uv2, Uv1. cbn [U].
  assert (O : forall f old, loop3 (ks g) (ke g) (js g) (je g) (is g) (ie g) f old k j i = old k j i :> cons).
  { intros f old. apply loop3_out. unfold active3 in Hn. lia. }
  destruct (three c); rewrite ?O; destruct (two c); rewrite ?O; reflexivity.
Qed.
End Fluxes.

Section Local.
Variables (c : dcfg) (g g' : grid3) (k j i k' j' i' a b : Z).
Hypothesis (N : dnear c g g' k j i k' j' i' a b).
Lemma mU : forall p q r p' q' r', (p' - k' = p - k)%Z -> (q' - j' = q - j)%Z -> (r' - i' = r - i)%Z -> offset c a b (p - k) (q - j) (r - i) ->
  U g' p' q' r' = U g p q r.
Proof.
  intros p q r p' q' r' A B C O. pose proof (dn_U _ _ _ _ _ _ _ _ _ _ _ N _ _ _ O) as E.
  replace p' with (k' + (p - k))%Z by lia. replace q' with (j' + (q - j))%Z by lia. replace r' with (i' + (r - i))%Z by lia. rewrite E.
  f_equal; lia.
Qed.
Lemma mB1 : forall p q r p' q' r', (p' - k' = p - k)%Z -> (q' - j' = q - j)%Z -> (r' - i' = r - i)%Z -> offset c a b (p - k) (q - j) (r - i) -> (a < r - i)%Z ->
  B1i g' p' q' r' = B1i g p q r.
Proof.
  intros p q r p' q' r' A B C O D. pose proof (dn_B1 _ _ _ _ _ _ _ _ _ _ _ N _ _ _ O D) as E.
  replace p' with (k' + (p - k))%Z by lia. replace q' with (j' + (q - j))%Z by lia. replace r' with (i' + (r - i))%Z by lia. rewrite E.
  f_equal; lia.
Qed.
Lemma mB2 : forall p q r p' q' r', (p' - k' = p - k)%Z -> (q' - j' = q - j)%Z -> (r' - i' = r - i)%Z -> offset c a b (p - k) (q - j) (r - i) ->
  (two c = true -> a < q - j)%Z -> B2i g' p' q' r' = B2i g p q r.
Proof.
  intros p q r p' q' r' A B C O D. pose proof (dn_B2 _ _ _ _ _ _ _ _ _ _ _ N _ _ _ O D) as E.
  replace p' with (k' + (p - k))%Z by lia. replace q' with (j' + (q - j))%Z by lia. replace r' with (i' + (r - i))%Z by lia. rewrite E.
  f_equal; lia.
Qed.
Lemma mB3 : forall p q r p' q' r', (p' - k' = p - k)%Z -> (q' - j' = q - j)%Z -> (r' - i' = r - i)%Z -> offset c a b (p - k) (q - j) (r - i) ->
  (three c = true -> a < p - k)%Z -> B3i g' p' q' r' = B3i g p q r.
Proof.
  intros p q r p' q' r' A B C O D. pose proof (dn_B3 _ _ _ _ _ _ _ _ _ _ _ N _ _ _ O D) as E.
  replace p' with (k' + (p - k))%Z by lia. replace q' with (j' + (q - j))%Z by lia. replace r' with (i' + (r - i))%Z by lia. rewrite E.
  f_equal; lia.
Qed.
End Local.

Ltac mloc N Tw Th := first
  [ eapply (mU _ _ _ _ _ _ _ _ _ _ _ N) | eapply (mB1 _ _ _ _ _ _ _ _ _ _ _ N) | eapply (mB2 _ _ _ _ _ _ _ _ _ _ _ N) | eapply (mB3 _ _ _ _ _ _ _ _ _ _ _ N)
  | apply (dn_dx1 _ _ _ _ _ _ _ _ _ _ _ N) | apply (dn_dx2 _ _ _ _ _ _ _ _ _ _ _ N) | apply (dn_dx3 _ _ _ _ _ _ _ _ _ _ _ N) ];
  unfold offset; rewrite ?Tw, ?Th; intros; try discriminate; try lia.

Section FluxLocal.
Variables (c : dcfg) (g g' : grid3) (k j i k' j' i' : Z).
Hypothesis (N : dnear c g g' k j i k' j' i' (-2) 2) (D32 : three c = true -> two c = true).
Lemma vf1_local : forall d, (0 <= d <= 1)%Z -> vf1 c g' k' j' (i' + d) = vf1 c g k j (i + d).
Proof.
  intros d Hd. unfold vf1. cbv zeta. destruct (visc_aniso c) eqn:A; [apply an_two in A|];
  destruct (two c) eqn:Tw, (three c) eqn:Th; try (specialize (D32 eq_refl); discriminate); try discriminate;
    destruct (viso c); unfold iso1, Dm, Vm, aniso_x1, dT2, dT3, com; cbv beta zeta; rewrite ?Tw, ?Th; vcong ltac:(mloc N Tw Th).
Qed.
Lemma vf2_local : forall d, two c = true -> (0 <= d <= 1)%Z -> vf2 c g' k' (j' + d) i' = vf2 c g k (j + d) i.
Proof.
  intros d Tw Hd. unfold vf2. cbv zeta. destruct (visc_aniso c) eqn:A; destruct (three c) eqn:Th;
    destruct (viso c); unfold iso2, Dm, Vm, aniso_x2, dT1, dT3, com; cbv beta zeta; rewrite ?Tw, ?Th; vcong ltac:(mloc N Tw Th).
Qed.
Lemma vf3_local : forall d, three c = true -> (0 <= d <= 1)%Z -> vf3 c g' (k' + d) j' i' = vf3 c g (k + d) j i.
Proof.
  intros d Th Hd. pose proof (D32 Th) as Tw. unfold vf3. cbv zeta. destruct (visc_aniso c) eqn:A;
    destruct (viso c); unfold iso3, Dm, Vm, aniso_x3, dT1, dT2, com; cbv beta zeta; rewrite ?Tw, ?Th; vcong ltac:(mloc N Tw Th).
Qed.
End FluxLocal.

(** ** Only momentum and energy of active zones change (the energy only if the run has one) *)
Theorem C77_only_momentum_energy : forall c h z g, shaped c g ->
  same_but_U g (viscosity c h z g) /\
  forall k j i, let u := U g k j i in let u' := U (viscosity c h z g) k j i in
    cd u' = cd u /\ cB1 u' = cB1 u /\ cB2 u' = cB2 u /\ cB3 u' = cB3 u /\ cs u' = cs u /\ (barotropic c = true -> cE u' = cE u).
Proof.
  intros c h z g S. split; [constructor; try reflexivity; intros; now apply visc_outside|].
  intros k j i. cbv zeta. destruct (classic_active g k j i) as [A|A].
  - rewrite (visc_cell c z g S h k j i A). cbv zeta. cbn [cd cM1 cM2 cM3 cE cB1 cB2 cB3 cs]. repeat split; try reflexivity. now intros ->.
  - rewrite visc_outside by assumption. repeat split; reflexivity.
Qed.
Print Assumptions C77_only_momentum_energy.

(** ** The outcome in a cell depends only on the cells around it *)
Theorem C77_local : forall c h z z' g g' k j i k' j' i',
  shaped c g -> shaped c g' -> active3 g k j i -> active3 g' k' j' i' -> dnear c g g' k j i k' j' i' (-2) 2 ->
  U (viscosity c h z' g') k' j' i' = U (viscosity c h z g) k j i.
Proof.
  intros c h z z' g g' k j i k' j' i' S S' A A' N. rewrite (visc_cell c z g S h k j i A), (visc_cell c z' g' S' h k' j' i' A').
  assert (D32 : three c = true -> two c = true) by (destruct S; tauto). cbv zeta.
  assert (EU : U g' k' j' i' = U g k j i).
  { eapply (mU _ _ _ _ _ _ _ _ _ _ _ N); try lia. unfold offset. destruct (two c), (three c); lia. }
  assert (E : forall f x, vnew c g' h k' j' i' f x = vnew c g h k j i f x).
  { intros f x. unfold vnew. rewrite (dn_dx1 _ _ _ _ _ _ _ _ _ _ _ N), (dn_dx2 _ _ _ _ _ _ _ _ _ _ _ N), (dn_dx3 _ _ _ _ _ _ _ _ _ _ _ N).
    pose proof (vf1_local c g g' k j i k' j' i' N D32 0 ltac:(lia)) as G0. pose proof (vf1_local c g g' k j i k' j' i' N D32 1 ltac:(lia)) as G1.
    rewrite !Z.add_0_r in G0. rewrite G0, G1. f_equal; [f_equal|].
    - destruct (two c) eqn:Tw; [|ring]. assert (D : three c = true -> two c = true) by (intros; exact Tw). pose proof (vf2_local c g g' k j i k' j' i' N D 0 Tw ltac:(lia)) as H0. pose proof (vf2_local c g g' k j i k' j' i' N D 1 Tw ltac:(lia)) as H1.
      rewrite !Z.add_0_r in H0. rewrite H0, H1. reflexivity.
    - destruct (three c) eqn:Th; [|ring]. assert (D : three c = true -> two c = true) by (intros; now apply D32).
      pose proof (vf3_local c g g' k j i k' j' i' N D 0 Th ltac:(lia)) as H0. pose proof (vf3_local c g g' k j i k' j' i' N D 1 Th ltac:(lia)) as H1.
      rewrite !Z.add_0_r in H0. rewrite H0, H1. reflexivity. }
  rewrite EU, !E. reflexivity.
Qed.
Print Assumptions C77_local.

(** ** With periodic data momentum and energy are conserved *)
Lemma wper1 : forall c g k j, shaped c g -> dperiodic c g -> (ks g <= k <= ke g)%Z -> (js g <= j <= je g)%Z ->
  dnear c g g k j (is g) k j (ie g + 1) (-2) 2.
Proof.
  intros c g k j ((L1 & L2 & L3) & D2 & D3 & D32) P Hk Hj.
  assert (Q : forall dk dj di, offset c (-2) 2 dk dj di -> dimage c g (k + dk) (j + dj) (is g + di) (k + dk) (j + dj) (ie g + 1 + di)).
  { intros dk dj di O. unfold offset in O. replace (ie g + 1 + di)%Z with (is g + di + (ie g - is g + 1))%Z by lia.
    apply P; unfold dzone, nghost; destruct (two c), (three c); try specialize (D2 eq_refl); try specialize (D3 eq_refl); lia. }
  split; try reflexivity; intros dk dj di O; destruct (Q _ _ _ O) as (E0 & E1 & E2 & E3); unfold offset, nghost in *.
  - exact E0.
  - intros H. apply E1. unfold nghost. lia.
  - intros H. apply E2. unfold nghost. intros T. rewrite T in *. destruct (three c); lia.
  - intros H. apply E3. unfold nghost. intros T. rewrite T in *. destruct (two c); lia.
Qed.
Lemma wper2 : forall c g k i, shaped c g -> dperiodic c g -> two c = true -> (ks g <= k <= ke g)%Z -> (is g <= i <= ie g)%Z ->
  dnear c g g k (js g) i k (je g + 1) i (-2) 2.
Proof.
  intros c g k i ((L1 & L2 & L3) & D2 & D3 & D32) P Tw Hk Hi.
  assert (Q : forall dk dj di, offset c (-2) 2 dk dj di -> dimage c g (k + dk) (js g + dj) (i + di) (k + dk) (je g + 1 + dj) (i + di)).
  { intros dk dj di O. unfold offset in O. replace (je g + 1 + dj)%Z with (js g + dj + (je g - js g + 1))%Z by lia.
    apply P; auto; unfold dzone, nghost; destruct (two c), (three c); try specialize (D2 eq_refl); try specialize (D3 eq_refl); try discriminate; lia. }
  split; try reflexivity; intros dk dj di O; destruct (Q _ _ _ O) as (E0 & E1 & E2 & E3); unfold offset, nghost in *.
  - exact E0.
  - intros H. apply E1. unfold nghost. lia.
  - intros H. apply E2. unfold nghost. intros T. rewrite T in *. destruct (three c); lia.
  - intros H. apply E3. unfold nghost. intros T. rewrite T in *. destruct (two c); lia.
Qed.
Lemma wper3 : forall c g j i, shaped c g -> dperiodic c g -> three c = true -> (js g <= j <= je g)%Z -> (is g <= i <= ie g)%Z ->
  dnear c g g (ks g) j i (ke g + 1) j i (-2) 2.
Proof.
  intros c g j i ((L1 & L2 & L3) & D2 & D3 & D32) P Th Hj Hi. pose proof (D32 Th) as Tw.
  assert (Q : forall dk dj di, offset c (-2) 2 dk dj di -> dimage c g (ks g + dk) (j + dj) (i + di) (ke g + 1 + dk) (j + dj) (i + di)).
  { intros dk dj di O. unfold offset in O. replace (ke g + 1 + dk)%Z with (ks g + dk + (ke g - ks g + 1))%Z by lia.
    apply P; auto; unfold dzone, nghost; rewrite Tw, Th in *; lia. }
  split; try reflexivity; intros dk dj di O; destruct (Q _ _ _ O) as (E0 & E1 & E2 & E3); unfold offset, nghost in *.
  - exact E0.
  - intros H. apply E1. unfold nghost. lia.
  - intros H. apply E2. unfold nghost. intros T. rewrite T in *. destruct (three c); lia.
  - intros H. apply E3. unfold nghost. intros T. rewrite T in *. destruct (two c); lia.
Qed.
Theorem C77_periodic : forall c h z g q, shaped c g -> dperiodic c g ->
  total3 (fun u _ _ _ => density q u) (viscosity c h z g) = total3 (fun u _ _ _ => density q u) g.
Proof.
  intros c h z g q S P. assert (D32 : three c = true -> two c = true) by (destruct S; tauto). pose proof S as ((L1 & L2 & L3) & _).
  assert (W : forall f p, (forall k j i, active3 g k j i -> p (U (viscosity c h z g) k j i) = vnew c g h k j i f (p (U g k j i))) ->
    total3 (fun u _ _ _ => p u) (viscosity c h z g) = total3 (fun u _ _ _ => p u) g).
  { intros f p Hp. apply Rminus_diag_uniq.
    rewrite (tele_total (fun u _ _ _ => p u) (fun k j i => f (vf1 c g k j i)) (fun k j i => if two c then f (vf2 c g k j i) else 0) (fun k j i => if three c then f (vf3 c g k j i) else 0) g (viscosity c h z g)
      (- (h / dx1 g)) (if two c then - (h / dx2 g) else 0) (if three c then - (h / dx3 g) else 0)); try reflexivity.
    - apply edge_zero.
      + intros k j Hk Hj. pose proof (vf1_local c g g k j (is g) k j (ie g + 1) (wper1 c g k j S P Hk Hj) D32 0 ltac:(lia)) as E. rewrite !Z.add_0_r in E. now rewrite E.
      + intros k i Hk Hi. destruct (two c) eqn:Tw; [|reflexivity]. assert (D : three c = true -> two c = true) by (intros; exact Tw). pose proof (vf2_local c g g k (js g) i k (je g + 1) i (wper2 c g k i S P Tw Hk Hi) D 0 Tw ltac:(lia)) as E.
        rewrite !Z.add_0_r in E. now rewrite E.
      + intros j i Hj Hi. destruct (three c) eqn:Th; [|reflexivity]. assert (D : three c = true -> two c = true) by (intros; now apply D32).
        pose proof (vf3_local c g g (ks g) j i (ke g + 1) j i (wper3 c g j i S P Th Hj Hi) D 0 Th ltac:(lia)) as E. rewrite !Z.add_0_r in E. now rewrite E.
    - now repeat split.
    - intros k j i A. rewrite (Hp k j i A). unfold vnew. destruct (two c), (three c); ring. }
  assert (W0 : forall p, (forall k j i, p (U (viscosity c h z g) k j i) = p (U g k j i)) -> total3 (fun u _ _ _ => p u) (viscosity c h z g) = total3 (fun u _ _ _ => p u) g).
  { intros p Hp. unfold total3. cbn [ks ke js je is ie viscosity set_U]. apply sumZ_ext. intros. apply sumZ_ext. intros. apply sumZ_ext. intros. apply Hp. }
  destruct (C77_only_momentum_energy c h z g S) as (_ & K).
  destruct q; cbn [density].
  - apply W0. intros. apply K.
  - apply (W fx cM1). intros k j i A. now rewrite (visc_cell c z g S h k j i A).
  - apply (W fy cM2). intros k j i A. now rewrite (visc_cell c z g S h k j i A).
  - apply (W fz cM3). intros k j i A. now rewrite (visc_cell c z g S h k j i A).
  - destruct (barotropic c) eqn:Bt.
    + apply W0. intros. now apply K.
    + apply (W fe cE). intros k j i A. rewrite (visc_cell c z g S h k j i A). cbv zeta. now rewrite Bt.
  - apply W0. intros. apply K.
  - apply W0. intros. apply K.
  - apply W0. intros. apply K.
  - apply W0. intros. f_equal. apply K.
Qed.
Print Assumptions C77_periodic.
