(** * Thermal conduction: what it changes, conservation, locality, direction of heat *)
From Coq Require Import Reals ZArith List Bool Lia Lra Psatz.
From Verif Require Import GasModel ConvProps IntegModel IntegSpec IntegFacts Ctu3Model Integ3Spec Integ3Props CondModel DiffSpec.
Open Scope R_scope.

(** The temperature array, without the bounds of the loop that fills it. *)
Definition Tm (c : dcfg) (g : grid3) (k j i : Z) : R := temp (mhd c) (Gamma_1 c) (U g k j i).
Definition iso_on (c : dcfg) : bool := if Rlt_dec 0 (kappa_iso c) then true else false.
(** The heat fluxes as functions of the data around the face. *)
Definition fq1 (c : dcfg) (g : grid3) (k j i : Z) : R :=
  (if iso_on c then kd (kappa_iso c) (U g k j i) (U g k j (i - 1)%Z) * (Tm c g k j i - Tm c g k j (i - 1)%Z) / dx1 g else 0)
  + (if aniso_on c then aniso1 c g (Tm c g) k j i else 0).
Definition fq2 (c : dcfg) (g : grid3) (k j i : Z) : R :=
  (if iso_on c then if two c then kd (kappa_iso c) (U g k j i) (U g k (j - 1)%Z i) * (Tm c g k j i - Tm c g k (j - 1)%Z i) / dx2 g else 0 else 0)
  + (if aniso_on c then aniso2 c g (Tm c g) k j i else 0).
Definition fq3 (c : dcfg) (g : grid3) (k j i : Z) : R :=
  (if iso_on c then if three c then kd (kappa_iso c) (U g k j i) (U g (k - 1)%Z j i) * (Tm c g k j i - Tm c g (k - 1)%Z j i) / dx3 g else 0 else 0)
  + (if aniso_on c && three c then aniso3 c g (Tm c g) k j i else 0).

Ltac cong leaf := lazymatch goal with
  | |- ?x = ?x => reflexivity
  | |- U _ _ _ _ = U _ _ _ _ => leaf
  | |- Temp _ _ _ _ _ _ = Tm _ _ _ _ _ => leaf
  | |- B1i _ _ _ _ = B1i _ _ _ _ => leaf
  | |- B2i _ _ _ _ = B2i _ _ _ _ => leaf
  | |- B3i _ _ _ _ = B3i _ _ _ _ => leaf
  | |- dx1 _ = dx1 _ => leaf
  | |- dx2 _ = dx2 _ => leaf
  | |- dx3 _ = dx3 _ => leaf
  | |- _ => f_equal; cong leaf
  end.

Lemma classic_active : forall g k j i, active3 g k j i \/ ~ active3 g k j i.
Proof. intros g k j i. unfold active3. lia. Qed.

Section Fluxes.
Variables (c : dcfg) (z : cscratch) (g : grid3).
Hypothesis (S : shaped c g).
Lemma Temp_in : forall k j i, (ckl c g <= k <= cku c g)%Z -> (cjl c g <= j <= cju c g)%Z -> (is g - 1 <= i <= ie g + 1)%Z ->
  Temp c z g k j i = Tm c g k j i.
Proof. intros k j i Hk Hj Hi. unfold Temp. rewrite loop3_in by lia. reflexivity. Qed.
Ltac tin := apply Temp_in; unfold ckl, cku, cjl, cju in *; destruct (two c), (three c); try discriminate; lia.
Lemma Qz_in : forall old k j i, (ckl c g <= k <= cku c g)%Z -> (cjl c g <= j <= cju c g)%Z -> (is g - 1 <= i <= ie g + 1)%Z -> Qz c g old k j i = 0.
Proof. intros old k j i Hk Hj Hi. unfold Qz. rewrite loop3_in by lia. reflexivity. Qed.
Lemma aniso_two : aniso_on c = true -> two c = true.
Proof. unfold aniso_on. intros H. apply andb_prop in H. tauto. Qed.

Lemma Q1_eq : forall k j i, (ks g <= k <= ke g)%Z -> (js g <= j <= je g)%Z -> (is g <= i <= ie g + 1)%Z -> Q1 c z g k j i = fq1 c g k j i.
Proof.
  intros k j i Hk Hj Hi. destruct S as ((N1 & N2 & N3) & D2 & D3 & D32).
  assert (Hz : Qz c g (z_Q1 z) k j i = 0) by (apply Qz_in; unfold ckl, cku, cjl, cju; destruct (two c), (three c); lia).
  assert (E : Qi1 c z g k j i = if iso_on c then kd (kappa_iso c) (U g k j i) (U g k j (i - 1)%Z) * (Tm c g k j i - Tm c g k j (i - 1)%Z) / dx1 g else 0).
  { unfold Qi1, iso_on. destruct (Rlt_dec 0 (kappa_iso c)); [rewrite loop3_in by lia; rewrite Hz, Rplus_0_l|exact Hz].
    rewrite !Temp_in by (unfold ckl, cku, cjl, cju; destruct (two c), (three c); lia). reflexivity. }
  unfold Q1, fq1. rewrite <- E. destruct (aniso_on c) eqn:A; [|ring]. pose proof (aniso_two A) as Tw.
  rewrite loop3_in by lia. f_equal. unfold aniso1, dT2, dT3. cbv zeta. destruct (three c) eqn:Th.
  all: cong ltac:(apply Temp_in; unfold ckl, cku, cjl, cju; rewrite ?Tw, ?Th; lia).
Qed.
Lemma Q2_eq : forall k j i, two c = true -> (ks g <= k <= ke g)%Z -> (js g <= j <= je g + 1)%Z -> (is g <= i <= ie g)%Z -> Q2 c z g k j i = fq2 c g k j i.
Proof.
  intros k j i Tw Hk Hj Hi. destruct S as ((N1 & N2 & N3) & D2 & D3 & D32).
  assert (Hz : Qz c g (z_Q2 z) k j i = 0) by (apply Qz_in; unfold ckl, cku, cjl, cju; rewrite ?Tw; destruct (three c); lia).
  assert (E : Qi2 c z g k j i = if iso_on c then if two c then kd (kappa_iso c) (U g k j i) (U g k (j - 1)%Z i) * (Tm c g k j i - Tm c g k (j - 1)%Z i) / dx2 g else 0 else 0).
  { unfold Qi2, iso_on. rewrite Tw. destruct (Rlt_dec 0 (kappa_iso c)); [rewrite loop3_in by lia; rewrite Hz, Rplus_0_l|exact Hz].
    rewrite !Temp_in by (unfold ckl, cku, cjl, cju; rewrite ?Tw; destruct (three c); lia). reflexivity. }
  unfold Q2, fq2. rewrite <- E. destruct (aniso_on c) eqn:A; [|ring].
  rewrite loop3_in by lia. f_equal. unfold aniso2, dT1, dT3. cbv zeta. destruct (three c) eqn:Th.
  all: cong ltac:(apply Temp_in; unfold ckl, cku, cjl, cju; rewrite ?Tw, ?Th; lia).
Qed.
Lemma Q3_eq : forall k j i, three c = true -> (ks g <= k <= ke g + 1)%Z -> (js g <= j <= je g)%Z -> (is g <= i <= ie g)%Z -> Q3 c z g k j i = fq3 c g k j i.
Proof.
  intros k j i Th Hk Hj Hi. destruct S as ((N1 & N2 & N3) & D2 & D3 & D32). pose proof (D32 Th) as Tw.
  assert (Hz : Qz c g (z_Q3 z) k j i = 0) by (apply Qz_in; unfold ckl, cku, cjl, cju; rewrite ?Tw, ?Th; lia).
  assert (E : Qi3 c z g k j i = if iso_on c then if three c then kd (kappa_iso c) (U g k j i) (U g (k - 1)%Z j i) * (Tm c g k j i - Tm c g (k - 1)%Z j i) / dx3 g else 0 else 0).
  { unfold Qi3, iso_on. rewrite Th. destruct (Rlt_dec 0 (kappa_iso c)); [rewrite loop3_in by lia; rewrite Hz, Rplus_0_l|exact Hz].
    rewrite !Temp_in by (unfold ckl, cku, cjl, cju; rewrite ?Tw, ?Th; lia). reflexivity. }
  unfold Q3, fq3. rewrite <- E. destruct (aniso_on c && three c) eqn:A; [|ring].
  rewrite loop3_in by lia. f_equal. unfold aniso3, dT1, dT2. cbv zeta.
  all: cong ltac:(apply Temp_in; unfold ckl, cku, cjl, cju; rewrite ?Tw, ?Th; lia).
Qed.
(** What a call does to an active cell. *)
Lemma cond_cell : forall h k j i, active3 g k j i -> U (conduction c h z g) k j i =
  set_E (U g k j i) (cE (U g k j i)
    - (- (h / dx1 g)) * (fq1 c g k j (i + 1) - fq1 c g k j i)
    - (if two c then - (h / dx2 g) else 0) * (fq2 c g k (j + 1) i - fq2 c g k j i)
    - (if three c then - (h / dx3 g) else 0) * (fq3 c g (k + 1) j i - fq3 c g k j i)).
Proof.
  intros h k j i (Hk & Hj & Hi). unfold conduction, set_U. cbn [U]. destruct S as (_ & _ & _ & D32).
  assert (E1 : Uc1 c h z g k j i = set_E (U g k j i) (cE (U g k j i) + h / dx1 g * (fq1 c g k j (i + 1) - fq1 c g k j i))).
  { unfold Uc1. rewrite loop3_in by lia. unfold addE. rewrite !Q1_eq by lia. reflexivity. }
  assert (E2 : Uc2 c h z g k j i = set_E (U g k j i) (cE (U g k j i) + h / dx1 g * (fq1 c g k j (i + 1) - fq1 c g k j i)
     + (if two c then h / dx2 g else 0) * (fq2 c g k (j + 1) i - fq2 c g k j i))).
  { unfold Uc2. destruct (two c) eqn:Tw; [rewrite loop3_in by lia|]; rewrite E1.
    - unfold addE, set_E. cbn [cd cM1 cM2 cM3 cE cB1 cB2 cB3 cs]. rewrite !Q2_eq by (auto; lia). reflexivity.
    - f_equal. ring. }
  unfold Uc3. destruct (three c) eqn:Th; [rewrite loop3_in by lia|]; rewrite E2.
  - unfold addE, set_E. cbn [cd cM1 cM2 cM3 cE cB1 cB2 cB3 cs]. rewrite !Q3_eq by (auto; lia). f_equal. rewrite (D32 eq_refl). ring.
  - f_equal. destruct (two c); ring.
Qed.
Lemma cond_outside : forall h k j i, ~ active3 g k j i -> U (conduction c h z g) k j i = U g k j i.
Proof.
  intros h k j i Hn. unfold conduction, set_U, Uc3, Uc2, Uc1. cbn [U].
  assert (O : forall f old, loop3 (ks g) (ke g) (js g) (je g) (is g) (ie g) f old k j i = old k j i :> cons).
  { intros f old. apply loop3_out. unfold active3 in Hn. lia. }
  destruct (three c); rewrite ?O; destruct (two c); rewrite ?O; reflexivity.
Qed.
End Fluxes.

Section Local.
Variables (c : dcfg) (g g' : grid3) (k j i k' j' i' : Z).
Hypothesis (N : dnear c g g' k j i k' j' i' (-1) 1).
Lemma nU : forall p q r p' q' r', (p' - k' = p - k)%Z -> (q' - j' = q - j)%Z -> (r' - i' = r - i)%Z -> offset c (-1) 1 (p - k) (q - j) (r - i) ->
  U g' p' q' r' = U g p q r.
Proof.
  intros p q r p' q' r' A B C O. pose proof (dn_U _ _ _ _ _ _ _ _ _ _ _ N _ _ _ O) as E.
  replace p' with (k' + (p - k))%Z by lia. replace q' with (j' + (q - j))%Z by lia. replace r' with (i' + (r - i))%Z by lia. rewrite E.
  f_equal; lia.
Qed.
Lemma nB1 : forall p q r p' q' r', (p' - k' = p - k)%Z -> (q' - j' = q - j)%Z -> (r' - i' = r - i)%Z -> offset c (-1) 1 (p - k) (q - j) (r - i) -> (-1 < r - i)%Z ->
  B1i g' p' q' r' = B1i g p q r.
Proof.
  intros p q r p' q' r' A B C O D. pose proof (dn_B1 _ _ _ _ _ _ _ _ _ _ _ N _ _ _ O D) as E.
  replace p' with (k' + (p - k))%Z by lia. replace q' with (j' + (q - j))%Z by lia. replace r' with (i' + (r - i))%Z by lia. rewrite E.
  f_equal; lia.
Qed.
Lemma nB2 : forall p q r p' q' r', (p' - k' = p - k)%Z -> (q' - j' = q - j)%Z -> (r' - i' = r - i)%Z -> offset c (-1) 1 (p - k) (q - j) (r - i) ->
  (two c = true -> -1 < q - j)%Z -> B2i g' p' q' r' = B2i g p q r.
Proof.
  intros p q r p' q' r' A B C O D. pose proof (dn_B2 _ _ _ _ _ _ _ _ _ _ _ N _ _ _ O D) as E.
  replace p' with (k' + (p - k))%Z by lia. replace q' with (j' + (q - j))%Z by lia. replace r' with (i' + (r - i))%Z by lia. rewrite E.
  f_equal; lia.
Qed.
Lemma nB3 : forall p q r p' q' r', (p' - k' = p - k)%Z -> (q' - j' = q - j)%Z -> (r' - i' = r - i)%Z -> offset c (-1) 1 (p - k) (q - j) (r - i) ->
  (three c = true -> -1 < p - k)%Z -> B3i g' p' q' r' = B3i g p q r.
Proof.
  intros p q r p' q' r' A B C O D. pose proof (dn_B3 _ _ _ _ _ _ _ _ _ _ _ N _ _ _ O D) as E.
  replace p' with (k' + (p - k))%Z by lia. replace q' with (j' + (q - j))%Z by lia. replace r' with (i' + (r - i))%Z by lia. rewrite E.
  f_equal; lia.
Qed.
End Local.

Ltac loc N Tw Th := first
  [ eapply (nU _ _ _ _ _ _ _ _ _ N) | eapply (nB1 _ _ _ _ _ _ _ _ _ N) | eapply (nB2 _ _ _ _ _ _ _ _ _ N) | eapply (nB3 _ _ _ _ _ _ _ _ _ N)
  | apply (dn_dx1 _ _ _ _ _ _ _ _ _ _ _ N) | apply (dn_dx2 _ _ _ _ _ _ _ _ _ _ _ N) | apply (dn_dx3 _ _ _ _ _ _ _ _ _ _ _ N) ];
  unfold offset; rewrite ?Tw, ?Th; intros; try discriminate; try lia.

Section FluxLocal.
Variables (c : dcfg) (g g' : grid3) (k j i k' j' i' : Z).
Hypothesis (N : dnear c g g' k j i k' j' i' (-1) 1) (D32 : three c = true -> two c = true).
Lemma fq1_local : forall d, (0 <= d <= 1)%Z -> fq1 c g' k' j' (i' + d) = fq1 c g k j (i + d).
Proof.
  intros d Hd. unfold fq1. destruct (two c) eqn:Tw, (three c) eqn:Th; try (specialize (D32 eq_refl); discriminate); destruct (aniso_on c) eqn:A;
    try (apply aniso_two in A; congruence); destruct (iso_on c); unfold Tm, aniso1, dT2, dT3; cbv zeta; rewrite ?Th; cong ltac:(loc N Tw Th).
Qed.
Lemma fq2_local : forall d, two c = true -> (0 <= d <= 1)%Z -> fq2 c g' k' (j' + d) i' = fq2 c g k (j + d) i.
Proof.
  intros d Tw Hd. unfold fq2. rewrite Tw. destruct (three c) eqn:Th; destruct (aniso_on c) eqn:A;
    destruct (iso_on c); unfold Tm, aniso2, dT1, dT3; cbv zeta; rewrite ?Th; cong ltac:(loc N Tw Th).
Qed.
Lemma fq3_local : forall d, three c = true -> (0 <= d <= 1)%Z -> fq3 c g' (k' + d) j' i' = fq3 c g (k + d) j i.
Proof.
  intros d Th Hd. pose proof (D32 Th) as Tw. unfold fq3. rewrite Th. destruct (aniso_on c) eqn:A; cbn [andb];
    destruct (iso_on c); unfold Tm, aniso3, dT1, dT2; cbv zeta; rewrite ?Th; cong ltac:(loc N Tw Th).
Qed.
End FluxLocal.

(** ** Only the energy of active zones changes *)
Theorem C74_only_energy : forall c h z g, shaped c g ->
  same_but_U g (conduction c h z g) /\
  forall k j i, let u := U g k j i in let u' := U (conduction c h z g) k j i in
    cd u' = cd u /\ cM1 u' = cM1 u /\ cM2 u' = cM2 u /\ cM3 u' = cM3 u /\ cB1 u' = cB1 u /\ cB2 u' = cB2 u /\ cB3 u' = cB3 u /\ cs u' = cs u.
Proof.
  intros c h z g S. split; [constructor; try reflexivity; intros; now apply cond_outside|].
  intros k j i. cbv zeta.
  destruct (classic_active g k j i) as [A|A].
  - rewrite (cond_cell c z g S h k j i A). repeat split; reflexivity.
  - rewrite cond_outside by assumption. repeat split; reflexivity.
Qed.
Print Assumptions C74_only_energy.

(** ** The outcome in a cell depends only on the cells around it, wherever it is in a Grid *)
Theorem C74_local : forall c h z z' g g' k j i k' j' i',
  shaped c g -> shaped c g' -> active3 g k j i -> active3 g' k' j' i' -> dnear c g g' k j i k' j' i' (-1) 1 ->
  U (conduction c h z' g') k' j' i' = U (conduction c h z g) k j i.
Proof.
  intros c h z z' g g' k j i k' j' i' S S' A A' N. rewrite (cond_cell c z g S h k j i A), (cond_cell c z' g' S' h k' j' i' A').
  assert (D32 : three c = true -> two c = true) by (destruct S; tauto).
  assert (EU : U g' k' j' i' = U g k j i).
  { eapply (nU _ _ _ _ _ _ _ _ _ N); try lia. unfold offset. destruct (two c), (three c); lia. }
  pose proof (fq1_local c g g' k j i k' j' i' N D32 0 ltac:(lia)) as F0. pose proof (fq1_local c g g' k j i k' j' i' N D32 1 ltac:(lia)) as F1.
  rewrite !Z.add_0_r in F0. rewrite F0, F1, EU, (dn_dx1 _ _ _ _ _ _ _ _ _ _ _ N), (dn_dx2 _ _ _ _ _ _ _ _ _ _ _ N), (dn_dx3 _ _ _ _ _ _ _ _ _ _ _ N).
  f_equal. f_equal; [f_equal|].
  - destruct (two c) eqn:Tw; [|ring]. assert (D : three c = true -> two c = true) by (intros; exact Tw).
    pose proof (fq2_local c g g' k j i k' j' i' N D 0 Tw ltac:(lia)) as G0. pose proof (fq2_local c g g' k j i k' j' i' N D 1 Tw ltac:(lia)) as G1.
    rewrite !Z.add_0_r in G0. rewrite G0, G1. reflexivity.
  - destruct (three c) eqn:Th; [|ring]. assert (D : three c = true -> two c = true) by (intros; now apply D32).
    pose proof (fq3_local c g g' k j i k' j' i' N D 0 Th ltac:(lia)) as G0. pose proof (fq3_local c g g' k j i k' j' i' N D 1 Th ltac:(lia)) as G1.
    rewrite !Z.add_0_r in G0. rewrite G0, G1. reflexivity.
Qed.
Print Assumptions C74_local.

(** ** With periodic data the total energy does not change *)
Lemma per1 : forall c g k j, shaped c g -> dperiodic c g -> (ks g <= k <= ke g)%Z -> (js g <= j <= je g)%Z ->
  dnear c g g k j (is g) k j (ie g + 1) (-1) 1.
Proof.
  intros c g k j ((L1 & L2 & L3) & D2 & D3 & D32) P Hk Hj.
  assert (Q : forall dk dj di, offset c (-1) 1 dk dj di -> dimage c g (k + dk) (j + dj) (is g + di) (k + dk) (j + dj) (ie g + 1 + di)).
  { intros dk dj di O. unfold offset in O. replace (ie g + 1 + di)%Z with (is g + di + (ie g - is g + 1))%Z by lia.
    apply P; unfold dzone, nghost; destruct (two c), (three c); try specialize (D2 eq_refl); try specialize (D3 eq_refl); lia. }
  constructor; try reflexivity; intros dk dj di O; pose proof (Q dk dj di O) as (E0 & E1 & E2 & E3); unfold offset in O.
  - exact E0.
  - intros H. apply E1. unfold nghost. lia.
  - intros H. apply E2. unfold nghost. intros T. specialize (H T). rewrite T in O. lia.
  - intros H. apply E3. unfold nghost. intros T. specialize (H T). rewrite T in O. lia.
Qed.
Lemma per2 : forall c g k i, shaped c g -> dperiodic c g -> two c = true -> (ks g <= k <= ke g)%Z -> (is g <= i <= ie g)%Z ->
  dnear c g g k (js g) i k (je g + 1) i (-1) 1.
Proof.
  intros c g k i ((L1 & L2 & L3) & D2 & D3 & D32) P Tw Hk Hi.
  assert (Q : forall dk dj di, offset c (-1) 1 dk dj di -> dimage c g (k + dk) (js g + dj) (i + di) (k + dk) (je g + 1 + dj) (i + di)).
  { intros dk dj di O. unfold offset in O. rewrite Tw in O. replace (je g + 1 + dj)%Z with (js g + dj + (je g - js g + 1))%Z by lia.
    apply P; auto; unfold dzone, nghost; rewrite Tw; destruct (three c); try specialize (D3 eq_refl); lia. }
  constructor; try reflexivity; intros dk dj di O; pose proof (Q dk dj di O) as (E0 & E1 & E2 & E3); unfold offset in O.
  - exact E0.
  - intros H. apply E1. unfold nghost. lia.
  - intros H. apply E2. unfold nghost. intros T. specialize (H T). rewrite T in O. lia.
  - intros H. apply E3. unfold nghost. intros T. specialize (H T). rewrite T in O. lia.
Qed.
Lemma per3 : forall c g j i, shaped c g -> dperiodic c g -> three c = true -> (js g <= j <= je g)%Z -> (is g <= i <= ie g)%Z ->
  dnear c g g (ks g) j i (ke g + 1) j i (-1) 1.
Proof.
  intros c g j i ((L1 & L2 & L3) & D2 & D3 & D32) P Th Hj Hi. pose proof (D32 Th) as Tw.
  assert (Q : forall dk dj di, offset c (-1) 1 dk dj di -> dimage c g (ks g + dk) (j + dj) (i + di) (ke g + 1 + dk) (j + dj) (i + di)).
  { intros dk dj di O. unfold offset in O. rewrite Tw, Th in O. replace (ke g + 1 + dk)%Z with (ks g + dk + (ke g - ks g + 1))%Z by lia.
    apply P; auto; unfold dzone, nghost; rewrite Tw, Th; lia. }
  constructor; try reflexivity; intros dk dj di O; pose proof (Q dk dj di O) as (E0 & E1 & E2 & E3); unfold offset in O.
  - exact E0.
  - intros H. apply E1. unfold nghost. lia.
  - intros H. apply E2. unfold nghost. intros T. specialize (H T). rewrite T in O. lia.
  - intros H. apply E3. unfold nghost. intros T. specialize (H T). rewrite T in O. lia.
Qed.

Theorem C74_energy_periodic : forall c h z g, shaped c g -> dperiodic c g ->
  total3 (fun u _ _ _ => cE u) (conduction c h z g) = total3 (fun u _ _ _ => cE u) g.
Proof.
  intros c h z g S P. assert (D32 : three c = true -> two c = true) by (destruct S; tauto). pose proof S as ((L1 & L2 & L3) & _).
  apply Rminus_diag_uniq.
  rewrite (tele_total (fun u _ _ _ => cE u) (fq1 c g) (if two c then fq2 c g else fun _ _ _ => 0) (if three c then fq3 c g else fun _ _ _ => 0) g (conduction c h z g)
    (- (h / dx1 g)) (if two c then - (h / dx2 g) else 0) (if three c then - (h / dx3 g) else 0)); try reflexivity.
  - apply edge_zero.
    + intros k j Hk Hj. pose proof (fq1_local c g g k j (is g) k j (ie g + 1) (per1 c g k j S P Hk Hj) D32 0 ltac:(lia)) as E.
      rewrite !Z.add_0_r in E. exact E.
    + intros k i Hk Hi. destruct (two c) eqn:Tw; [|reflexivity]. assert (D : three c = true -> two c = true) by (intros; exact Tw).
      pose proof (fq2_local c g g k (js g) i k (je g + 1) i (per2 c g k i S P Tw Hk Hi) D 0 Tw ltac:(lia)) as E. rewrite !Z.add_0_r in E. exact E.
    + intros j i Hj Hi. destruct (three c) eqn:Th; [|reflexivity]. assert (D : three c = true -> two c = true) by (intros; now apply D32).
      pose proof (fq3_local c g g (ks g) j i (ke g + 1) j i (per3 c g j i S P Th Hj Hi) D 0 Th ltac:(lia)) as E. rewrite !Z.add_0_r in E. exact E.
  - now repeat split.
  - intros k j i A. rewrite (cond_cell c z g S h k j i A). unfold set_E. cbn [cE]. destruct (two c), (three c); ring.
Qed.
Print Assumptions C74_energy_periodic.
