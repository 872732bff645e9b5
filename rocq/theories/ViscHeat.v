(** * Viscosity: linear flows keep their momentum and are heated at the rate of the dissipation function *)
From Coq Require Import Reals ZArith List Bool Lia Lra Psatz.
From Verif Require Import GasModel ConvProps IntegModel IntegSpec IntegFacts Ctu3Model Integ3Spec Integ3Props CondModel DiffSpec CondProps CondHeat CondMax CondRate ViscModel ViscProps.
Import ListNotations.
Open Scope R_scope.

Section Linear.
Variables (c : dcfg) (g : grid3) (k j i : Z) (d v1 v2 v3 : R) (A : matrix).
Hypothesis (Sh : shaped c g) (Sz : positive_sizes g) (Hd : d <> 0) (L : linear_flow c g k j i d v1 v2 v3 A).
Definition lin (p q r : Z) : vec :=
  let x := (IZR r - IZR i) * dx1 g in let y := (IZR q - IZR j) * dx2 g in let w := (IZR p - IZR k) * dx3 g in
  Vec (v1 + a11 A * x + a12 A * y + a13 A * w) (v2 + a21 A * x + a22 A * y + a23 A * w) (v3 + a31 A * x + a32 A * y + a33 A * w).
Lemma lin_d : forall p q r, offset c (-2) 2 (p - k) (q - j) (r - i) -> cd (U g p q r) = d.
Proof.
  intros p q r O. destruct (lf_U _ _ _ _ _ _ _ _ _ _ L _ _ _ O) as (E & _).
  replace (k + (p - k))%Z with p in E by lia. replace (j + (q - j))%Z with q in E by lia. replace (i + (r - i))%Z with r in E by lia. exact E.
Qed.
Lemma lin_V : forall p q r, offset c (-2) 2 (p - k) (q - j) (r - i) -> Vm g p q r = lin p q r.
Proof.
  intros p q r O. destruct (lf_U _ _ _ _ _ _ _ _ _ _ L _ _ _ O) as (E & E1 & E2 & E3).
  replace (k + (p - k))%Z with p in * by lia. replace (j + (q - j))%Z with q in * by lia. replace (i + (r - i))%Z with r in * by lia.
  unfold Vm, velof, lin. rewrite E, E1, E2, E3, !minus_IZR. f_equal; field; exact Hd.
Qed.
Ltac off Tw Th := unfold offset; rewrite ?Tw, ?Th; lia.
Ltac iz := rewrite ?minus_IZR, ?plus_IZR.
Lemma lin_D : forall p q r, offset c (-1) 1 (p - k) (q - j) (r - i) -> Dm c g p q r = trace A.
Proof.
  intros p q r O. destruct Sz as (P1 & P2 & P3). unfold Dm, trace, offset in *.
  destruct (two c) eqn:Tw, (three c) eqn:Th.
  - rewrite !lin_V by off Tw Th. unfold lin. cbn [vx vy vz]. iz. field. repeat split; lra.
  - destruct (lf_three _ _ _ _ _ _ _ _ _ _ L Th) as (Z1 & Z2 & Z3). rewrite !lin_V by off Tw Th. unfold lin. cbn [vx vy vz]. iz. rewrite Z1, Z2, Z3. field. repeat split; lra.
  - destruct Sh as (_ & _ & _ & D). specialize (D Th). congruence.
  - destruct (lf_two _ _ _ _ _ _ _ _ _ _ L Tw) as (Y1 & Y2 & Y3). destruct (lf_three _ _ _ _ _ _ _ _ _ _ L Th) as (Z1 & Z2 & Z3).
    rewrite !lin_V by off Tw Th. unfold lin. cbn [vx vy vz]. iz. rewrite Y2, Z3. field. repeat split; lra.
Qed.
(** The stress of the Navier-Stokes fluid. *)
Definition work (v : vec) (mx my mz : R) : R := vx v * mx + vy v * my + vz v * mz.
Definition nf (n : R) (v : vec) (mx my mz : R) : vflux := VFlux (n * mx) (n * my) (n * mz) (n * work v mx my mz).
Definition mid (a b : vec) : vec := Vec ((vx a + vx b) / 2) ((vy a + vy b) / 2) ((vz a + vz b) / 2).
Lemma iso_form : forall nu u u1 a b mx my mz, cd u = d -> cd u1 = d -> iso_flux nu u u1 a b mx my mz = nf (nu * d) (mid a b) mx my mz.
Proof. intros nu u u1 a b mx my mz E E1. unfold iso_flux, nf, work, mid. cbn [vx vy vz]. rewrite E, E1. unfold half. f_equal; field. Qed.
Lemma iso1_lin : forall r, r = i \/ r = (i + 1)%Z -> iso1 c g (Vm g) (Dm c g) k j r =
  nf (nu_iso c * d) (mid (lin k j r) (lin k j (r - 1))) (2 * a11 A - 2 / 3 * trace A) (a12 A + a21 A) (a13 A + a31 A).
Proof.
  intros r Hr. destruct Sz as (P1 & P2 & P3). unfold iso1. cbv beta zeta. assert (D32 : three c = true -> two c = true) by (destruct Sh; tauto).
  destruct (two c) eqn:Tw, (three c) eqn:Th; try (specialize (D32 eq_refl); discriminate).
  - rewrite !lin_D, !lin_V by off Tw Th. rewrite iso_form by (apply lin_d; off Tw Th). unfold lin. cbn [vx vy vz]. iz. unfold third. f_equal; field; repeat split; lra.
  - destruct (lf_three _ _ _ _ _ _ _ _ _ _ L Th) as (Z1 & Z2 & Z3).
    rewrite !lin_D, !lin_V by off Tw Th. rewrite iso_form by (apply lin_d; off Tw Th). unfold lin. cbn [vx vy vz]. iz. rewrite Z1. unfold third. f_equal; field; repeat split; lra.
  - destruct (lf_two _ _ _ _ _ _ _ _ _ _ L Tw) as (Y1 & Y2 & Y3). destruct (lf_three _ _ _ _ _ _ _ _ _ _ L Th) as (Z1 & Z2 & Z3).
    rewrite !lin_D, !lin_V by off Tw Th. rewrite iso_form by (apply lin_d; off Tw Th). unfold lin. cbn [vx vy vz]. iz. rewrite Y1, Z1. unfold third. f_equal; field; repeat split; lra.
Qed.
Lemma iso2_lin : forall q, two c = true -> q = j \/ q = (j + 1)%Z -> iso2 c g (Vm g) (Dm c g) k q i =
  nf (nu_iso c * d) (mid (lin k q i) (lin k (q - 1) i)) (a12 A + a21 A) (2 * a22 A - 2 / 3 * trace A) (a23 A + a32 A).
Proof.
  intros q Tw Hr. destruct Sz as (P1 & P2 & P3). unfold iso2. cbv beta zeta.
  destruct (three c) eqn:Th.
  - rewrite !lin_D, !lin_V by off Tw Th. rewrite iso_form by (apply lin_d; off Tw Th). unfold lin. cbn [vx vy vz]. iz. unfold third. f_equal; field; repeat split; lra.
  - destruct (lf_three _ _ _ _ _ _ _ _ _ _ L Th) as (Z1 & Z2 & Z3).
    rewrite !lin_D, !lin_V by off Tw Th. rewrite iso_form by (apply lin_d; off Tw Th). unfold lin. cbn [vx vy vz]. iz. rewrite Z2. unfold third. f_equal; field; repeat split; lra.
Qed.
Lemma iso3_lin : forall p, three c = true -> p = k \/ p = (k + 1)%Z -> iso3 c g (Vm g) (Dm c g) p j i =
  nf (nu_iso c * d) (mid (lin p j i) (lin (p - 1) j i)) (a13 A + a31 A) (a23 A + a32 A) (2 * a33 A - 2 / 3 * trace A).
Proof.
  intros p Th Hr. assert (Tw : two c = true) by (destruct Sh; tauto). destruct Sz as (P1 & P2 & P3). unfold iso3. cbv beta zeta.
  rewrite !lin_D, !lin_V by off Tw Th. rewrite iso_form by (apply lin_d; off Tw Th). unfold lin. cbn [vx vy vz]. iz. unfold third. f_equal; field; repeat split; lra.
Qed.

(** Braginskii. *)
Lemma lim_same : forall a b e f s, a = s -> b = s -> e = s -> f = s -> limiter4 a b e f = s.
Proof.
  intros a b e f s -> -> -> ->. unfold limiter4. assert (V : vanleer s s = s).
  { unfold vanleer. destruct (Rlt_dec 0 (s * s)) as [H|H]; [field; intros E; assert (s = 0) by lra; subst; lra|]. pose proof (Rle_0_sqr s). unfold Rsqr in *. nra. }
  now rewrite !V.
Qed.
Variables (b1 b2 b3 : R).
Hypothesis (F : uniform_field c g k j i b1 b2 b3) (Tb : TINY_NUMBER <= b1 * b1 + b2 * b2 + b3 * b3) (Tw : two c = true).
Lemma uni_B : forall p q r, offset c (-1) 1 (p - k) (q - j) (r - i) -> cB1 (U g p q r) = b1 /\ cB2 (U g p q r) = b2 /\ cB3 (U g p q r) = b3.
Proof.
  intros p q r O. pose proof (uf_U _ _ _ _ _ _ _ _ F _ _ _ O) as E. cbv zeta in E.
  replace (k + (p - k))%Z with p in E by lia. replace (j + (q - j))%Z with q in E by lia. replace (i + (r - i))%Z with r in E by lia. exact E.
Qed.
Ltac lims Th := unfold dT1, dT2, dT3, com; apply lim_same; rewrite !lin_V by off Tw Th; unfold lin; cbn [vx vy vz]; iz; ring.
Definition brag : R := 3 * (nu_aniso c * d) * strain_along A b1 b2 b3 / (b1 * b1 + b2 * b2 + b3 * b3).
Lemma aniso_form : forall u u1 a b bn sx sy sz, cd u = d -> cd u1 = d ->
  aniso_flux (nu_aniso c) u u1 a b b1 b2 b3 bn sx sy sz (a11 A) (a12 A) (a13 A) (a21 A) (a22 A) (a23 A) (a31 A) (a32 A) (a33 A)
  = let q := nu_aniso c * d * strain_along A b1 b2 b3 in let B := b1 * b1 + b2 * b2 + b3 * b3 in
    nf 1 (mid a b) (q * (3 * b1 * bn / B - sx)) (q * (3 * b2 * bn / B - sy)) (q * (3 * b3 * bn / B - sz)).
Proof.
  intros u u1 a b bn sx sy sz E E1. unfold aniso_flux. cbv zeta. rewrite E, E1. rewrite max_l by exact Tb. pose proof tiny_pos as TP.
  set (B := b1 * b1 + b2 * b2 + b3 * b3) in *.
  assert (Q : nu_aniso c * half * (d + d) * ((b1 * (b1 * a11 A + b2 * a12 A + b3 * a13 A) + b2 * (b1 * a21 A + b2 * a22 A + b3 * a23 A) + b3 * (b1 * a31 A + b2 * a32 A + b3 * a33 A)) / B - third * (a11 A + a22 A + a33 A))
    = nu_aniso c * d * strain_along A b1 b2 b3).
  { unfold strain_along, trace, half, third. fold B. field. lra. }
  rewrite Q. unfold nf, work, mid. cbn [vx vy vz].
  generalize (nu_aniso c * d * strain_along A b1 b2 b3 * (3 * b1 * bn / B - sx)), (nu_aniso c * d * strain_along A b1 b2 b3 * (3 * b2 * bn / B - sy)), (nu_aniso c * d * strain_along A b1 b2 b3 * (3 * b3 * bn / B - sz)).
  intros. unfold half. f_equal; try ring; field.
Qed.
Lemma aniso1_lin : forall r, r = i \/ r = (i + 1)%Z -> aniso_x1 c g (Vm g) k j r =
  let q := nu_aniso c * d * strain_along A b1 b2 b3 in let B := b1 * b1 + b2 * b2 + b3 * b3 in
  nf 1 (mid (lin k j r) (lin k j (r - 1))) (q * (3 * b1 * b1 / B - 1)) (q * (3 * b2 * b1 / B - 0)) (q * (3 * b3 * b1 / B - 0)).
Proof.
  intros r Hr. destruct Sz as (P1 & P2 & P3). rewrite <- (aniso_form (U g k j r) (U g k j (r - 1)%Z)) by (apply lin_d; unfold offset; rewrite Tw; destruct (three c); lia).
  unfold aniso_x1. cbv beta zeta.
  assert (E1 : B1i g k j r = b1) by (destruct (uf_B1 _ _ _ _ _ _ _ _ F); destruct Hr; subst r; assumption).
  destruct (three c) eqn:Th.
  - destruct (uni_B k j r ltac:(off Tw Th)) as (_ & E2 & E3). destruct (uni_B k j (r - 1) ltac:(off Tw Th)) as (_ & E4 & E5). rewrite E1, E2, E3, E4, E5.
    assert (X1 : dT2 (com vx (Vm g)) k j r k j (r - 1) = a12 A * dx2 g) by lims Th. assert (X2 : dT2 (com vy (Vm g)) k j r k j (r - 1) = a22 A * dx2 g) by lims Th.
    assert (X3 : dT2 (com vz (Vm g)) k j r k j (r - 1) = a32 A * dx2 g) by lims Th.
    assert (Y1 : dT3 (com vx (Vm g)) k j r k j (r - 1) = a13 A * dx3 g) by lims Th. assert (Y2 : dT3 (com vy (Vm g)) k j r k j (r - 1) = a23 A * dx3 g) by lims Th.
    assert (Y3 : dT3 (com vz (Vm g)) k j r k j (r - 1) = a33 A * dx3 g) by lims Th.
    rewrite X1, X2, X3, Y1, Y2, Y3. rewrite !lin_V by off Tw Th. unfold lin. cbn [vx vy vz]. iz. f_equal; unfold half; field; repeat split; lra.
  - destruct (uni_B k j r ltac:(off Tw Th)) as (_ & E2 & E3). destruct (uni_B k j (r - 1) ltac:(off Tw Th)) as (_ & E4 & E5). rewrite E1, E2, E3, E4, E5.
    destruct (lf_three _ _ _ _ _ _ _ _ _ _ L Th) as (Z1 & Z2 & Z3).
    assert (X1 : dT2 (com vx (Vm g)) k j r k j (r - 1) = a12 A * dx2 g) by lims Th. assert (X2 : dT2 (com vy (Vm g)) k j r k j (r - 1) = a22 A * dx2 g) by lims Th.
    assert (X3 : dT2 (com vz (Vm g)) k j r k j (r - 1) = a32 A * dx2 g) by lims Th.
    rewrite X1, X2, X3. rewrite !lin_V by off Tw Th. unfold lin. cbn [vx vy vz]. iz. rewrite ?Z1, ?Z2, ?Z3. f_equal; unfold half; field; repeat split; lra.
Qed.
Lemma aniso2_lin : forall q, q = j \/ q = (j + 1)%Z -> aniso_x2 c g (Vm g) k q i =
  let m := nu_aniso c * d * strain_along A b1 b2 b3 in let B := b1 * b1 + b2 * b2 + b3 * b3 in
  nf 1 (mid (lin k q i) (lin k (q - 1) i)) (m * (3 * b1 * b2 / B - 0)) (m * (3 * b2 * b2 / B - 1)) (m * (3 * b3 * b2 / B - 0)).
Proof.
  intros q Hr. destruct Sz as (P1 & P2 & P3). rewrite <- (aniso_form (U g k q i) (U g k (q - 1)%Z i)) by (apply lin_d; unfold offset; rewrite Tw; destruct (three c); lia).
  unfold aniso_x2. cbv beta zeta.
  assert (E1 : B2i g k q i = b2) by (destruct (uf_B2 _ _ _ _ _ _ _ _ F); destruct Hr; subst q; assumption).
  destruct (three c) eqn:Th.
  - destruct (uni_B k q i ltac:(off Tw Th)) as (E2 & _ & E3). destruct (uni_B k (q - 1) i ltac:(off Tw Th)) as (E4 & _ & E5). rewrite E1, E2, E3, E4, E5.
    assert (X1 : dT1 (com vx (Vm g)) k q i k (q - 1) i = a11 A * dx1 g) by lims Th. assert (X2 : dT1 (com vy (Vm g)) k q i k (q - 1) i = a21 A * dx1 g) by lims Th.
    assert (X3 : dT1 (com vz (Vm g)) k q i k (q - 1) i = a31 A * dx1 g) by lims Th.
    assert (Y1 : dT3 (com vx (Vm g)) k q i k (q - 1) i = a13 A * dx3 g) by lims Th. assert (Y2 : dT3 (com vy (Vm g)) k q i k (q - 1) i = a23 A * dx3 g) by lims Th.
    assert (Y3 : dT3 (com vz (Vm g)) k q i k (q - 1) i = a33 A * dx3 g) by lims Th.
    rewrite X1, X2, X3, Y1, Y2, Y3. rewrite !lin_V by off Tw Th. unfold lin. cbn [vx vy vz]. iz. f_equal; unfold half; field; repeat split; lra.
  - destruct (uni_B k q i ltac:(off Tw Th)) as (E2 & _ & E3). destruct (uni_B k (q - 1) i ltac:(off Tw Th)) as (E4 & _ & E5). rewrite E1, E2, E3, E4, E5.
    destruct (lf_three _ _ _ _ _ _ _ _ _ _ L Th) as (Z1 & Z2 & Z3).
    assert (X1 : dT1 (com vx (Vm g)) k q i k (q - 1) i = a11 A * dx1 g) by lims Th. assert (X2 : dT1 (com vy (Vm g)) k q i k (q - 1) i = a21 A * dx1 g) by lims Th.
    assert (X3 : dT1 (com vz (Vm g)) k q i k (q - 1) i = a31 A * dx1 g) by lims Th.
    rewrite X1, X2, X3. rewrite !lin_V by off Tw Th. unfold lin. cbn [vx vy vz]. iz. rewrite ?Z1, ?Z2, ?Z3. f_equal; unfold half; field; repeat split; lra.
Qed.
Lemma aniso3_lin : forall p, three c = true -> p = k \/ p = (k + 1)%Z -> aniso_x3 c g (Vm g) p j i =
  let m := nu_aniso c * d * strain_along A b1 b2 b3 in let B := b1 * b1 + b2 * b2 + b3 * b3 in
  nf 1 (mid (lin p j i) (lin (p - 1) j i)) (m * (3 * b1 * b3 / B - 0)) (m * (3 * b2 * b3 / B - 0)) (m * (3 * b3 * b3 / B - 1)).
Proof.
  intros p Th Hr. destruct Sz as (P1 & P2 & P3). rewrite <- (aniso_form (U g p j i) (U g (p - 1)%Z j i)) by (apply lin_d; unfold offset; rewrite Tw, Th; lia).
  unfold aniso_x3. cbv beta zeta.
  assert (E1 : B3i g p j i = b3) by (destruct (uf_B3 _ _ _ _ _ _ _ _ F Th); destruct Hr; subst p; assumption).
  destruct (uni_B p j i ltac:(off Tw Th)) as (E2 & E3 & _). destruct (uni_B (p - 1) j i ltac:(off Tw Th)) as (E4 & E5 & _). rewrite E1, E2, E3, E4, E5.
  assert (X1 : dT1 (com vx (Vm g)) p j i (p - 1) j i = a11 A * dx1 g) by lims Th. assert (X2 : dT1 (com vy (Vm g)) p j i (p - 1) j i = a21 A * dx1 g) by lims Th.
  assert (X3 : dT1 (com vz (Vm g)) p j i (p - 1) j i = a31 A * dx1 g) by lims Th.
  assert (Y1 : dT2 (com vx (Vm g)) p j i (p - 1) j i = a12 A * dx2 g) by lims Th. assert (Y2 : dT2 (com vy (Vm g)) p j i (p - 1) j i = a22 A * dx2 g) by lims Th.
  assert (Y3 : dT2 (com vz (Vm g)) p j i (p - 1) j i = a32 A * dx2 g) by lims Th.
  rewrite X1, X2, X3, Y1, Y2, Y3. rewrite !lin_V by off Tw Th. unfold lin. cbn [vx vy vz]. iz. f_equal; unfold half; field; repeat split; lra.
Qed.
End Linear.

(** ** Navier-Stokes viscosity *)
Theorem C79_linear_flow : forall c h z g k j i d v1 v2 v3 A, shaped c g -> active3 g k j i -> positive_sizes g -> d <> 0 ->
  0 < nu_iso c -> (nu_aniso c <= 0 \/ mhd c = false \/ two c = false) -> linear_flow c g k j i d v1 v2 v3 A ->
  let u := U g k j i in let u' := U (viscosity c h z g) k j i in
  cM1 u' = cM1 u /\ cM2 u' = cM2 u /\ cM3 u' = cM3 u /\ (barotropic c = false -> cE u' = cE u + h * (nu_iso c * d * dissipation A)).
Proof.
  intros c h z g k j i d v1 v2 v3 A S Ac Sz Hd Hn Ha L u u'. unfold u', u. rewrite (visc_cell c z g S h k j i Ac). cbv zeta. cbn [cM1 cM2 cM3 cE].
  assert (On : viso c = true) by (unfold viso; destruct (Rlt_dec 0 (nu_iso c)); [reflexivity|contradiction]).
  assert (Off : visc_aniso c = false).
  { unfold visc_aniso. destruct (Rlt_dec 0 (nu_aniso c)); [|reflexivity]. destruct Ha as [H|[-> | ->]]; try lra; now rewrite ?andb_false_r. }
  assert (D32 : three c = true -> two c = true) by (destruct S; tauto). pose proof Sz as (P1 & P2 & P3).
  unfold vnew, vf1, vf2, vf3. cbv zeta. rewrite On, Off.
  rewrite (iso1_lin c g k j i d v1 v2 v3 A S Sz Hd L i) by auto. rewrite (iso1_lin c g k j i d v1 v2 v3 A S Sz Hd L (i + 1)) by auto.
  pose proof (fun T => iso2_lin c g k j i d v1 v2 v3 A S Sz Hd L j T (or_introl eq_refl)) as G2. pose proof (fun T => iso2_lin c g k j i d v1 v2 v3 A S Sz Hd L (j + 1) T (or_intror eq_refl)) as G2'.
  pose proof (fun T => iso3_lin c g k j i d v1 v2 v3 A S Sz Hd L k T (or_introl eq_refl)) as G3. pose proof (fun T => iso3_lin c g k j i d v1 v2 v3 A S Sz Hd L (k + 1) T (or_intror eq_refl)) as G3'.
  pose proof (lf_two _ _ _ _ _ _ _ _ _ _ L) as Y. pose proof (lf_three _ _ _ _ _ _ _ _ _ _ L) as Z.
  unfold dissipation.
  destruct (two c) eqn:Tw, (three c) eqn:Th; try (specialize (D32 eq_refl); discriminate).
  - rewrite (G2 eq_refl), (G2' eq_refl), (G3 eq_refl), (G3' eq_refl).
    unfold fadd, no_flux, nf, work, mid, lin; cbn [fx fy fz fe vx vy vz]; rewrite ?minus_IZR, ?plus_IZR; unfold trace.
    split; [ring|split; [ring|split; [ring|intros ->; field; repeat split; lra]]].
  - rewrite (G2 eq_refl), (G2' eq_refl). destruct (Z eq_refl) as (Z1 & Z2 & Z3).
    unfold fadd, no_flux, nf, work, mid, lin; cbn [fx fy fz fe vx vy vz]; rewrite ?minus_IZR, ?plus_IZR; unfold trace. rewrite Z1, Z2, Z3.
    split; [ring|split; [ring|split; [ring|intros ->; field; repeat split; lra]]].
  - destruct (Y eq_refl) as (Y1 & Y2 & Y3). destruct (Z eq_refl) as (Z1 & Z2 & Z3).
    unfold fadd, no_flux, nf, work, mid, lin; cbn [fx fy fz fe vx vy vz]; rewrite ?minus_IZR, ?plus_IZR; unfold trace. rewrite Y1, Y2, Y3, Z1, Z2, Z3.
    split; [ring|split; [ring|split; [ring|intros ->; field; repeat split; lra]]].
Qed.
Print Assumptions C79_linear_flow.
(** The heating is never negative. *)
Theorem C79_heating : forall A, 0 <= dissipation A.
Proof.
  intros A. unfold dissipation, trace.
  assert (H : 0 <= (a11 A - a22 A) * (a11 A - a22 A) + (a11 A - a33 A) * (a11 A - a33 A) + (a22 A - a33 A) * (a22 A - a33 A)).
  { pose proof (Rle_0_sqr (a11 A - a22 A)) as s1. pose proof (Rle_0_sqr (a11 A - a33 A)) as s2. pose proof (Rle_0_sqr (a22 A - a33 A)) as s3. unfold Rsqr in *. lra. }
  assert (0 <= (a12 A + a21 A) * (a12 A + a21 A)) by apply Rle_0_sqr. assert (0 <= (a13 A + a31 A) * (a13 A + a31 A)) by apply Rle_0_sqr. assert (0 <= (a23 A + a32 A) * (a23 A + a32 A)) by apply Rle_0_sqr.
  lra.
Qed.
Print Assumptions C79_heating.

(** ** Braginskii viscosity *)
Theorem C79_linear_flow_field : forall c h z g k j i d v1 v2 v3 A b1 b2 b3, shaped c g -> active3 g k j i -> positive_sizes g -> d <> 0 ->
  nu_iso c <= 0 -> 0 < nu_aniso c -> mhd c = true -> two c = true -> linear_flow c g k j i d v1 v2 v3 A -> uniform_field c g k j i b1 b2 b3 ->
  TINY_NUMBER <= b1 * b1 + b2 * b2 + b3 * b3 ->
  let u := U g k j i in let u' := U (viscosity c h z g) k j i in
  cM1 u' = cM1 u /\ cM2 u' = cM2 u /\ cM3 u' = cM3 u /\
  (barotropic c = false -> cE u' = cE u + h * (3 * nu_aniso c * d * (strain_along A b1 b2 b3 * strain_along A b1 b2 b3))).
Proof.
  intros c h z g k j i d v1 v2 v3 A b1 b2 b3 S Ac Sz Hd Hn Ha Hm Tw L F Tb u u'. unfold u', u. rewrite (visc_cell c z g S h k j i Ac). cbv zeta. cbn [cM1 cM2 cM3 cE].
  assert (Off : viso c = false) by (unfold viso; destruct (Rlt_dec 0 (nu_iso c)); [lra|reflexivity]).
  assert (On : visc_aniso c = true) by (unfold visc_aniso; rewrite Hm, Tw; destruct (Rlt_dec 0 (nu_aniso c)); [reflexivity|contradiction]).
  pose proof Sz as (P1 & P2 & P3). pose proof tiny_pos as TP.
  unfold vnew, vf1, vf2, vf3. cbv zeta. rewrite On, Off, Tw.
  rewrite (aniso1_lin c g k j i d v1 v2 v3 A Sz Hd L b1 b2 b3 F Tb Tw i) by auto. rewrite (aniso1_lin c g k j i d v1 v2 v3 A Sz Hd L b1 b2 b3 F Tb Tw (i + 1)) by auto.
  rewrite (aniso2_lin c g k j i d v1 v2 v3 A Sz Hd L b1 b2 b3 F Tb Tw j) by auto. rewrite (aniso2_lin c g k j i d v1 v2 v3 A Sz Hd L b1 b2 b3 F Tb Tw (j + 1)) by auto.
  pose proof (fun T => aniso3_lin c g k j i d v1 v2 v3 A Sz Hd L b1 b2 b3 F Tb Tw k T (or_introl eq_refl)) as G3. pose proof (fun T => aniso3_lin c g k j i d v1 v2 v3 A Sz Hd L b1 b2 b3 F Tb Tw (k + 1) T (or_intror eq_refl)) as G3'.
  pose proof (lf_three _ _ _ _ _ _ _ _ _ _ L) as Z. cbv zeta in *.
  set (B := b1 * b1 + b2 * b2 + b3 * b3) in *. set (s := strain_along A b1 b2 b3) in *.
  assert (Es : b1 * (a11 A * b1 + a12 A * b2 + a13 A * b3) + b2 * (a21 A * b1 + a22 A * b2 + a23 A * b3) + b3 * (a31 A * b1 + a32 A * b2 + a33 A * b3) = B * (s + trace A / 3)).
  { unfold s, strain_along. fold B. field. lra. }
  assert (HB : B <> 0) by lra.
  destruct (three c) eqn:Th; [rewrite (G3 eq_refl), (G3' eq_refl)|destruct (Z eq_refl) as (Z1 & Z2 & Z3)];
    unfold fadd, fadd_x1, no_flux, nf, work, mid, lin; cbn [fx fy fz fe vx vy vz]; rewrite ?minus_IZR, ?plus_IZR;
    (split; [ring|split; [ring|split; [ring|intros ->]]]).
  - replace (3 * nu_aniso c * d * (s * s)) with (3 * (nu_aniso c * d * s) * ((b1 * (a11 A * b1 + a12 A * b2 + a13 A * b3) + b2 * (a21 A * b1 + a22 A * b2 + a23 A * b3) + b3 * (a31 A * b1 + a32 A * b2 + a33 A * b3)) / B - trace A / 3)) by (rewrite Es; field; lra).
    generalize (nu_aniso c * d * s); intros m. unfold trace. clearbody B. clear - P1 P2 P3 HB. field. repeat split; lra.
  - replace (3 * nu_aniso c * d * (s * s)) with (3 * (nu_aniso c * d * s) * ((b1 * (a11 A * b1 + a12 A * b2 + a13 A * b3) + b2 * (a21 A * b1 + a22 A * b2 + a23 A * b3) + b3 * (a31 A * b1 + a32 A * b2 + a33 A * b3)) / B - trace A / 3)) by (rewrite Es; field; lra).
    unfold trace. rewrite Z1, Z2, Z3. generalize (nu_aniso c * d * s); intros m. clearbody B. clear - P1 P2 P3 HB. field. repeat split; lra.
Qed.
Print Assumptions C79_linear_flow_field.

(** ** Hypotheses that can be met: a shear flow with a field across it *)
Definition ex_shear : grid3 :=
  Grid3 4 5 4 5 4 5 (1 / 10) 1 2 1 0 0 0 (fun k j i => Cons 3 (3 * (7 + 1 / 2 * (IZR j - 4) * 2)) (3 * (2 * (IZR i - 4) * 1)) 0 100 1 1 0 nil)
    (fun _ _ _ => 1) (fun _ _ _ => 1) (fun _ _ _ => 0) (fun _ _ _ => 0) (fun _ _ _ => 0) (fun _ _ _ => 0) (fun _ _ _ => 0).
Definition ex_matrix : matrix := Matrix 0 (1 / 2) 0 2 0 0 0 0 0.
Definition ex_vcfg (nu nua : R) : dcfg := DCfg true true true false (2 / 3) 0 0 nu nua 0 0 0 0.
Example ex_shear_ok : forall nu nua, shaped (ex_vcfg nu nua) ex_shear /\ active3 ex_shear 4 4 4 /\ positive_sizes ex_shear /\
  linear_flow (ex_vcfg nu nua) ex_shear 4 4 4 3 7 0 0 ex_matrix /\ uniform_field (ex_vcfg nu nua) ex_shear 4 4 4 1 1 0.
Proof.
  intros nu nua. unfold shaped, nonempty3, active3, positive_sizes. cbn [is ie js je ks ke dx1 dx2 dx3 ex_shear two three ex_vcfg].
  split; [repeat split; try lia; discriminate|]. split; [lia|]. split; [lra|]. split.
  - constructor; cbn [two three ex_vcfg]; try discriminate.
    intros dk dj di _. cbn [U ex_shear cd cM1 cM2 cM3 dx1 dx2 dx3 ex_matrix a11 a12 a13 a21 a22 a23 a31 a32 a33]. rewrite !plus_IZR. repeat split; field.
  - constructor; cbn [two three ex_vcfg U ex_shear cB1 cB2 cB3 B1i B2i B3i]; intros; repeat split; reflexivity.
Qed.
Example ex_shear_heats : dissipation ex_matrix = 25 / 4 /\ strain_along ex_matrix 1 1 0 = 5 / 4.
Proof. unfold dissipation, strain_along, trace. cbn. split; field. Qed.
