(** * Viscosity: Galilean invariance; linear flows *)
From Coq Require Import Reals ZArith List Bool Lia Lra Psatz.
From Verif Require Import GasModel ConvProps IntegModel IntegSpec IntegFacts Ctu3Model Integ3Spec Integ3Props CondModel DiffSpec CondProps CondHeat CondMax CondRate ViscModel ViscProps.
Import ListNotations.
Open Scope R_scope.

(** ** Observers in relative motion see the same *)
Section Boost.
Variables (c : dcfg) (g : grid3) (w1 w2 w3 : R).
Let gb := set_U g (fun k j i => boost w1 w2 w3 (U g k j i)).
Hypothesis (Hd : forall k j i, dzone c g k j i -> cd (U g k j i) <> 0).
Definition vadd (v : vec) : vec := Vec (vx v + w1) (vy v + w2) (vz v + w3).
Lemma Vm_boost : forall k j i, dzone c g k j i -> Vm gb k j i = vadd (Vm g k j i).
Proof. intros k j i Z. unfold gb, Vm, set_U, velof, vadd, boost. cbn [U cd cM1 cM2 cM3 vx vy vz]. specialize (Hd k j i Z). f_equal; field; exact Hd. Qed.
(** The energy flux gains the work done in the moving frame. *)
Definition fboost (f : vflux) : vflux := VFlux (fx f) (fy f) (fz f) (fe f + (w1 * fx f + w2 * fy f + w3 * fz f)).
Lemma iso_boost : forall nu u u1 a b mx my mz,
  iso_flux nu (boost w1 w2 w3 u) (boost w1 w2 w3 u1) (vadd a) (vadd b) mx my mz = fboost (iso_flux nu u u1 a b mx my mz).
Proof. intros. unfold iso_flux, fboost, vadd, boost. cbn [cd vx vy vz fx fy fz fe]. f_equal. unfold half. field. Qed.
Lemma aniso_boost : forall nu u u1 a b bx by_ bz bn sx sy sz g1 g2 g3 g4 g5 g6 g7 g8 g9,
  aniso_flux nu (boost w1 w2 w3 u) (boost w1 w2 w3 u1) (vadd a) (vadd b) bx by_ bz bn sx sy sz g1 g2 g3 g4 g5 g6 g7 g8 g9
  = fboost (aniso_flux nu u u1 a b bx by_ bz bn sx sy sz g1 g2 g3 g4 g5 g6 g7 g8 g9).
Proof.
  intros. unfold aniso_flux, fboost, vadd, boost. cbn [cd]. cbv zeta. cbn [fx fy fz fe vx vy vz].
  match goal with |- VFlux ?a ?b ?d _ = _ => generalize a b d; intros mx my mz end. f_equal. unfold half. field.
Qed.
Lemma fadd_boost : forall f h, fadd (fboost f) (fboost h) = fboost (fadd f h).
Proof. intros. unfold fadd, fboost. cbn. f_equal. ring. Qed.
Lemma no_boost : no_flux = fboost no_flux.
Proof. unfold fboost, no_flux. cbn. f_equal. ring. Qed.
End Boost.

Ltac dz Tw Th := unfold dzone, nghost; rewrite ?Tw, ?Th; try lia.

Section Boost2.
Variables (c : dcfg) (g : grid3) (w1 w2 w3 : R).
Hypothesis (Sh : shaped c g).
Let gb := set_U g (fun k j i => boost w1 w2 w3 (U g k j i)).
Hypothesis (Hd : forall k j i, dzone c g k j i -> cd (U g k j i) <> 0).
Lemma sub_add : forall x y w, (x + w) - (y + w) = x - y. Proof. intros. ring. Qed.
Lemma sub_add4 : forall x y x' y' w, ((x + w) + (y + w)) - ((x' + w) + (y' + w)) = (x + y) - (x' + y'). Proof. intros. ring. Qed.
Lemma Dm_boost : forall k j i, (if three c then (ks g - 2 <= k <= ke g + 2)%Z else k = ks g) -> (if two c then (js g - 2 <= j <= je g + 2)%Z else j = js g) -> (is g - 2 <= i <= ie g + 2)%Z ->
  Dm c gb k j i = Dm c g k j i.
Proof.
  intros k j i Hk Hj Hi. unfold Dm. change (dx1 gb) with (dx1 g). change (dx2 gb) with (dx2 g). change (dx3 gb) with (dx3 g). unfold gb.
  destruct (two c) eqn:Tw, (three c) eqn:Th; try (destruct Sh as (_ & _ & _ & D); specialize (D Th); congruence);
  rewrite !(Vm_boost c) by (try exact Hd; dz Tw Th); unfold vadd; cbn [vx vy vz]; rewrite ?sub_add; reflexivity.
Qed.
Ltac bst Tw Th := rewrite !(Vm_boost c) by (try exact Hd; dz Tw Th); unfold vadd at 1; rewrite ?Dm_boost by (rewrite ?Tw, ?Th; lia).
Lemma iso1_boost : forall k j i, (ks g <= k <= ke g)%Z -> (js g <= j <= je g)%Z -> (is g <= i <= ie g + 1)%Z ->
  iso1 c gb (Vm gb) (Dm c gb) k j i = fboost w1 w2 w3 (iso1 c g (Vm g) (Dm c g) k j i).
Proof.
  intros k j i Hk Hj Hi. unfold iso1. cbv beta zeta. change (dx1 gb) with (dx1 g). change (dx2 gb) with (dx2 g). change (dx3 gb) with (dx3 g).
  pose proof Sh as ((N1 & N2 & N3) & D2 & D3 & D32).
  destruct (two c) eqn:Tw, (three c) eqn:Th; try (specialize (D32 eq_refl); discriminate); try specialize (D2 eq_refl); try specialize (D3 eq_refl);
  rewrite ?Dm_boost by (rewrite ?Tw, ?Th; lia); unfold gb; rewrite !(Vm_boost c) by (try exact Hd; dz Tw Th);
  cbn [U set_U]; rewrite <- iso_boost; f_equal; unfold vadd; cbn [vx vy vz]; rewrite ?sub_add, ?sub_add4; reflexivity.
Qed.
Lemma iso2_boost : forall k j i, two c = true -> (ks g <= k <= ke g)%Z -> (js g <= j <= je g + 1)%Z -> (is g <= i <= ie g)%Z ->
  iso2 c gb (Vm gb) (Dm c gb) k j i = fboost w1 w2 w3 (iso2 c g (Vm g) (Dm c g) k j i).
Proof.
  intros k j i Tw Hk Hj Hi. unfold iso2. cbv beta zeta. change (dx1 gb) with (dx1 g). change (dx2 gb) with (dx2 g). change (dx3 gb) with (dx3 g).
  pose proof Sh as ((N1 & N2 & N3) & D2 & D3 & D32).
  destruct (three c) eqn:Th; try specialize (D3 eq_refl);
  rewrite ?Dm_boost by (rewrite ?Tw, ?Th; lia); unfold gb; rewrite !(Vm_boost c) by (try exact Hd; dz Tw Th);
  cbn [U set_U]; rewrite <- iso_boost; f_equal; unfold vadd; cbn [vx vy vz]; rewrite ?sub_add, ?sub_add4; reflexivity.
Qed.
Lemma iso3_boost : forall k j i, three c = true -> (ks g <= k <= ke g + 1)%Z -> (js g <= j <= je g)%Z -> (is g <= i <= ie g)%Z ->
  iso3 c gb (Vm gb) (Dm c gb) k j i = fboost w1 w2 w3 (iso3 c g (Vm g) (Dm c g) k j i).
Proof.
  intros k j i Th Hk Hj Hi. unfold iso3. cbv beta zeta. change (dx1 gb) with (dx1 g). change (dx2 gb) with (dx2 g). change (dx3 gb) with (dx3 g).
  pose proof Sh as ((N1 & N2 & N3) & D2 & D3 & D32). pose proof (D32 Th) as Tw.
  rewrite ?Dm_boost by (rewrite ?Tw, ?Th; lia); unfold gb; rewrite !(Vm_boost c) by (try exact Hd; dz Tw Th);
  cbn [U set_U]; rewrite <- iso_boost; f_equal; unfold vadd; cbn [vx vy vz]; rewrite ?sub_add, ?sub_add4; reflexivity.
Qed.
Lemma an1_boost : forall k j i, two c = true -> (ks g <= k <= ke g)%Z -> (js g <= j <= je g)%Z -> (is g <= i <= ie g + 1)%Z ->
  aniso_x1 c gb (Vm gb) k j i = fboost w1 w2 w3 (aniso_x1 c g (Vm g) k j i).
Proof.
  intros k j i Tw Hk Hj Hi. unfold aniso_x1, dT2, dT3, com. cbv beta zeta. change (dx1 gb) with (dx1 g). change (dx2 gb) with (dx2 g). change (dx3 gb) with (dx3 g).
  change (B1i gb) with (B1i g). pose proof Sh as ((N1 & N2 & N3) & D2 & D3 & D32).
  destruct (three c) eqn:Th; try specialize (D3 eq_refl); unfold gb; rewrite !(Vm_boost c) by (try exact Hd; dz Tw Th);
  cbn [U set_U]; rewrite <- aniso_boost; unfold boost at 3 4 5 6; cbn [cB2 cB3]; f_equal; unfold vadd; cbn [vx vy vz]; rewrite ?sub_add; reflexivity.
Qed.
Lemma an2_boost : forall k j i, two c = true -> (ks g <= k <= ke g)%Z -> (js g <= j <= je g + 1)%Z -> (is g <= i <= ie g)%Z ->
  aniso_x2 c gb (Vm gb) k j i = fboost w1 w2 w3 (aniso_x2 c g (Vm g) k j i).
Proof.
  intros k j i Tw Hk Hj Hi. unfold aniso_x2, dT1, dT3, com. cbv beta zeta. change (dx1 gb) with (dx1 g). change (dx2 gb) with (dx2 g). change (dx3 gb) with (dx3 g).
  change (B2i gb) with (B2i g). pose proof Sh as ((N1 & N2 & N3) & D2 & D3 & D32).
  destruct (three c) eqn:Th; try specialize (D3 eq_refl); unfold gb; rewrite !(Vm_boost c) by (try exact Hd; dz Tw Th);
  cbn [U set_U]; rewrite <- aniso_boost; unfold boost at 3 4 5 6; cbn [cB1 cB3]; f_equal; unfold vadd; cbn [vx vy vz]; rewrite ?sub_add; reflexivity.
Qed.
Lemma an3_boost : forall k j i, three c = true -> (ks g <= k <= ke g + 1)%Z -> (js g <= j <= je g)%Z -> (is g <= i <= ie g)%Z ->
  aniso_x3 c gb (Vm gb) k j i = fboost w1 w2 w3 (aniso_x3 c g (Vm g) k j i).
Proof.
  intros k j i Th Hk Hj Hi. unfold aniso_x3, dT1, dT2, com. cbv beta zeta. change (dx1 gb) with (dx1 g). change (dx2 gb) with (dx2 g). change (dx3 gb) with (dx3 g).
  change (B3i gb) with (B3i g). pose proof Sh as ((N1 & N2 & N3) & D2 & D3 & D32). pose proof (D32 Th) as Tw.
  unfold gb; rewrite !(Vm_boost c) by (try exact Hd; dz Tw Th);
  cbn [U set_U]; rewrite <- aniso_boost; unfold boost at 3 4 5 6; cbn [cB1 cB2]; f_equal; unfold vadd; cbn [vx vy vz]; rewrite ?sub_add; reflexivity.
Qed.
Hypothesis (One : viso c = false \/ visc_aniso c = false).
Lemma vf1_boost : forall k j i, (ks g <= k <= ke g)%Z -> (js g <= j <= je g)%Z -> (is g <= i <= ie g + 1)%Z -> vf1 c gb k j i = fboost w1 w2 w3 (vf1 c g k j i).
Proof.
  intros k j i Hk Hj Hi. unfold vf1. cbv zeta. destruct (viso c) eqn:I; [destruct One as [E|E]; [discriminate|]; rewrite E|destruct (visc_aniso c) eqn:A].
  - rewrite iso1_boost by lia. rewrite <- fadd_boost. now rewrite <- no_boost.
  - rewrite an1_boost by (try lia; now apply an_two). unfold fadd_x1, fboost, no_flux. cbn [fx fy fz fe]. f_equal. ring.
  - apply no_boost.
Qed.
Lemma vf2_boost : forall k j i, two c = true -> (ks g <= k <= ke g)%Z -> (js g <= j <= je g + 1)%Z -> (is g <= i <= ie g)%Z -> vf2 c gb k j i = fboost w1 w2 w3 (vf2 c g k j i).
Proof.
  intros k j i Tw Hk Hj Hi. unfold vf2. cbv zeta. rewrite (no_boost w1 w2 w3).
  destruct (viso c), (visc_aniso c); rewrite ?iso2_boost, ?an2_boost by (auto; lia); rewrite ?fadd_boost, <- ?no_boost; reflexivity.
Qed.
Lemma vf3_boost : forall k j i, three c = true -> (ks g <= k <= ke g + 1)%Z -> (js g <= j <= je g)%Z -> (is g <= i <= ie g)%Z -> vf3 c gb k j i = fboost w1 w2 w3 (vf3 c g k j i).
Proof.
  intros k j i Th Hk Hj Hi. unfold vf3. cbv zeta. rewrite (no_boost w1 w2 w3).
  destruct (viso c), (visc_aniso c); rewrite ?iso3_boost, ?an3_boost by (auto; lia); rewrite ?fadd_boost, <- ?no_boost; reflexivity.
Qed.
End Boost2.

Theorem C78_galilean : forall c h z z' g w1 w2 w3 k j i, shaped c g -> barotropic c = false ->
  (nu_iso c <= 0 \/ nu_aniso c <= 0 \/ mhd c = false \/ two c = false) ->
  (forall k j i, dzone c g k j i -> cd (U g k j i) <> 0) ->
  U (viscosity c h z' (set_U g (fun k j i => boost w1 w2 w3 (U g k j i)))) k j i = boost w1 w2 w3 (U (viscosity c h z g) k j i).
Proof.
  intros c h z z' g w1 w2 w3 k j i S Bt Hone Hd.
  assert (One : viso c = false \/ visc_aniso c = false).
  { unfold viso, visc_aniso. destruct (Rlt_dec 0 (nu_iso c)); [|now left]. right. destruct (Rlt_dec 0 (nu_aniso c)); [|reflexivity].
    destruct Hone as [H|[H|[-> | ->]]]; try lra; now rewrite ?andb_false_r. }
  set (gb := set_U g (fun k j i => boost w1 w2 w3 (U g k j i))).
  assert (Sb : shaped c gb) by exact S.
  destruct (classic_active g k j i) as [A|A].
  - rewrite (visc_cell c z g S h k j i A), (visc_cell c z' gb Sb h k j i A). cbv zeta. rewrite Bt. unfold vnew.
    destruct A as (Hk & Hj & Hi). destruct S as (Ne & D2 & D3 & D32). pose proof (conj Ne (conj D2 (conj D3 D32))) as S.
    change (dx1 gb) with (dx1 g). change (dx2 gb) with (dx2 g). change (dx3 gb) with (dx3 g). unfold gb.
    rewrite !(vf1_boost c g w1 w2 w3 S Hd One) by lia.
    assert (R2 : two c = true -> vf2 c gb k (j + 1) i = fboost w1 w2 w3 (vf2 c g k (j + 1) i) /\ vf2 c gb k j i = fboost w1 w2 w3 (vf2 c g k j i)).
    { intros Tw. split; apply (vf2_boost c g w1 w2 w3 S Hd); auto; lia. }
    assert (R3 : three c = true -> vf3 c gb (k + 1) j i = fboost w1 w2 w3 (vf3 c g (k + 1) j i) /\ vf3 c gb k j i = fboost w1 w2 w3 (vf3 c g k j i)).
    { intros Th. split; apply (vf3_boost c g w1 w2 w3 S Hd); auto; lia. }
    fold gb.
    destruct (two c) eqn:Tw, (three c) eqn:Th; try (specialize (D32 eq_refl); discriminate);
      try (destruct (R2 eq_refl) as (-> & ->)); try (destruct (R3 eq_refl) as (-> & ->)); unfold gb;
      cbn [U set_U]; unfold boost, fboost; cbn [cd cM1 cM2 cM3 cE cB1 cB2 cB3 cs fx fy fz fe];
      repeat match goal with |- context [vf1 c g ?a ?b ?d] => generalize (vf1 c g a b d); intros ? | |- context [vf2 c g ?a ?b ?d] => generalize (vf2 c g a b d); intros ?
        | |- context [vf3 c g ?a ?b ?d] => generalize (vf3 c g a b d); intros ? end;
      generalize (h / dx1 g), (h / dx2 g), (h / dx3 g); intros; f_equal; try ring; field.
  - rewrite visc_outside by assumption. rewrite visc_outside by assumption. reflexivity.
Qed.
Print Assumptions C78_galilean.

(** ** With both viscosities the energy flux of the isotropic one through x1-faces is lost *)
Section Both.
Variables (w : R) (g : grid3) (z : vscratch) (h : R).
Let s (i : Z) : R := if Z.eqb i 4 then 1 else 0.
Let c : dcfg := DCfg true false true false (2 / 3) 0 0 1 1 0 0 0 0.
Hypothesis (Sh : shaped c g) (Ac : active3 g 0 4 4) (X1 : dx1 g = 1) (X2 : dx2 g = 1) (X3 : dx3 g = 1).
Hypothesis (HU : forall k j i, velof (U g k j i) = Vec 0 (w + s i) 0 /\ cd (U g k j i) = 1 /\ cB1 (U g k j i) = 0 /\ cB2 (U g k j i) = 0 /\ cB3 (U g k j i) = 0).
Hypothesis (H1 : forall k j i, B1i g k j i = 0) (H2 : forall k j i, B2i g k j i = 0).
Lemma both_V : forall k j i, Vm g k j i = Vec 0 (w + s i) 0. Proof. intros. unfold Vm. apply HU. Qed.
Lemma both_D : forall k j i, Dm c g k j i = 0.
Proof. intros. unfold Dm. rewrite !both_V. cbn [vx vy vz two three c]. rewrite X1, X2. field. Qed.
Lemma both_lim : forall a b e f, a * b <= 0 -> limiter4 a b e f = 0. Proof. intros. apply lim0. now left. Qed.
Lemma both_a1 : forall i, aniso_x1 c g (Vm g) 0 4 i = VFlux 0 0 0 0.
Proof.
  intros i. unfold aniso_x1, aniso_flux, dT2, com. cbv beta zeta. rewrite !both_V. cbn [vx vy vz three c nu_aniso]. rewrite !(fun a b e => proj1 (proj2 (HU a b e))).
  rewrite !(fun a b e => proj1 (proj2 (proj2 (proj2 (HU a b e))))), !(fun a b e => proj2 (proj2 (proj2 (proj2 (HU a b e))))), !H1, X1, X2.
  rewrite !both_lim by lra. set (B := MAX _ _). assert (P : 0 < B) by apply max_tiny. clearbody B. cbv zeta. unfold half, third. f_equal; field; lra.
Qed.
Lemma both_a2 : forall j, aniso_x2 c g (Vm g) 0 j 4 = VFlux 0 0 0 0.
Proof.
  intros j. unfold aniso_x2, aniso_flux, dT1, com. cbv beta zeta. rewrite !both_V. cbn [vx vy vz three c nu_aniso]. rewrite !(fun a b e => proj1 (proj2 (HU a b e))).
  rewrite !(fun a b e => proj1 (proj2 (proj2 (HU a b e)))), !(fun a b e => proj2 (proj2 (proj2 (proj2 (HU a b e))))), !H2, X1, X2.
  unfold s. cbn [vx vy vz Z.eqb Pos.eqb Z.add Z.sub Z.opp Z.pos_sub Pos.add Pos.succ Pos.pred_double]. rewrite !both_lim by lra.
  set (B := MAX _ _). assert (P : 0 < B) by apply max_tiny. clearbody B. cbv zeta. unfold half, third. f_equal; field; lra.
Qed.
Lemma both_i2 : forall j, iso2 c g (Vm g) (Dm c g) 0 j 4 = VFlux 0 0 0 0.
Proof.
  intros j. unfold iso2. cbv beta zeta. rewrite !both_V, !both_D. cbn [vx vy vz three c nu_iso]. unfold iso_flux. rewrite !(fun a b e => proj1 (proj2 (HU a b e))), X1, X2.
  unfold s. cbn [vx vy vz Z.eqb Pos.eqb Z.add Z.sub Z.opp Z.pos_sub Pos.add Pos.succ Pos.pred_double]. unfold half, third. f_equal; field.
Qed.
Lemma both_i1 : forall i, fy (iso1 c g (Vm g) (Dm c g) 0 4 i) = s i - s (i - 1).
Proof.
  intros i. unfold iso1. cbv beta zeta. rewrite !both_V, !both_D. cbn [vx vy vz two three c nu_iso]. unfold iso_flux. cbn [fy]. rewrite !(fun a b e => proj1 (proj2 (HU a b e))), X1, X2.
  unfold half, third. field.
Qed.
Lemma both_out : cE (U (viscosity c h z g) 0 4 4) = cE (U g 0 4 4) /\ cM2 (U (viscosity c h z g) 0 4 4) = cM2 (U g 0 4 4) - 2 * h.
Proof.
  rewrite (visc_cell c z g Sh h 0 4 4 Ac). cbv zeta. cbn [cE cM2 barotropic c two three]. unfold vnew, vf1, vf2.
  assert (On : viso c = true) by (unfold viso, c; cbn [nu_iso]; destruct (Rlt_dec 0 1); [reflexivity|lra]).
  assert (On2 : visc_aniso c = true) by (unfold visc_aniso, c; cbn [nu_aniso mhd two andb]; destruct (Rlt_dec 0 1); [reflexivity|lra]).
  cbv zeta. rewrite On, On2. cbn [two three c]. rewrite !both_a1, !both_a2, !both_i2. unfold fadd_x1, fadd, no_flux. cbn [fx fy fz fe]. rewrite !both_i1, X1, X2.
  unfold s. cbn [Z.eqb Pos.eqb Z.add Z.sub Z.opp Z.pos_sub Pos.add Pos.succ Pos.pred_double]. split; field.
Qed.
End Both.
Definition gal_grid : grid3 :=
  Grid3 4 4 4 5 0 0 1 1 1 1 0 0 0 (fun _ _ i => Cons 1 0 (if Z.eqb i 4 then 1 else 0) 0 10 0 0 0 nil)
    (fun _ _ _ => 0) (fun _ _ _ => 0) (fun _ _ _ => 0) (fun _ _ _ => 0) (fun _ _ _ => 0) (fun _ _ _ => 0) (fun _ _ _ => 0).
Theorem C78_both_refuted : exists c z g w1 w2 w3 k j i, shaped c g /\ active3 g k j i /\ positive_sizes g /\ barotropic c = false /\ 0 < nu_iso c /\ 0 < nu_aniso c /\
  (forall k j i, cd (U g k j i) = 1) /\
  forall h, 0 < h -> cE (U (viscosity c h z (set_U g (fun k j i => boost w1 w2 w3 (U g k j i)))) k j i) <> cE (boost w1 w2 w3 (U (viscosity c h z g) k j i)).
Proof.
  exists (DCfg true false true false (2 / 3) 0 0 1 1 0 0 0 0), (VScratch (fun _ _ _ => Vec 0 0 0) (fun _ _ _ => 0) (fun _ _ _ => no_flux) (fun _ _ _ => no_flux) (fun _ _ _ => no_flux)), gal_grid, 0, 1, 0, 0%Z, 4%Z, 4%Z.
  set (c := DCfg true false true false (2 / 3) 0 0 1 1 0 0 0 0).
  assert (S : shaped c gal_grid) by (unfold shaped, nonempty3; cbn; repeat split; try lia; intros; discriminate).
  assert (A : active3 gal_grid 0 4 4) by (unfold active3; cbn; lia).
  refine (conj S (conj A (conj _ (conj eq_refl (conj _ (conj _ (conj _ _))))))); try (unfold positive_sizes; cbn; lra); [intros; reflexivity|].
  intros h Hh. set (z := VScratch _ _ _ _ _).
  destruct (both_out 0 gal_grid z h S A eq_refl eq_refl) as (E0 & M0).
  { intros k j i. cbn [U gal_grid cd cB1 cB2 cB3]. unfold velof. cbn [cd cM1 cM2 cM3]. split; [f_equal; field|auto]. }
  { reflexivity. } { reflexivity. }
  destruct (both_out 1 (set_U gal_grid (fun k j i => boost 0 1 0 (U gal_grid k j i))) z h S A eq_refl eq_refl) as (E1 & M1).
  { intros k j i. cbn [U set_U gal_grid]. unfold boost, velof. cbn [cd cM1 cM2 cM3 cB1 cB2 cB3]. split; [f_equal; field|auto]. }
  { reflexivity. } { reflexivity. }
  unfold c. rewrite E1. unfold boost at 2. cbn [cE]. rewrite E0, M0.
  assert (M1' : cM1 (U (viscosity {| two := true; three := false; mhd := true; barotropic := false; Gamma_1 := 2 / 3; kappa_iso := 0; kappa_aniso := 0; nu_iso := 1; nu_aniso := 1; eta_Ohm := 0; Q_Hall := 0; Q_AD := 0; d_ind := 0 |} h z gal_grid) 0 4 4) * 0 = 0) by ring.
  destruct (C77_only_momentum_energy c h z gal_grid S) as (_ & K). destruct (K 0%Z 4%Z 4%Z) as (Kd & _). unfold c in Kd. rewrite Kd.
  cbn [U set_U gal_grid Z.eqb Pos.eqb cd cE cM1 cM2 cM3 boost]. lra.
Qed.
Print Assumptions C78_both_refuted.
(** The invariance can be used: shear flows of any kind, seen from a moving frame. *)
Example ex_galilean : forall w h z z', U (viscosity (DCfg true true true false (2 / 3) 0 0 1 0 0 0 0 0) h z' (set_U ex_dgrid (fun k j i => boost w 0 0 (U ex_dgrid k j i)))) 4 4 4
  = boost w 0 0 (U (viscosity (DCfg true true true false (2 / 3) 0 0 1 0 0 0 0 0) h z ex_dgrid) 4 4 4).
Proof.
  intros. apply C78_galilean; [exact ex_dshaped|reflexivity|right; left; cbn; lra|].
  intros k j i _. cbn [U ex_dgrid]. unfold ex_dcell. destruct (Z.even (i + j + k)); cbn; lra.
Qed.
