(** * C93 in three dimensions: the totals of a periodic Grid *)
From Coq Require Import Reals ZArith List Bool Lia Lra.
From Verif Require Import GasModel IntegModel IntegSpec IntegFacts SchemeModel SchemeNearby Integ3Spec Integ3Local Integ3Props SelfgModel SelfgSpec SelfgFacts Selfg3Props.
From Verif Require Ctu3Model Vl3Model.
Import Ctu3Model (grid3, scratch3, Grid3, Scratch3, is, ie, js, je, ks, ke, dt, dx1, dx2, dx3, MinX1, MinX2, MinX3, U, B1i, B2i, B3i, Phi,
  x1Mass, x2Mass, x3Mass, x1c, x2c, x3c, work).
Open Scope R_scope.

(** A potential that wraps has a stress that does. *)
Lemma stress_wraps : forall G4 mean y1 y2 y3 lk uk lj uj li ui P b k j i, wraps3 lk uk lj uj li ui P -> (lk <= k <= uk)%Z -> (lj <= j <= uj)%Z -> (li <= i <= ui)%Z ->
  stress3 G4 mean y1 y2 y3 D1 b P k j (ui + 1) = stress3 G4 mean y1 y2 y3 D1 b P k j li /\
  stress3 G4 mean y1 y2 y3 D2 b P k (uj + 1) i = stress3 G4 mean y1 y2 y3 D2 b P k lj i /\
  stress3 G4 mean y1 y2 y3 D3 b P (uk + 1) j i = stress3 G4 mean y1 y2 y3 D3 b P lk j i.
Proof.
  intros G4 mean y1 y2 y3 lk uk lj uj li ui P b k j i [W1 W2] Hk Hj Hi.
  assert (A : forall k j, (lk - 1 <= k <= uk + 1)%Z -> (lj - 1 <= j <= uj + 1)%Z -> P k j (li + -1)%Z = P k j ui /\ P k j (ui + 1)%Z = P k j li).
  { intros k' j' Hk' Hj'. destruct (W1 k' Hk') as [X _]. destruct (X j' Hj') as [X1 X2]. auto. }
  assert (B : forall k i, (lk - 1 <= k <= uk + 1)%Z -> (li - 1 <= i <= ui + 1)%Z -> P k (lj + -1)%Z i = P k uj i /\ P k (uj + 1)%Z i = P k lj i).
  { intros k' i' Hk' Hi'. destruct (W1 k' Hk') as [_ X]. destruct (X i' Hi') as [X1 X2]. auto. }
  assert (C : forall j i, (lj - 1 <= j <= uj + 1)%Z -> (li - 1 <= i <= ui + 1)%Z -> P (lk + -1)%Z j i = P uk j i /\ P (uk + 1)%Z j i = P lk j i).
  { intros j' i' Hj' Hi'. destruct (W2 j' i' Hj' Hi') as [X1 X2]. auto. }
  assert (A1 := fun k j h h' => proj1 (A k j h h')). assert (A2 := fun k j h h' => proj2 (A k j h h')).
  assert (B1 := fun k i h h' => proj1 (B k i h h')). assert (B2 := fun k i h h' => proj2 (B k i h h')).
  assert (C1 := fun j i h h' => proj1 (C j i h h')). assert (C2 := fun j i h h' => proj2 (C j i h h')).
  assert (I1 : (ui + 1 + -1 = ui)%Z) by lia. assert (J1 : (uj + 1 + -1 = uj)%Z) by lia. assert (K1 : (uk + 1 + -1 = uk)%Z) by lia.
  clear W1 W2 A B C.
  assert (F1 : forall c, field y1 y2 y3 D1 c P k j (ui + 1) = field y1 y2 y3 D1 c P k j li).
  { intros []; unfold field, sh; cbn [same along]; rewrite I1, !A2, !A1 by lia; reflexivity. }
  assert (F2 : forall c, field y1 y2 y3 D2 c P k (uj + 1) i = field y1 y2 y3 D2 c P k lj i).
  { intros []; unfold field, sh; cbn [same along]; rewrite J1, !B2, !B1 by lia; reflexivity. }
  assert (F3 : forall c, field y1 y2 y3 D3 c P (uk + 1) j i = field y1 y2 y3 D3 c P lk j i).
  { intros []; unfold field, sh; cbn [same along]; rewrite K1, !C2, !C1 by lia; reflexivity. }
  unfold stress3. rewrite !F1, !F2, !F3. cbn [sh]. rewrite I1, J1, K1, A1, A2, B1, B2, C1, C2 by lia. auto.
Qed.
Lemma periodic_wraps : forall sc g, periodic3 sc g -> nonempty3 g -> s_selfg sc <> None -> wraps3 (ks g) (ke g) (js g) (je g) (is g) (ie g) (Phi g).
Proof.
  intros sc g [_ Hp] (L1 & L2 & L3) Hsg. unfold zone3, nghost in Hp.
  assert (X : forall k j i, (ks g - 1 <= k <= ke g + 1)%Z -> (js g - 1 <= j <= je g + 1)%Z -> (is g - 1 <= i <= is g)%Z -> Phi g k j (i + (ie g - is g + 1))%Z = Phi g k j i).
  { intros k j i Hk Hj Hi. destruct (Hp k j i ltac:(lia)) as (X & _ & _). destruct (X ltac:(lia)) as (_ & Y & _). auto. }
  assert (Y : forall k j i, (ks g - 1 <= k <= ke g + 1)%Z -> (js g - 1 <= j <= js g)%Z -> (is g - 1 <= i <= ie g + 1)%Z -> Phi g k (j + (je g - js g + 1))%Z i = Phi g k j i).
  { intros k j i Hk Hj Hi. destruct (Hp k j i ltac:(lia)) as (_ & Y & _). destruct (Y ltac:(lia)) as (_ & Z & _). auto. }
  assert (W : forall k j i, (ks g - 1 <= k <= ks g)%Z -> (js g - 1 <= j <= je g + 1)%Z -> (is g - 1 <= i <= ie g + 1)%Z -> Phi g (k + (ke g - ks g + 1))%Z j i = Phi g k j i).
  { intros k j i Hk Hj Hi. destruct (Hp k j i ltac:(lia)) as (_ & _ & Y'). destruct (Y' ltac:(lia)) as (_ & Z & _). auto. }
  split; [intros k Hk; split; [intros j Hj; split|intros i Hi; split]|intros j i Hj Hi; split].
  - rewrite <- (X k j (is g - 1)%Z) by lia. f_equal. lia.
  - rewrite <- (X k j (is g)) by lia. f_equal. lia.
  - rewrite <- (Y k (js g - 1)%Z i) by lia. f_equal. lia.
  - rewrite <- (Y k (js g) i) by lia. f_equal. lia.
  - rewrite <- (W (ks g - 1)%Z j i) by lia. f_equal. lia.
  - rewrite <- (W (ks g) j i) by lia. f_equal. lia.
Qed.
Definition withU (g : grid3) (V : Z -> Z -> Z -> cons) : grid3 :=
  Grid3 (is g) (ie g) (js g) (je g) (ks g) (ke g) (dt g) (dx1 g) (dx2 g) (dx3 g) (MinX1 g) (MinX2 g) (MinX3 g) V (B1i g) (B2i g) (B3i g) (Phi g) (x1Mass g) (x2Mass g) (x3Mass g).

(** With periodic boundaries, step and correction together leave the total momentum exactly as it was, whatever the potentials. *)
Theorem C93_momentum_3d : forall m sc z g G4 mean P ns b, nearby (s_lr sc) -> nonempty3 g ->
  s_grav sc = None -> s_selfg sc = Some (G4, mean) -> scalars3 g ns -> (s_mhd sc = true -> centred3 g) -> periodic3 sc g ->
  wraps3 (ks g) (ke g) (js g) (je g) (is g) (ie g) P ->
  gas3 g (corrected3 G4 mean (integrate_3d m sc z g) P) (fun u _ _ _ => density (mom b) u) = gas3 g (U g) (fun u _ _ _ => density (mom b) u).
Proof.
  intros m sc z g G4 mean P ns b Hlr Hne Hg Hs HS Hc Hp WP.
  assert (Hu : unsourced3 sc (mom b)) by (destruct b; cbn; auto).
  pose proof (C40_periodic_3d m sc z g (mom b) ns Hlr Hne Hu HS ltac:(destruct b; discriminate) Hc Hp) as C.
  pose proof (periodic_wraps sc g Hp Hne ltac:(congruence)) as WQ.
  change (gas3 g (U g) (fun u _ _ _ => density (mom b) u)) with (total3 (fun u _ _ _ => density (mom b) u) g). rewrite <- C. clear C.
  set (h := integrate_3d m sc z g).
  set (T := fun a k j i => (stress3 G4 mean (dx1 g) (dx2 g) (dx3 g) a b P k j i - stress3 G4 mean (dx1 g) (dx2 g) (dx3 g) a b (Phi g) k j i)).
  assert (Hne' : nonempty3 h) by (unfold nonempty3, h in *; geo; exact Hne).
  pose proof (tele_total (fun u _ _ _ => density (mom b) u) (T D1) (T D2) (T D3) h (withU h (corrected3 G4 mean h P)) (dt g / 2 / dx1 g) (dt g / 2 / dx2 g) (dt g / 2 / dx3 g)
    eq_refl eq_refl eq_refl eq_refl eq_refl eq_refl Hne') as TT.
  rewrite edge_zero in TT.
  - transitivity (total3 (fun u _ _ _ => density (mom b) u) (withU h (corrected3 G4 mean h P))).
    + unfold total3, gas3, sum3, sum2. cbn [withU U is ie js je ks ke]. unfold h. geo. reflexivity.
    + apply Rminus_diag_uniq. apply TT. intros k j i H. cbn [withU U]. rewrite corr_mom by auto.
      unfold T, div_stress, h. geo. cbn [sh]. unfold Rdiv. ring.
  - unfold h. geo. intros k j Hk Hj. unfold T.
    destruct (stress_wraps G4 mean (dx1 g) (dx2 g) (dx3 g) _ _ _ _ _ _ P b k j (is g) WP Hk Hj ltac:(destruct Hne; lia)) as (-> & _ & _).
    destruct (stress_wraps G4 mean (dx1 g) (dx2 g) (dx3 g) _ _ _ _ _ _ (Phi g) b k j (is g) WQ Hk Hj ltac:(destruct Hne; lia)) as (-> & _ & _). reflexivity.
  - unfold h. geo. intros k i Hk Hi. unfold T.
    destruct (stress_wraps G4 mean (dx1 g) (dx2 g) (dx3 g) _ _ _ _ _ _ P b k (js g) i WP Hk ltac:(destruct Hne as (? & ? & ?); lia) Hi) as (_ & -> & _).
    destruct (stress_wraps G4 mean (dx1 g) (dx2 g) (dx3 g) _ _ _ _ _ _ (Phi g) b k (js g) i WQ Hk ltac:(destruct Hne as (? & ? & ?); lia) Hi) as (_ & -> & _). reflexivity.
  - unfold h. geo. intros j i Hj Hi. unfold T.
    destruct (stress_wraps G4 mean (dx1 g) (dx2 g) (dx3 g) _ _ _ _ _ _ P b (ks g) j i WP ltac:(destruct Hne as (? & ? & ?); lia) Hj Hi) as (_ & _ & ->).
    destruct (stress_wraps G4 mean (dx1 g) (dx2 g) (dx3 g) _ _ _ _ _ _ (Phi g) b (ks g) j i WQ ltac:(destruct Hne as (? & ? & ?); lia) Hj Hi) as (_ & _ & ->). reflexivity.
Qed.
Print Assumptions C93_momentum_3d.

Lemma corr_energy : forall G4 mean h P k j i, active3 h k j i -> let Q := Phi h in
  cE (corrected3 G4 mean h P k j i) = cE (U h k j i)
   - dt h / dx1 h / 2 * (wk (x1Mass h k j i) (x1Mass h k j (i + 1)%Z) (P k j i) (phi1l P k j i) (phi1r P k j i) - wk (x1Mass h k j i) (x1Mass h k j (i + 1)%Z) (Q k j i) (phi1l Q k j i) (phi1r Q k j i))
   - dt h / dx2 h / 2 * (wk (x2Mass h k j i) (x2Mass h k (j + 1)%Z i) (P k j i) (phi2l P k j i) (phi2r P k j i) - wk (x2Mass h k j i) (x2Mass h k (j + 1)%Z i) (Q k j i) (phi2l Q k j i) (phi2r Q k j i))
   - dt h / dx3 h / 2 * (wk (x3Mass h k j i) (x3Mass h (k + 1)%Z j i) (P k j i) (phi3l P k j i) (phi3r P k j i) - wk (x3Mass h k j i) (x3Mass h (k + 1)%Z j i) (Q k j i) (phi3l Q k j i) (phi3r Q k j i)).
Proof.
  intros G4 mean h P k j i H Q. unfold Q; clear Q. unfold corrected3, selfg_fc_3d, selfg_fc_3d_2, selfg_fc_3d_1. rewrite !loop3_in by bla. cbv zeta.
  cbn [set_E set_M1 set_M2 set_M3 cE]. unfold wk, half, Rdiv.
  set (y1 := / dx1 h). set (y2 := / dx2 h). set (y3 := / dx3 h).
  generalize (phi1l P k j i) (phi1r P k j i) (phi2l P k j i) (phi2r P k j i) (phi3l P k j i) (phi3r P k j i)
    (phi1l (Phi h) k j i) (phi1r (Phi h) k j i) (phi2l (Phi h) k j i) (phi2r (Phi h) k j i) (phi3l (Phi h) k j i) (phi3r (Phi h) k j i). intros. ring.
Qed.
(** With periodic boundaries, step and correction together leave the sum of the energy of the gas and of its gravitational energy
    (half of density times potential) exactly as it was. *)
Theorem C93_energy_3d : forall m sc z g G4 mean P ns, nearby (s_lr sc) -> nonempty3 g ->
  s_grav sc = None -> s_cool sc = None -> s_selfg sc = Some (G4, mean) -> G4 <> 0 -> scalars3 g ns -> (s_mhd sc = true -> centred3 g) -> periodic3 sc g ->
  let h := integrate_3d m sc z g in
  solves3 G4 (dx1 g) (dx2 g) (dx3 g) (ks g) (ke g) (js g) (je g) (is g) (ie g) (fun k j i => cd (U g k j i)) (Phi g) ->
  solves3 G4 (dx1 g) (dx2 g) (dx3 g) (ks g) (ke g) (js g) (je g) (is g) (ie g) (fun k j i => cd (U h k j i)) P ->
  gas3 g (corrected3 G4 mean h P) (fun u k j i => cE u + cd u * P k j i / 2) = gas3 g (U g) (fun u k j i => cE u + cd u * Phi g k j i / 2).
Proof.
  intros m sc z g G4 mean P ns Hlr Hne Hg Hcool Hs G HS Hc Hp h SO SN. pose proof Hne as (L1 & L2 & L3).
  pose proof (green3 G4 (dx1 g) (dx2 g) (dx3 g) _ _ _ _ _ _ _ _ _ _ L3 L2 L1 G SO SN) as GR. cbv beta in GR.
  destruct SO as [[WO1 WO2] _], SN as [[WN1 WN2] _].
  set (F1 := flx1 m sc z g). set (F2 := flx2 m sc z g). set (F3 := flx3 m sc z g).
  set (b := fun k j i => (Phi g k j i + P k j i) / 2).
  set (X := fun k j i => ue (F1 k j i) + ud (F1 k j i) * ((b k j (i - 1)%Z + b k j i) / 2)).
  set (Y := fun k j i => ue (F2 k j i) + ud (F2 k j i) * ((b k (j - 1)%Z i + b k j i) / 2)).
  set (W := fun k j i => ue (F3 k j i) + ud (F3 k j i) * ((b (k - 1)%Z j i + b k j i) / 2)).
  assert (HA : forall k j i, active3 g k j i -> active3 h k j i) by (intros; unfold active3, h in *; geo; auto).
  assert (C : forall k j i, active3 g k j i -> cE (corrected3 G4 mean h P k j i) + b k j i * cd (corrected3 G4 mean h P k j i) = cE (U g k j i) + b k j i * cd (U g k j i)
    - dt g / dx1 g * (X k j (i + 1)%Z - X k j i) - dt g / dx2 g * (Y k (j + 1)%Z i - Y k j i) - dt g / dx3 g * (W (k + 1)%Z j i - W k j i)).
  { intros k j i H. destruct (C93_touches_3d G4 mean h P k j i) as (_ & -> & _). rewrite corr_energy by auto. cbv zeta. unfold h.
    rewrite (step_mass1 m sc z g (G4, mean) k j i Hs), (step_mass1 m sc z g (G4, mean) k j (i + 1)%Z Hs), (step_mass2 m sc z g (G4, mean) k j i Hs),
      (step_mass2 m sc z g (G4, mean) k (j + 1)%Z i Hs), (step_mass3 m sc z g (G4, mean) k j i Hs), (step_mass3 m sc z g (G4, mean) (k + 1)%Z j i Hs) by bla.
    rewrite (step_energy m sc z g k j i (G4, mean) Hg Hcool Hs H), (step_density m sc z g k j i ns HS Hc H). geo.
    fold F1 F2 F3. unfold X, Y, W, b, wk, phi1l, phi1r, phi2l, phi2r, phi3l, phi3r, half.
    replace (i + 1 - 1)%Z with i by lia. replace (j + 1 - 1)%Z with j by lia. replace (k + 1 - 1)%Z with k by lia. clearbody F1 F2 F3. clear.
    unfold Rdiv. set (y1 := / dx1 g). set (y2 := / dx2 g). set (y3 := / dx3 g). field. }
  assert (E : edge X Y W g (dt g / dx1 g) (dt g / dx2 g) (dt g / dx3 g) = 0).
  { apply edge_zero.
    - intros k j Hk Hj. unfold X. assert (FP : F1 k j (ie g + 1)%Z = F1 k j (is g)).
      { unfold F1. apply (flx1_local m sc z z g g k j (is g) k j (ie g + 1)%Z Hlr); [apply periodic_near1; auto; lia|bla|bla]. }
      rewrite FP. replace (ie g + 1 - 1)%Z with (ie g) by lia. unfold b.
      destruct (proj1 (WO1 k ltac:(lia)) j ltac:(lia)) as [-> ->]. destruct (proj1 (WN1 k ltac:(lia)) j ltac:(lia)) as [-> ->]. reflexivity.
    - intros k i Hk Hi. unfold Y. assert (FP : F2 k (je g + 1)%Z i = F2 k (js g) i).
      { unfold F2. apply (flx2_local m sc z z g g k (js g) i k (je g + 1)%Z i Hlr); [apply periodic_near2; auto; lia|bla|bla]. }
      rewrite FP. replace (je g + 1 - 1)%Z with (je g) by lia. unfold b.
      destruct (proj2 (WO1 k ltac:(lia)) i ltac:(lia)) as [-> ->]. destruct (proj2 (WN1 k ltac:(lia)) i ltac:(lia)) as [-> ->]. reflexivity.
    - intros j i Hj Hi. unfold W. assert (FP : F3 (ke g + 1)%Z j i = F3 (ks g) j i).
      { unfold F3. apply (flx3_local m sc z z g g (ks g) j i (ke g + 1)%Z j i Hlr); [apply periodic_near3; auto; lia|bla|bla]. }
      rewrite FP. replace (ke g + 1 - 1)%Z with (ke g) by lia. unfold b.
      destruct (WO2 j i ltac:(lia) ltac:(lia)) as [-> ->]. destruct (WN2 j i ltac:(lia) ltac:(lia)) as [-> ->]. reflexivity. }
  pose proof (tele_total (fun u k j i => cE u + b k j i * cd u) X Y W g (withU g (corrected3 G4 mean h P)) (dt g / dx1 g) (dt g / dx2 g) (dt g / dx3 g)
    eq_refl eq_refl eq_refl eq_refl eq_refl eq_refl Hne C) as TT. rewrite E in TT. clear E C.
  change (total3 (fun u k j i => cE u + b k j i * cd u) (withU g (corrected3 G4 mean h P))) with (gas3 g (corrected3 G4 mean h P) (fun u k j i => cE u + b k j i * cd u)) in TT.
  change (total3 (fun u k j i => cE u + b k j i * cd u) g) with (gas3 g (U g) (fun u k j i => cE u + b k j i * cd u)) in TT.
  assert (A1 : gas3 g (corrected3 G4 mean h P) (fun u k j i => cE u + cd u * P k j i / 2) = gas3 g (corrected3 G4 mean h P) (fun u k j i => cE u + b k j i * cd u)
     - / 2 * sum3 (ks g) (ke g) (js g) (je g) (is g) (ie g) (fun k j i => cd (U h k j i) * Phi g k j i)).
  { unfold gas3. rewrite <- sum3_scal, <- sum3_minus. apply sum3_ext. intros k j i Hk Hj Hi. destruct (C93_touches_3d G4 mean h P k j i) as (_ & -> & _). unfold b. field. }
  assert (A2 : gas3 g (U g) (fun u k j i => cE u + cd u * Phi g k j i / 2) = gas3 g (U g) (fun u k j i => cE u + b k j i * cd u)
     - / 2 * sum3 (ks g) (ke g) (js g) (je g) (is g) (ie g) (fun k j i => cd (U g k j i) * P k j i)).
  { unfold gas3. rewrite <- sum3_scal, <- sum3_minus. apply sum3_ext. intros k j i Hk Hj Hi. unfold b. field. }
  rewrite A1, A2, GR. lra.
Qed.
Print Assumptions C93_energy_3d.
