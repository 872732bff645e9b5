(** * Resistivity: what it changes, magnetic flux, centred fields *)
From Coq Require Import Reals ZArith List Bool Lia Lra Psatz.
From Verif Require Import GasModel ConvProps IntegModel IntegSpec IntegFacts Ctu3Model Integ3Spec Integ3Props CondModel DiffSpec CondProps OhmModel.
Open Scope R_scope.

Lemma loop3_two : forall A kl ku jl ju il iu kl' ku' jl' ju' il' iu' (f old : Z -> Z -> Z -> A) k j i,
  (kl <= k <= ku /\ jl <= j <= ju /\ il <= i <= iu)%Z \/ (kl' <= k <= ku' /\ jl' <= j <= ju' /\ il' <= i <= iu')%Z ->
  loop3 kl ku jl ju il iu f (loop3 kl' ku' jl' ju' il' iu' f old) k j i = f k j i.
Proof.
  intros A kl ku jl ju il iu kl' ku' jl' ju' il' iu' f old k j i H.
  assert (D : (kl <= k <= ku /\ jl <= j <= ju /\ il <= i <= iu)%Z \/ (k < kl \/ ku < k \/ j < jl \/ ju < j \/ i < il \/ iu < i)%Z) by lia.
  destruct D as [D|D]; [apply loop3_in; tauto|]. rewrite loop3_out by assumption. apply loop3_in; lia.
Qed.
Lemma loop3_two_out : forall A kl ku jl ju il iu kl' ku' jl' ju' il' iu' (f f' old : Z -> Z -> Z -> A) k j i,
  (k < kl \/ ku < k \/ j < jl \/ ju < j \/ i < il \/ iu < i)%Z -> (k < kl' \/ ku' < k \/ j < jl' \/ ju' < j \/ i < il' \/ iu' < i)%Z ->
  loop3 kl ku jl ju il iu f (loop3 kl' ku' jl' ju' il' iu' f' old) k j i = old k j i.
Proof. intros. rewrite !loop3_out; auto. Qed.

Section Update.
Variables (c : dcfg) (h : R) (z : rscratch) (e : etas) (g : grid3).
Hypothesis (S : shaped c g).
Let E1 := emf1 c z e g. Let E2 := emf2 c h z e g. Let E3 := emf3 c h z e g.
Definition a1 : R := h / dx1 g.
Definition a2 : R := if two c then h / dx2 g else 0.
Definition a3 : R := if three c then h / dx3 g else 0.
Let G := resistivity c h z e g.
Lemma B1_face : forall k j i, two c = true -> (ks g <= k <= ke g)%Z -> (js g <= j <= je g)%Z -> (is g <= i <= ie g + 1)%Z ->
  B1i G k j i = B1i g k j i + (a3 * (E2 (k + 1)%Z j i - E2 k j i) - a2 * (E3 k (j + 1)%Z i - E3 k j i)).
Proof.
  intros k j i Tw Hk Hj Hi. destruct S as ((L1 & L2 & L3) & D2 & D3 & D32). unfold G, resistivity, f1, a2, a3. cbn [B1i]. rewrite Tw.
  destruct (three c) eqn:Th; [|specialize (D3 eq_refl)]; rewrite loop3_two by lia; unfold ct1; rewrite Th; fold E1 E2 E3; unfold q1, q2, q3; ring.
Qed.
Lemma B2_face : forall k j i, two c = true -> (ks g <= k <= ke g)%Z -> (js g <= j <= je g + 1)%Z -> (is g <= i <= ie g)%Z ->
  B2i G k j i = B2i g k j i + (a1 * (E3 k j (i + 1)%Z - E3 k j i) - a3 * (E1 (k + 1)%Z j i - E1 k j i)).
Proof.
  intros k j i Tw Hk Hj Hi. destruct S as ((L1 & L2 & L3) & D2 & D3 & D32). unfold G, resistivity, g2, f2, a1, a3. cbn [B2i]. rewrite Tw.
  destruct (three c) eqn:Th; [|specialize (D3 eq_refl)]; rewrite loop3_two by lia; unfold ct2; rewrite Th; fold E1 E2 E3; unfold q1, q2, q3; ring.
Qed.
Lemma B3_face : forall k j i, three c = true -> (ks g <= k <= ke g + 1)%Z -> (js g <= j <= je g)%Z -> (is g <= i <= ie g)%Z ->
  B3i G k j i = B3i g k j i + (a2 * (E1 k (j + 1)%Z i - E1 k j i) - a1 * (E2 k j (i + 1)%Z - E2 k j i)).
Proof.
  intros k j i Th Hk Hj Hi. destruct S as ((L1 & L2 & L3) & D2 & D3 & D32). unfold G, resistivity, g3, f3, a1, a2. cbn [B3i]. rewrite Th, (D32 Th).
  rewrite loop3_two by lia; unfold ct3; fold E1 E2 E3; unfold q1, q2, q3; ring.
Qed.
Lemma B1_same : forall k j i, two c = false -> B1i G k j i = B1i g k j i.
Proof. intros k j i Tw. unfold G, resistivity, f1. cbn [B1i]. rewrite Tw. destruct (three c) eqn:Th; [|reflexivity]. exfalso. destruct S as (_ & _ & _ & D). rewrite D in Tw by assumption. discriminate. Qed.
Lemma B1_cell : forall k j i, active3 g k j i -> cB1 (U G k j i) = if two c then half * (B1i G k j i + B1i G k j (i + 1)%Z) else cB1 (U g k j i).
Proof.
  intros k j i (Hk & Hj & Hi). destruct S as ((L1 & L2 & L3) & D2 & D3 & D32). unfold G, resistivity. cbn [U B1i]. unfold Ur, n1c. cbn [cB1].
  destruct (two c) eqn:Tw, (three c) eqn:Th; try (specialize (D32 eq_refl); discriminate); try specialize (D3 eq_refl); try (rewrite loop3_in by lia); reflexivity.
Qed.
Lemma B2_cell : forall k j i, active3 g k j i -> cB2 (U G k j i) = if two c then half * (B2i G k j i + B2i G k (j + 1)%Z i) else cB2 (U g k j i) + a1 * (E3 k j (i + 1)%Z - E3 k j i).
Proof.
  intros k j i (Hk & Hj & Hi). destruct S as ((L1 & L2 & L3) & D2 & D3 & D32). unfold G, resistivity. cbn [U B2i]. unfold Ur, n2c, g2. cbn [cB2].
  destruct (two c) eqn:Tw, (three c) eqn:Th; try (specialize (D32 eq_refl); discriminate); try specialize (D2 eq_refl); try specialize (D3 eq_refl); rewrite loop3_in by lia; reflexivity.
Qed.
Lemma B3_cell : forall k j i, active3 g k j i -> cB3 (U G k j i) = if three c then half * (B3i G k j i + B3i G (k + 1)%Z j i)
  else cB3 (U g k j i) + (a2 * (E1 k (j + 1)%Z i - E1 k j i) - a1 * (E2 k j (i + 1)%Z - E2 k j i)).
Proof.
  intros k j i (Hk & Hj & Hi). destruct S as ((L1 & L2 & L3) & D2 & D3 & D32). unfold G, resistivity. cbn [U B3i]. unfold Ur, n3c, g3, a2. cbn [cB3].
  destruct (two c) eqn:Tw, (three c) eqn:Th; try (specialize (D32 eq_refl); discriminate); try specialize (D2 eq_refl); try specialize (D3 eq_refl); rewrite loop3_in by lia;
    unfold b3c; fold E1 E2 E3; unfold a1, q1, q2; try reflexivity; ring.
Qed.
Lemma B2_copy : forall k j i, active3 g k j i -> two c = false -> B2i G k j i = cB2 (U G k j i).
Proof.
  intros k j i (Hk & Hj & Hi) Tw. destruct S as ((L1 & L2 & L3) & D2 & D3 & D32). specialize (D2 Tw). unfold G, resistivity. cbn [U B2i]. unfold Ur, g2. cbn [cB2]. rewrite Tw.
  destruct (three c) eqn:Th; [rewrite D32 in Tw by auto; discriminate|]. specialize (D3 eq_refl). rewrite loop3_in by lia. reflexivity.
Qed.
Lemma B3_copy : forall k j i, active3 g k j i -> three c = false -> B3i G k j i = cB3 (U G k j i).
Proof.
  intros k j i (Hk & Hj & Hi) Th. destruct S as ((L1 & L2 & L3) & D2 & D3 & D32). specialize (D3 Th). unfold G, resistivity. cbn [U B3i]. unfold Ur, g3. cbn [cB3]. rewrite Th.
  destruct (two c) eqn:Tw; try specialize (D2 eq_refl); rewrite loop3_in by lia; reflexivity.
Qed.
Lemma res_outside : forall k j i, ~ active3 g k j i -> U G k j i = U g k j i.
Proof.
  intros k j i Hn. unfold active3 in Hn. destruct S as ((L1 & L2 & L3) & D2 & D3 & D32). unfold G, resistivity. cbn [U]. unfold Ur, n1c, n2c, n3c, En, En3, En2, En1.
  destruct (two c) eqn:Tw, (three c) eqn:Th; try (specialize (D32 eq_refl); discriminate); try specialize (D2 eq_refl); try specialize (D3 eq_refl); destruct (barotropic c);
    rewrite ?loop3_out by lia; unfold b1c, b2c, b3c; destruct (U g k j i); reflexivity.
Qed.
End Update.

(** ** What it changes: the field of active cells and their faces, and their energy *)
Theorem C80_only_field_energy : forall c h z e g, shaped c g -> let G := resistivity c h z e g in
  (is G = is g /\ ie G = ie g /\ js G = js g /\ je G = je g /\ ks G = ks g /\ ke G = ke g) /\ (dx1 G = dx1 g /\ dx2 G = dx2 g /\ dx3 G = dx3 g /\ dt G = dt g) /\ Phi G = Phi g /\
  (forall k j i, let u := U g k j i in let u' := U G k j i in
     cd u' = cd u /\ cM1 u' = cM1 u /\ cM2 u' = cM2 u /\ cM3 u' = cM3 u /\ cs u' = cs u /\ (barotropic c = true -> cE u' = cE u) /\
     (~ active3 g k j i -> u' = u) /\
     (two c = false -> B1i G k j i = B1i g k j i /\ cB1 u' = cB1 u) /\
     (~ active3 g k j i -> ~ active3 g k j (i - 1) -> B1i G k j i = B1i g k j i) /\
     (~ active3 g k j i -> ~ active3 g k (j - 1) i -> B2i G k j i = B2i g k j i) /\
     (~ active3 g k j i -> ~ active3 g (k - 1) j i -> B3i G k j i = B3i g k j i)).
Proof.
  intros c h z e g S G. do 3 (split; [repeat split|]). intros k j i. cbv zeta.
  split; [reflexivity|]. split; [reflexivity|]. split; [reflexivity|]. split; [reflexivity|]. split; [reflexivity|]. split.
  { intros Bt. unfold G, resistivity, Ur, En. cbn [U cE]. rewrite Bt. reflexivity. }
  split; [intros A; now apply res_outside|]. split.
  { intros Tw. split; [now apply B1_same|]. destruct (classic_active g k j i) as [A|A]; [|unfold G; now rewrite (res_outside c h z e g S k j i A)].
    unfold G. rewrite (B1_cell c h z e g S k j i A). now rewrite Tw. }
  destruct S as ((L1 & L2 & L3) & D2 & D3 & D32). unfold active3.
  split; [|split]; intros A B; unfold G, resistivity; cbn [B1i B2i B3i].
  - unfold f1. destruct (two c) eqn:Tw, (three c) eqn:Th; try (specialize (D32 eq_refl); discriminate); try specialize (D2 eq_refl); try specialize (D3 eq_refl);
      rewrite ?loop3_out by lia; reflexivity.
  - unfold g2, f2. destruct (two c) eqn:Tw, (three c) eqn:Th; try (specialize (D32 eq_refl); discriminate); try specialize (D2 eq_refl); try specialize (D3 eq_refl);
      rewrite ?loop3_out by lia; reflexivity.
  - unfold g3, f3. destruct (two c) eqn:Tw, (three c) eqn:Th; try (specialize (D32 eq_refl); discriminate); try specialize (D2 eq_refl); try specialize (D3 eq_refl);
      rewrite ?loop3_out by lia; reflexivity.
Qed.
Print Assumptions C80_only_field_energy.

(** ** The magnetic flux out of every cell stays what it was *)
Theorem C80_flux : forall c h z e g k j i, shaped c g -> dx1 g <> 0 -> dx2 g <> 0 -> dx3 g <> 0 -> active3 g k j i ->
  flux_out c (resistivity c h z e g) k j i = flux_out c g k j i.
Proof.
  intros c h z e g k j i S X1 X2 X3 (Hk & Hj & Hi). unfold flux_out. pose proof S as (_ & _ & _ & D32).
  change (dx1 (resistivity c h z e g)) with (dx1 g). change (dx2 (resistivity c h z e g)) with (dx2 g). change (dx3 (resistivity c h z e g)) with (dx3 g).
  destruct (two c) eqn:Tw.
  - rewrite !(B1_face c h z e g S), !(B2_face c h z e g S) by (auto; lia). unfold a1, a2, a3. rewrite Tw.
    destruct (three c) eqn:Th; [|field; auto]. rewrite !(B3_face c h z e g S) by (auto; lia). unfold a1, a2. rewrite Tw. field. auto.
  - rewrite !(B1_same c h z e g S) by assumption. destruct (three c) eqn:Th; [specialize (D32 eq_refl); discriminate|]. reflexivity.
Qed.
Print Assumptions C80_flux.

(** ** The fields of cells and faces stay consistent *)
Theorem C80_centred : forall c h z e g, shaped c g -> dcentred c g -> dcentred c (resistivity c h z e g).
Proof.
  intros c h z e g S C k j i A. change (active3 g k j i) in A. destruct (C k j i A) as (C1 & C2 & C3).
  rewrite (B1_cell c h z e g S k j i A). destruct (two c) eqn:Tw; (split; [|split]).
  - reflexivity.
  - rewrite (B2_cell c h z e g S k j i A), Tw. reflexivity.
  - destruct (three c) eqn:Th; [rewrite (B3_cell c h z e g S k j i A), Th; reflexivity|symmetry; now apply B3_copy].
  - rewrite !(B1_same c h z e g S) by assumption. exact C1.
  - symmetry. now apply B2_copy.
  - destruct (three c) eqn:Th; [rewrite (B3_cell c h z e g S k j i A), Th; reflexivity|symmetry; now apply B3_copy].
Qed.
Print Assumptions C80_centred.
