(** * Resistivity: locality, conservation, uniform fields *)
From Coq Require Import Reals ZArith List Bool Lia Lra Psatz.
From Verif Require Import GasModel ConvProps IntegModel IntegSpec IntegFacts Ctu3Model Integ3Spec Integ3Props CondModel DiffSpec CondProps OhmModel OhmSpec OhmProps OhmLocal.
Open Scope R_scope.

Lemma emf_local : forall c h z z' e e' g g' k j i k' j' i', shaped c g -> shaped c g' -> corner c g k j i -> corner c g' k' j' i' ->
  dnear c g g' k j i k' j' i' (-4) 3 -> enear c e e' k j i k' j' i' (-4) 3 ->
  emf1 c z' e' g' k' j' i' = emf1 c z e g k j i /\ emf2 c h z' e' g' k' j' i' = emf2 c h z e g k j i /\ emf3 c h z' e' g' k' j' i' = emf3 c h z e g k j i.
Proof.
  intros c h z z' e e' g g' k j i k' j' i' ((L1 & L2 & L3) & D2 & D3 & D32) ((L1' & L2' & L3') & D2' & D3' & D32') (Ci & Cj & Ck) (Ci' & Cj' & Ck') N EN.
  destruct (three c) eqn:Th.
  - assert (Tw : two c = true) by auto. rewrite Tw in *.
    assert (O : forall dk dj di, (-4 <= dk <= 3)%Z -> (-4 <= dj <= 3)%Z -> (-4 <= di <= 3)%Z -> offset c (-4) 3 dk dj di) by (intros; unfold offset; rewrite Tw, Th; auto).
    repeat match goal with |- _ /\ _ => split end; [apply L3_e1|apply L3_e2|apply L3_e3]; auto; try apply N;
      intros dk dj di Hk Hj Hi; try (unfold b1c, b2c, b3c; f_equal; apply (dn_U _ _ _ _ _ _ _ _ _ _ _ N); apply O; lia);
      try (apply (dn_B1 _ _ _ _ _ _ _ _ _ _ _ N); [apply O|]; lia); try (apply (dn_B2 _ _ _ _ _ _ _ _ _ _ _ N); [apply O; lia|intros; lia]); try (apply (dn_B3 _ _ _ _ _ _ _ _ _ _ _ N); [apply O; lia|intros; lia]);
      apply (EN dk dj di); apply O; lia.
  - destruct (two c) eqn:Tw.
    + specialize (D3 eq_refl). specialize (D3' eq_refl).
      assert (O : forall dk dj di, (0 <= dk <= 0)%Z -> (-4 <= dj <= 3)%Z -> (-4 <= di <= 3)%Z -> offset c (-4) 3 dk dj di) by (intros; unfold offset; rewrite Tw, Th; repeat split; lia).
      repeat match goal with |- _ /\ _ => split end; [apply L2_e1|apply L2_e2|apply L2_e3]; auto; try apply N;
        intros dk dj di Hk Hj Hi; try (unfold b1c, b2c, b3c; f_equal; apply (dn_U _ _ _ _ _ _ _ _ _ _ _ N); apply O; lia);
        try (apply (dn_B1 _ _ _ _ _ _ _ _ _ _ _ N); [apply O|]; lia); try (apply (dn_B2 _ _ _ _ _ _ _ _ _ _ _ N); [apply O; lia|intros; lia]); try (apply (dn_B3 _ _ _ _ _ _ _ _ _ _ _ N); [apply O; lia|congruence]);
        apply (EN dk dj di); apply O; lia.
    + specialize (D3 eq_refl). specialize (D3' eq_refl). specialize (D2 eq_refl). specialize (D2' eq_refl).
      assert (O : forall dk dj di, (0 <= dk <= 0)%Z -> (0 <= dj <= 0)%Z -> (-4 <= di <= 3)%Z -> offset c (-4) 3 dk dj di) by (intros; unfold offset; rewrite Tw, Th; repeat split; lia).
      repeat match goal with |- _ /\ _ => split end; [apply L1_e1|apply L1_e2|apply L1_e3]; auto; try apply N;
        intros dk dj di Hk Hj Hi; try (unfold b1c, b2c, b3c; f_equal; apply (dn_U _ _ _ _ _ _ _ _ _ _ _ N); apply O; lia);
        try (apply (dn_B1 _ _ _ _ _ _ _ _ _ _ _ N); [apply O|]; lia); try (apply (dn_B2 _ _ _ _ _ _ _ _ _ _ _ N); [apply O; lia|congruence]); try (apply (dn_B3 _ _ _ _ _ _ _ _ _ _ _ N); [apply O; lia|congruence]);
        apply (EN dk dj di); apply O; lia.
Qed.

(** The energy fluxes. *)
Section Energy.
Variables (c : dcfg) (h : R) (z : rscratch) (e : etas) (g : grid3).
Let E1 := emf1 c z e g. Let E2 := emf2 c h z e g. Let E3 := emf3 c h z e g.
Definition nf1 (k j i : Z) : R :=
  (if two c then / 4 * (b2c g k j i + b2c g k j (i - 1)%Z) * (E3 k j i + E3 k (j + 1)%Z i) else half * (b2c g k j i + b2c g k j (i - 1)%Z) * E3 k j i)
  - (if three c then / 4 * (b3c g k j i + b3c g k j (i - 1)%Z) * (E2 k j i + E2 (k + 1)%Z j i) else half * (b3c g k j i + b3c g k j (i - 1)%Z) * E2 k j i).
Definition nf2 (k j i : Z) : R :=
  (if three c then / 4 * (b3c g k j i + b3c g k (j - 1)%Z i) * (E1 k j i + E1 (k + 1)%Z j i) else half * (b3c g k j i + b3c g k (j - 1)%Z i) * E1 k j i)
  - / 4 * (b1c g k j i + b1c g k (j - 1)%Z i) * (E3 k j i + E3 k j (i + 1)%Z).
Definition nf3 (k j i : Z) : R :=
  / 4 * (b1c g k j i + b1c g (k - 1)%Z j i) * (E2 k j i + E2 k j (i + 1)%Z) - / 4 * (b2c g k j i + b2c g (k - 1)%Z j i) * (E1 k j i + E1 k (j + 1)%Z i).
Hypothesis (S : shaped c g).
Lemma E_cell : forall k j i, active3 g k j i -> barotropic c = false -> cE (U (resistivity c h z e g) k j i) =
  cE (U g k j i) + a1 h g * (nf1 k j (i + 1)%Z - nf1 k j i) + a2 c h g * (nf2 k (j + 1)%Z i - nf2 k j i) + a3 c h g * (nf3 (k + 1)%Z j i - nf3 k j i).
Proof.
  intros k j i (Hk & Hj & Hi) Bt. destruct S as ((L1 & L2 & L3) & D2 & D3 & D32). unfold resistivity. cbn [U]. unfold Ur, En. cbn [cE]. rewrite Bt.
  assert (R1 : N1 c h z e g k j (i + 1)%Z = nf1 k j (i + 1)%Z /\ N1 c h z e g k j i = nf1 k j i).
  { unfold N1, nf1. destruct (two c) eqn:Tw, (three c) eqn:Th; try (specialize (D32 eq_refl); discriminate); try specialize (D2 eq_refl); try specialize (D3 eq_refl);
      rewrite !loop3_in by lia; split; reflexivity. }
  assert (R2 : two c = true -> N2 c h z e g k (j + 1)%Z i = nf2 k (j + 1)%Z i /\ N2 c h z e g k j i = nf2 k j i).
  { intros Tw. unfold N2, nf2. rewrite Tw. destruct (three c) eqn:Th; try specialize (D3 eq_refl); rewrite !loop3_in by lia; split; reflexivity. }
  assert (R3 : three c = true -> N3 c h z e g (k + 1)%Z j i = nf3 (k + 1)%Z j i /\ N3 c h z e g k j i = nf3 k j i).
  { intros Th. unfold N3, nf3. rewrite Th. rewrite !loop3_in by lia; split; reflexivity. }
  unfold En3, En2, En1, a1, a2, a3, q1, q2, q3. destruct R1 as (R1 & R1').
  destruct (three c) eqn:Th.
  - assert (Tw : two c = true) by auto. destruct (R3 eq_refl) as (R4 & R5). destruct (R2 Tw) as (R6 & R7). rewrite Tw. rewrite !loop3_in by lia. rewrite R1, R1', R4, R5, R6, R7. ring.
  - destruct (two c) eqn:Tw.
    + destruct (R2 eq_refl) as (R6 & R7). rewrite !loop3_in by lia. rewrite R1, R1', R6, R7. ring.
    + rewrite !loop3_in by lia. rewrite R1, R1'. ring.
Qed.
End Energy.

(** ** The outcome in a cell and on its faces depends only on the cells around it *)
Lemma win_d : forall c g g' k j i k' j' i' dk dj di, dnear c g g' k j i k' j' i' (-4) 4 -> offset c 0 1 dk dj di ->
  dnear c g g' (k + dk) (j + dj) (i + di) (k' + dk) (j' + dj) (i' + di) (-4) 3.
Proof.
  intros c g g' k j i k' j' i' dk dj di N O.
  assert (W : forall x y w, offset c (-4) 3 x y w -> offset c (-4) 4 (dk + x) (dj + y) (di + w)).
  { unfold offset in *. destruct (two c), (three c); lia. }
  split; try apply N; intros x y w V; specialize (W _ _ _ V).
  - rewrite <- !Z.add_assoc. now apply (dn_U _ _ _ _ _ _ _ _ _ _ _ N).
  - intros L. rewrite <- !Z.add_assoc. apply (dn_B1 _ _ _ _ _ _ _ _ _ _ _ N); auto. unfold offset in O. lia.
  - intros L. rewrite <- !Z.add_assoc. apply (dn_B2 _ _ _ _ _ _ _ _ _ _ _ N); auto. intros Tw. specialize (L Tw). unfold offset in O. rewrite Tw in O. lia.
  - intros L. rewrite <- !Z.add_assoc. apply (dn_B3 _ _ _ _ _ _ _ _ _ _ _ N); auto. intros Th. specialize (L Th). unfold offset in O. rewrite Th in O. lia.
Qed.
Lemma win_e : forall c e e' k j i k' j' i' dk dj di, enear c e e' k j i k' j' i' (-4) 4 -> offset c 0 1 dk dj di ->
  enear c e e' (k + dk) (j + dj) (i + di) (k' + dk) (j' + dj) (i' + di) (-4) 3.
Proof.
  intros c e e' k j i k' j' i' dk dj di N O x y w V.
  assert (W : offset c (-4) 4 (dk + x) (dj + y) (di + w)).
  { unfold offset in *. destruct (two c), (three c); lia. }
  rewrite <- !Z.add_assoc. now apply N.
Qed.
Lemma act_corner : forall c g k j i dk dj di, shaped c g -> active3 g k j i -> offset c 0 1 dk dj di -> corner c g (k + dk) (j + dj) (i + di).
Proof.
  intros c g k j i dk dj di (_ & D2 & D3 & _) (Hk & Hj & Hi) O. unfold offset, corner in *. destruct (two c), (three c); try specialize (D2 eq_refl); try specialize (D3 eq_refl); lia.
Qed.
Theorem C80_local : forall c h z z' e e' g g' k j i k' j' i', shaped c g -> shaped c g' -> active3 g k j i -> active3 g' k' j' i' ->
  dnear c g g' k j i k' j' i' (-4) 4 -> enear c e e' k j i k' j' i' (-4) 4 ->
  let G := resistivity c h z e g in let G' := resistivity c h z' e' g' in
  U G' k' j' i' = U G k j i /\ B1i G' k' j' i' = B1i G k j i /\ B2i G' k' j' i' = B2i G k j i /\ B3i G' k' j' i' = B3i G k j i.
Proof.
  intros c h z z' e e' g g' k j i k' j' i' S S' A A' N EN G G'.
  assert (P : forall dk dj di, offset c 0 1 dk dj di ->
    emf1 c z' e' g' (k' + dk) (j' + dj) (i' + di) = emf1 c z e g (k + dk) (j + dj) (i + di) /\ emf2 c h z' e' g' (k' + dk) (j' + dj) (i' + di) = emf2 c h z e g (k + dk) (j + dj) (i + di)
    /\ emf3 c h z' e' g' (k' + dk) (j' + dj) (i' + di) = emf3 c h z e g (k + dk) (j + dj) (i + di)).
  { intros dk dj di O. apply emf_local; auto; try (now apply act_corner); [now apply win_d|now apply win_e]. }
  pose proof S as ((L1 & L2 & L3) & D2 & D3 & D32).
  assert (Q : forall p q r p' q' r', (p' - k' = p - k)%Z -> (q' - j' = q - j)%Z -> (r' - i' = r - i)%Z -> offset c (-4) 4 (p - k) (q - j) (r - i) -> U g' p' q' r' = U g p q r).
  { intros p q r p' q' r' H1 H2 H3 O. pose proof (dn_U _ _ _ _ _ _ _ _ _ _ _ N _ _ _ O) as E.
    replace p' with (k' + (p - k))%Z by lia. replace q' with (j' + (q - j))%Z by lia. replace r' with (i' + (r - i))%Z by lia. rewrite E. f_equal; lia. }
  assert (QB1 : forall d, (0 <= d <= 1)%Z -> B1i g' k' j' (i' + d)%Z = B1i g k j (i + d)%Z).
  { intros d Hd. pose proof (dn_B1 _ _ _ _ _ _ _ _ _ _ _ N 0 0 d ltac:(unfold offset; destruct (two c), (three c); lia) ltac:(lia)) as E. rewrite !Z.add_0_r in E. exact E. }
  assert (QB2 : forall d, (if two c then (0 <= d <= 1)%Z else d = 0%Z) -> B2i g' k' (j' + d)%Z i' = B2i g k (j + d)%Z i).
  { intros d Hd. pose proof (dn_B2 _ _ _ _ _ _ _ _ _ _ _ N 0 d 0 ltac:(unfold offset; destruct (two c), (three c); lia) ltac:(destruct (two c); [lia|discriminate])) as E. rewrite !Z.add_0_r in E. exact E. }
  assert (QB3 : forall d, (if three c then (0 <= d <= 1)%Z else d = 0%Z) -> B3i g' (k' + d)%Z j' i' = B3i g (k + d)%Z j i).
  { intros d Hd. pose proof (dn_B3 _ _ _ _ _ _ _ _ _ _ _ N d 0 0 ltac:(unfold offset; destruct (two c), (three c); lia) ltac:(destruct (three c); [lia|discriminate])) as E. rewrite !Z.add_0_r in E. exact E. }
  assert (X1 : a1 h g' = a1 h g) by (unfold a1; now rewrite (dn_dx1 _ _ _ _ _ _ _ _ _ _ _ N)).
  assert (X2 : a2 c h g' = a2 c h g) by (unfold a2; now rewrite (dn_dx2 _ _ _ _ _ _ _ _ _ _ _ N)).
  assert (X3 : a3 c h g' = a3 c h g) by (unfold a3; now rewrite (dn_dx3 _ _ _ _ _ _ _ _ _ _ _ N)).
  destruct (P 0%Z 0%Z 0%Z ltac:(unfold offset; destruct (two c), (three c); lia)) as (P1 & P2 & P3).
  destruct (P 0%Z 0%Z 1%Z ltac:(unfold offset; destruct (two c), (three c); lia)) as (Pi1 & Pi2 & Pi3).
  assert (PJ : two c = true -> forall d, (0 <= d <= 1)%Z ->
    emf1 c z' e' g' k' (j' + 1) (i' + d) = emf1 c z e g k (j + 1) (i + d) /\ emf2 c h z' e' g' k' (j' + 1) (i' + d) = emf2 c h z e g k (j + 1) (i + d) /\ emf3 c h z' e' g' k' (j' + 1) (i' + d) = emf3 c h z e g k (j + 1) (i + d)).
  { intros Tw d Hd. pose proof (P 0%Z 1%Z d ltac:(unfold offset; rewrite Tw; destruct (three c); lia)) as X. rewrite !Z.add_0_r in X. exact X. }
  assert (PK : three c = true -> forall b d, (0 <= b <= 1)%Z -> (0 <= d <= 1)%Z ->
    emf1 c z' e' g' (k' + 1) (j' + b) (i' + d) = emf1 c z e g (k + 1) (j + b) (i + d) /\ emf2 c h z' e' g' (k' + 1) (j' + b) (i' + d) = emf2 c h z e g (k + 1) (j + b) (i + d)
    /\ emf3 c h z' e' g' (k' + 1) (j' + b) (i' + d) = emf3 c h z e g (k + 1) (j + b) (i + d)).
  { intros Th b d Hb Hd. exact (P 1%Z b d ltac:(unfold offset; rewrite Th, (D32 Th); lia)). }
  assert (Pd : forall d, (0 <= d <= 1)%Z -> emf2 c h z' e' g' k' j' (i' + d) = emf2 c h z e g k j (i + d) /\ emf3 c h z' e' g' k' j' (i' + d) = emf3 c h z e g k j (i + d)).
  { intros d Hd. pose proof (P 0%Z 0%Z d ltac:(unfold offset; destruct (two c), (three c); lia)) as X. rewrite !Z.add_0_r in X. tauto. }
  rewrite !Z.add_0_r in P1. rewrite !Z.add_0_r in P2. rewrite !Z.add_0_r in P3. rewrite !Z.add_0_r in Pi1. rewrite !Z.add_0_r in Pi2. rewrite !Z.add_0_r in Pi3.
  assert (T0 : forall x : Z, (x + 0 = x)%Z) by (intros; lia).
  assert (F1 : forall d, (0 <= d <= 1)%Z -> B1i G' k' j' (i' + d) = B1i G k j (i + d)).
  { intros d Hd. unfold G, G'. destruct (two c) eqn:Tw; [|rewrite !B1_same by assumption; now apply QB1].
    assert (S0 : shaped c g) by exact S. unfold active3 in A, A'.
    rewrite !B1_face by (auto; lia). rewrite X2, X3, (QB1 d Hd). destruct (PJ eq_refl d Hd) as (_ & _ & ->).
    rewrite (proj2 (Pd d Hd)).
    f_equal. f_equal. unfold a3. destruct (three c) eqn:Th; [|ring]. destruct (PK eq_refl 0%Z d ltac:(lia) Hd) as (_ & R & _). rewrite !T0 in R. rewrite R.
    rewrite (proj1 (Pd d Hd)). reflexivity. }
  assert (F2 : two c = true -> forall d, (0 <= d <= 1)%Z -> B2i G' k' (j' + d) i' = B2i G k (j + d) i).
  { intros Tw d Hd. unfold G, G'. unfold active3 in A, A'. rewrite !B2_face by (auto; lia). rewrite X1, X3, (QB2 d) by (rewrite Tw; exact Hd).
    destruct (PJ Tw 0%Z ltac:(lia)) as (Pj1 & Pj2 & Pj3). destruct (PJ Tw 1%Z ltac:(lia)) as (Pk1 & Pk2 & Pk3). rewrite !T0 in Pj1. rewrite !T0 in Pj2. rewrite !T0 in Pj3.
    f_equal. f_equal.
    - destruct (Z.eq_dec d 0) as [->|]; [rewrite !T0, P3, Pi3; reflexivity|replace d with 1%Z by lia; rewrite Pj3, Pk3; reflexivity].
    - unfold a3. destruct (three c) eqn:Th; [|ring]. destruct (PK eq_refl d 0%Z Hd ltac:(lia)) as (R & _). rewrite !T0 in R. rewrite R.
      destruct (Z.eq_dec d 0) as [->|]; [rewrite !T0, P1; reflexivity|replace d with 1%Z by lia; rewrite Pj1; reflexivity]. }
  assert (F3 : three c = true -> forall d, (0 <= d <= 1)%Z -> B3i G' (k' + d) j' i' = B3i G (k + d) j i).
  { intros Th d Hd. pose proof (D32 Th) as Tw. unfold G, G'. unfold active3 in A, A'. rewrite !B3_face by (auto; lia). rewrite X1, X2, (QB3 d) by (rewrite Th; exact Hd).
    destruct (PJ Tw 0%Z ltac:(lia)) as (Pj1 & Pj2 & Pj3). rewrite !T0 in Pj1. rewrite !T0 in Pj2. rewrite !T0 in Pj3.
    destruct (PK Th 0%Z 0%Z ltac:(lia) ltac:(lia)) as (K1 & K2 & K3). destruct (PK Th 1%Z 0%Z ltac:(lia) ltac:(lia)) as (K4 & K5 & K6). destruct (PK Th 0%Z 1%Z ltac:(lia) ltac:(lia)) as (K7 & K8 & K9).
    rewrite !T0 in K1. rewrite !T0 in K2. rewrite !T0 in K3. rewrite !T0 in K4. rewrite !T0 in K5. rewrite !T0 in K6. rewrite !T0 in K7. rewrite !T0 in K8. rewrite !T0 in K9.
    destruct (Z.eq_dec d 0) as [->|]; [rewrite !T0, P1, P2, Pi2, Pj1; reflexivity|replace d with 1%Z by lia; rewrite K1, K2, K4, K8; reflexivity]. }
  assert (EU : U g' k' j' i' = U g k j i) by (apply Q; try lia; unfold offset; destruct (two c), (three c); lia).
  assert (C2 : cB2 (U G' k' j' i') = cB2 (U G k j i)).
  { unfold G, G'. rewrite !B2_cell by assumption. fold G G'. rewrite X1, EU, P3, Pi3. destruct (two c) eqn:Tw; [|reflexivity].
    pose proof (F2 eq_refl 0%Z ltac:(lia)) as R0. pose proof (F2 eq_refl 1%Z ltac:(lia)) as R1. rewrite !T0 in R0. rewrite R0, R1. reflexivity. }
  assert (C3 : cB3 (U G' k' j' i') = cB3 (U G k j i)).
  { unfold G, G'. rewrite !B3_cell by assumption. fold G G'. rewrite X1, X2, EU, P1, P2, Pi2. destruct (three c) eqn:Th.
    - pose proof (F3 eq_refl 0%Z ltac:(lia)) as R0. pose proof (F3 eq_refl 1%Z ltac:(lia)) as R1. rewrite !T0 in R0. rewrite R0, R1. reflexivity.
    - unfold a2. destruct (two c) eqn:Tw; [|ring]. destruct (PJ eq_refl 0%Z ltac:(lia)) as (R & _ & _). rewrite !T0 in R. rewrite R. reflexivity. }
  split; [|split; [|split]].
  - assert (CE : cE (U G' k' j' i') = cE (U G k j i)).
    { unfold G, G'. destruct (barotropic c) eqn:Bt.
      - unfold resistivity. cbn [U]. unfold Ur, En. cbn [cE]. rewrite Bt. now rewrite EU.
      - rewrite !E_cell by assumption. rewrite X1, X2, X3, EU. unfold nf1, nf2, nf3, b1c, b2c, b3c.
        assert (UI : forall d, (-1 <= d <= 1)%Z -> U g' k' j' (i' + d) = U g k j (i + d)) by (intros; apply Q; try lia; unfold offset; destruct (two c), (three c); lia).
        assert (UJ : forall d, two c = true -> (-1 <= d <= 1)%Z -> U g' k' (j' + d) i' = U g k (j + d) i) by (intros d Tw ?; apply Q; try lia; unfold offset; rewrite Tw; destruct (three c); lia).
        assert (UK : forall d, three c = true -> (-1 <= d <= 1)%Z -> U g' (k' + d) j' i' = U g (k + d) j i) by (intros d Th ?; apply Q; try lia; unfold offset; rewrite Th, (D32 Th); lia).
        replace (i' + 1 - 1)%Z with i' by lia. replace (i + 1 - 1)%Z with i by lia. replace (j' + 1 - 1)%Z with j' by lia. replace (j + 1 - 1)%Z with j by lia. replace (k' + 1 - 1)%Z with k' by lia. replace (k + 1 - 1)%Z with k by lia.
        pose proof (UI (-1)%Z ltac:(lia)) as U1. pose proof (UI 1%Z ltac:(lia)) as U2. change (i' + -1)%Z with (i' - 1)%Z in U1. change (i + -1)%Z with (i - 1)%Z in U1.
        rewrite U1, U2, EU, P2, P3, Pi2, Pi3. unfold a2, a3. f_equal; [f_equal; [f_equal|]|].
        + f_equal. destruct (two c) eqn:Tw.
          * destruct (PJ eq_refl 0%Z ltac:(lia)) as (Pj1 & Pj2 & Pj3). destruct (PJ eq_refl 1%Z ltac:(lia)) as (Pk1 & Pk2 & Pk3). rewrite !T0 in Pj1. rewrite !T0 in Pj2. rewrite !T0 in Pj3. rewrite Pj3, Pk3.
            destruct (three c) eqn:Th; [|reflexivity]. destruct (PK eq_refl 0%Z 0%Z ltac:(lia) ltac:(lia)) as (K1 & K2 & K3). destruct (PK eq_refl 0%Z 1%Z ltac:(lia) ltac:(lia)) as (K4 & K5 & K6).
            rewrite !T0 in K1. rewrite !T0 in K2. rewrite !T0 in K3. rewrite !T0 in K4. rewrite !T0 in K5. rewrite !T0 in K6. rewrite K2, K5. reflexivity.
          * destruct (three c) eqn:Th; [specialize (D32 eq_refl); discriminate|]. reflexivity.
        + destruct (two c) eqn:Tw; [|ring]. destruct (PJ eq_refl 0%Z ltac:(lia)) as (Pj1 & Pj2 & Pj3). destruct (PJ eq_refl 1%Z ltac:(lia)) as (Pk1 & Pk2 & Pk3). rewrite !T0 in Pj1. rewrite !T0 in Pj2. rewrite !T0 in Pj3.
          pose proof (UJ (-1)%Z eq_refl ltac:(lia)) as U3. pose proof (UJ 1%Z eq_refl ltac:(lia)) as U4. change (j' + -1)%Z with (j' - 1)%Z in U3. change (j + -1)%Z with (j - 1)%Z in U3.
          rewrite U3, U4, P1, Pj1, Pj3, Pk3. destruct (three c) eqn:Th; [|reflexivity].
          destruct (PK eq_refl 0%Z 0%Z ltac:(lia) ltac:(lia)) as (K1 & K2 & K3). destruct (PK eq_refl 1%Z 0%Z ltac:(lia) ltac:(lia)) as (K4 & K5 & K6). rewrite !T0 in K1. rewrite !T0 in K2. rewrite !T0 in K3. rewrite !T0 in K4. rewrite !T0 in K5. rewrite !T0 in K6. rewrite K1, K4. reflexivity.
        + destruct (three c) eqn:Th; [|ring]. pose proof (D32 eq_refl) as Tw. destruct (PJ Tw 0%Z ltac:(lia)) as (Pj1 & Pj2 & Pj3). rewrite !T0 in Pj1. rewrite !T0 in Pj2. rewrite !T0 in Pj3.
          pose proof (UK (-1)%Z eq_refl ltac:(lia)) as U3. pose proof (UK 1%Z eq_refl ltac:(lia)) as U4. change (k' + -1)%Z with (k' - 1)%Z in U3. change (k + -1)%Z with (k - 1)%Z in U3.
          destruct (PK eq_refl 0%Z 0%Z ltac:(lia) ltac:(lia)) as (K1 & K2 & K3). destruct (PK eq_refl 1%Z 0%Z ltac:(lia) ltac:(lia)) as (K4 & K5 & K6). destruct (PK eq_refl 0%Z 1%Z ltac:(lia) ltac:(lia)) as (K7 & K8 & K9).
          rewrite !T0 in K1. rewrite !T0 in K2. rewrite !T0 in K3. rewrite !T0 in K4. rewrite !T0 in K5. rewrite !T0 in K6. rewrite !T0 in K7. rewrite !T0 in K8. rewrite !T0 in K9. rewrite U3, U4, P1, Pj1, K1, K2, K4, K8. reflexivity. }
    assert (C1 : cB1 (U G' k' j' i') = cB1 (U G k j i)).
    { unfold G, G'. rewrite !B1_cell by assumption. fold G G'. rewrite EU. destruct (two c) eqn:Tw; [|reflexivity].
      pose proof (F1 0%Z ltac:(lia)) as R0. pose proof (F1 1%Z ltac:(lia)) as R1. rewrite !T0 in R0. rewrite R0, R1. reflexivity. }
    assert (ER : forall u u', cd u = cd u' -> cM1 u = cM1 u' -> cM2 u = cM2 u' -> cM3 u = cM3 u' -> cE u = cE u' -> cB1 u = cB1 u' -> cB2 u = cB2 u' -> cB3 u = cB3 u' -> cs u = cs u' -> u = u').
    { intros [] []. cbn. intros. subst. reflexivity. }
    apply ER; auto; unfold G, G', resistivity; cbn [U]; unfold Ur; cbn [cd cM1 cM2 cM3 cs]; now rewrite EU.
  - pose proof (F1 0%Z ltac:(lia)) as R0. rewrite !T0 in R0. exact R0.
  - destruct (two c) eqn:Tw.
    + pose proof (F2 eq_refl 0%Z ltac:(lia)) as R0. rewrite !T0 in R0. exact R0.
    + unfold G, G'. rewrite !B2_copy by assumption. exact C2.
  - destruct (three c) eqn:Th.
    + pose proof (F3 eq_refl 0%Z ltac:(lia)) as R0. rewrite !T0 in R0. exact R0.
    + unfold G, G'. rewrite !B3_copy by assumption. exact C3.
Qed.
Print Assumptions C80_local.

(** ** With periodic data everything is conserved *)
Lemma xper1 : forall c g e k j, shaped c g -> dperiodic c g -> eperiodic c g e -> corner c g k j (is g) ->
  dnear c g g k j (is g) k j (ie g + 1) (-4) 3 /\ enear c e e k j (is g) k j (ie g + 1) (-4) 3.
Proof.
  intros c g e k j ((L1 & L2 & L3) & D2 & D3 & D32) P EP (_ & Cj & Ck).
  assert (Zo : forall dk dj di, offset c (-4) 3 dk dj di -> dzone c g (k + dk) (j + dj) (is g + di) /\ dzone c g (k + dk) (j + dj) (is g + di + (ie g - is g + 1))).
  { intros dk dj di O. unfold offset, dzone, nghost in *. destruct (two c), (three c); try specialize (D2 eq_refl); try specialize (D3 eq_refl); lia. }
  split.
  - split; try reflexivity; intros dk dj di O; destruct (Zo _ _ _ O) as (Z1 & Z2); destruct (P _ _ _ Z1) as (I & _ & _); destruct (I Z2) as (E0 & E1 & E2 & E3);
      replace (ie g + 1 + di)%Z with (is g + di + (ie g - is g + 1))%Z by lia; unfold offset, nghost in *; auto.
    + intros H. apply E1. lia.
    + intros H. apply E2. intros T. rewrite T in *. specialize (H eq_refl). lia.
    + intros H. apply E3. intros T. rewrite T in *. specialize (H eq_refl). lia.
  - intros dk dj di O. destruct (Zo _ _ _ O) as (Z1 & Z2). destruct (EP _ _ _ Z1) as (I & _ & _). replace (ie g + 1 + di)%Z with (is g + di + (ie g - is g + 1))%Z by lia. now apply I.
Qed.
Lemma xper2 : forall c g e k i, shaped c g -> dperiodic c g -> eperiodic c g e -> two c = true -> corner c g k (js g) i ->
  dnear c g g k (js g) i k (je g + 1) i (-4) 3 /\ enear c e e k (js g) i k (je g + 1) i (-4) 3.
Proof.
  intros c g e k i ((L1 & L2 & L3) & D2 & D3 & D32) P EP Tw (Ci & _ & Ck).
  assert (Zo : forall dk dj di, offset c (-4) 3 dk dj di -> dzone c g (k + dk) (js g + dj) (i + di) /\ dzone c g (k + dk) (js g + dj + (je g - js g + 1)) (i + di)).
  { intros dk dj di O. unfold offset, dzone, nghost in *. rewrite Tw in *. destruct (three c); try specialize (D3 eq_refl); lia. }
  split.
  - split; try reflexivity; intros dk dj di O; destruct (Zo _ _ _ O) as (Z1 & Z2); destruct (P _ _ _ Z1) as (_ & I & _); destruct (I Tw Z2) as (E0 & E1 & E2 & E3);
      replace (je g + 1 + dj)%Z with (js g + dj + (je g - js g + 1))%Z by lia; unfold offset, nghost in *; auto.
    + intros H. apply E1. lia.
    + intros H. apply E2. intros T. rewrite T in *. specialize (H eq_refl). lia.
    + intros H. apply E3. intros T. rewrite T in *. specialize (H eq_refl). lia.
  - intros dk dj di O. destruct (Zo _ _ _ O) as (Z1 & Z2). destruct (EP _ _ _ Z1) as (_ & I & _). replace (je g + 1 + dj)%Z with (js g + dj + (je g - js g + 1))%Z by lia. now apply I.
Qed.
Lemma xper3 : forall c g e j i, shaped c g -> dperiodic c g -> eperiodic c g e -> three c = true -> corner c g (ks g) j i ->
  dnear c g g (ks g) j i (ke g + 1) j i (-4) 3 /\ enear c e e (ks g) j i (ke g + 1) j i (-4) 3.
Proof.
  intros c g e j i ((L1 & L2 & L3) & D2 & D3 & D32) P EP Th (Ci & Cj & _). pose proof (D32 Th) as Tw.
  assert (Zo : forall dk dj di, offset c (-4) 3 dk dj di -> dzone c g (ks g + dk) (j + dj) (i + di) /\ dzone c g (ks g + dk + (ke g - ks g + 1)) (j + dj) (i + di)).
  { intros dk dj di O. unfold offset, dzone, nghost in *. rewrite Tw, Th in *. lia. }
  split.
  - split; try reflexivity; intros dk dj di O; destruct (Zo _ _ _ O) as (Z1 & Z2); destruct (P _ _ _ Z1) as (_ & _ & I); destruct (I Th Z2) as (E0 & E1 & E2 & E3);
      replace (ke g + 1 + dk)%Z with (ks g + dk + (ke g - ks g + 1))%Z by lia; unfold offset, nghost in *; auto.
    + intros H. apply E1. lia.
    + intros H. apply E2. intros T. rewrite T in *. specialize (H eq_refl). lia.
    + intros H. apply E3. intros T. rewrite T in *. specialize (H eq_refl). lia.
  - intros dk dj di O. destruct (Zo _ _ _ O) as (Z1 & Z2). destruct (EP _ _ _ Z1) as (_ & _ & I). replace (ke g + 1 + dk)%Z with (ks g + dk + (ke g - ks g + 1))%Z by lia. now apply I.
Qed.
Section Periodic.
Variables (c : dcfg) (h : R) (z : rscratch) (e : etas) (g : grid3).
Hypothesis (S : shaped c g) (P : dperiodic c g) (EP : eperiodic c g e).
Lemma emf_per1 : forall k j, corner c g k j (is g) ->
  emf1 c z e g k j (ie g + 1) = emf1 c z e g k j (is g) /\ emf2 c h z e g k j (ie g + 1) = emf2 c h z e g k j (is g) /\ emf3 c h z e g k j (ie g + 1) = emf3 c h z e g k j (is g).
Proof.
  intros k j C. destruct (xper1 c g e k j S P EP C) as (N & EN). pose proof S as ((L1 & L2 & L3) & _). apply emf_local; auto. unfold corner in *. intuition lia.
Qed.
Lemma emf_per2 : forall k i, two c = true -> corner c g k (js g) i ->
  emf1 c z e g k (je g + 1) i = emf1 c z e g k (js g) i /\ emf2 c h z e g k (je g + 1) i = emf2 c h z e g k (js g) i /\ emf3 c h z e g k (je g + 1) i = emf3 c h z e g k (js g) i.
Proof.
  intros k i Tw C. destruct (xper2 c g e k i S P EP Tw C) as (N & EN). pose proof S as ((L1 & L2 & L3) & _). apply emf_local; auto. unfold corner in *. rewrite Tw in *. intuition lia.
Qed.
Lemma emf_per3 : forall j i, three c = true -> corner c g (ks g) j i ->
  emf1 c z e g (ke g + 1) j i = emf1 c z e g (ks g) j i /\ emf2 c h z e g (ke g + 1) j i = emf2 c h z e g (ks g) j i /\ emf3 c h z e g (ke g + 1) j i = emf3 c h z e g (ks g) j i.
Proof.
  intros j i Th C. destruct (xper3 c g e j i S P EP Th C) as (N & EN). pose proof S as ((L1 & L2 & L3) & _). apply emf_local; auto. unfold corner in *. rewrite Th in *. intuition lia.
Qed.
End Periodic.
Theorem C80_periodic : forall c h z e g q, shaped c g -> dperiodic c g -> eperiodic c g e -> dcentred c g ->
  total3 (fun u _ _ _ => density q u) (resistivity c h z e g) = total3 (fun u _ _ _ => density q u) g.
Proof.
  intros c h z e g q S P EP C. set (G := resistivity c h z e g). pose proof S as ((L1 & L2 & L3) & D2 & D3 & D32).
  pose proof (fun k j Hc => emf_per1 c h z e g S P EP k j Hc) as Q1. pose proof (fun k i T Hc => emf_per2 c h z e g S P EP k i T Hc) as Q2. pose proof (fun j i T Hc => emf_per3 c h z e g S P EP j i T Hc) as Q3.
  set (E1 := emf1 c z e g) in *. set (E2 := emf2 c h z e g) in *. set (E3 := emf3 c h z e g) in *.
  assert (PU : forall k j i, dzone c g k j i -> (dzone c g k j (i + (ie g - is g + 1)) -> U g k j (i + (ie g - is g + 1))%Z = U g k j i)
     /\ (two c = true -> dzone c g k (j + (je g - js g + 1)) i -> U g k (j + (je g - js g + 1))%Z i = U g k j i)
     /\ (three c = true -> dzone c g (k + (ke g - ks g + 1)) j i -> U g (k + (ke g - ks g + 1))%Z j i = U g k j i)).
  { intros k j i Zk. destruct (P k j i Zk) as (P1 & P2 & P3). split; [|split]; intros; [now destruct P1|now destruct P2|now destruct P3]. }
  assert (W : forall p X Y V, (forall k j i, active3 g k j i -> p (U G k j i) = p (U g k j i) - a1 h g * (X k j (i + 1)%Z - X k j i) - a2 c h g * (Y k (j + 1)%Z i - Y k j i) - a3 c h g * (V (k + 1)%Z j i - V k j i)) ->
    (forall k j, (ks g <= k <= ke g)%Z -> (js g <= j <= je g)%Z -> X k j (ie g + 1)%Z = X k j (is g)) ->
    (forall k i, two c = true -> (ks g <= k <= ke g)%Z -> (is g <= i <= ie g)%Z -> Y k (je g + 1)%Z i = Y k (js g) i) ->
    (forall j i, three c = true -> (js g <= j <= je g)%Z -> (is g <= i <= ie g)%Z -> V (ke g + 1)%Z j i = V (ks g) j i) ->
    total3 (fun u _ _ _ => p u) G = total3 (fun u _ _ _ => p u) g).
  { intros p X Y V Hp HX HY HV. apply Rminus_diag_uniq.
    rewrite (tele_total (fun u _ _ _ => p u) X (fun k j i => if two c then Y k j i else 0) (fun k j i => if three c then V k j i else 0) g G (a1 h g) (a2 c h g) (a3 c h g)); try reflexivity.
    - apply edge_zero; [exact HX| |]; intros; [destruct (two c) eqn:Tw; auto|destruct (three c) eqn:Th; auto].
    - now repeat split.
    - intros k j i A. rewrite (Hp k j i A). unfold a2, a3. destruct (two c), (three c); ring. }
  assert (W0 : forall p, (forall k j i, p (U G k j i) = p (U g k j i)) -> total3 (fun u _ _ _ => p u) G = total3 (fun u _ _ _ => p u) g).
  { intros p Hp. unfold total3. cbn [ks ke js je is ie G resistivity]. apply sumZ_ext. intros. apply sumZ_ext. intros. apply sumZ_ext. intros. apply Hp. }
  assert (K1 : forall k j, (if three c then (ks g <= k <= ke g + 1)%Z else (ks g <= k <= ke g)%Z) -> (if two c then (js g <= j <= je g + 1)%Z else (js g <= j <= je g)%Z) -> corner c g k j (is g)).
  { intros k j Hk Hj. unfold corner. destruct (two c), (three c); try specialize (D2 eq_refl); try specialize (D3 eq_refl); lia. }
  assert (K2 : two c = true -> forall k i, (if three c then (ks g <= k <= ke g + 1)%Z else (ks g <= k <= ke g)%Z) -> (is g <= i <= ie g + 1)%Z -> corner c g k (js g) i).
  { intros Tw k i Hk Hi. unfold corner. rewrite Tw. destruct (three c); try specialize (D3 eq_refl); lia. }
  assert (K3 : three c = true -> forall j i, (js g <= j <= je g + 1)%Z -> (is g <= i <= ie g + 1)%Z -> corner c g (ks g) j i).
  { intros Th j i Hj Hi. unfold corner. rewrite Th, (D32 Th). lia. }
  destruct q; cbn [density]; try (apply W0; reflexivity).
  - destruct (barotropic c) eqn:Bt.
    + apply W0. intros k j i. unfold G, resistivity, Ur, En. cbn [U cE]. now rewrite Bt.
    + apply (W cE (fun k j i => - nf1 c h z e g k j i) (fun k j i => - nf2 c h z e g k j i) (fun k j i => - nf3 c h z e g k j i)).
      * intros k j i A. unfold G. rewrite (E_cell c h z e g S k j i A Bt). ring.
      * intros k j Hk Hj. unfold nf1. fold E2 E3. unfold b2c, b3c.
        assert (Za : dzone c g k j (is g) /\ dzone c g k j (is g - 1) /\ dzone c g k j (ie g + 1) /\ dzone c g k j (ie g)).
        { unfold dzone, nghost. destruct (two c), (three c); try specialize (D2 eq_refl); try specialize (D3 eq_refl); lia. }
        destruct Za as (Z1 & Z2 & Z3 & Z4). destruct (PU _ _ _ Z1) as (R1 & _). destruct (PU _ _ _ Z2) as (R2 & _).
        replace (is g + (ie g - is g + 1))%Z with (ie g + 1)%Z in R1 by lia. replace (is g - 1 + (ie g - is g + 1))%Z with (ie g) in R2 by lia.
        replace (ie g + 1 - 1)%Z with (ie g) by lia. rewrite (R1 Z3), (R2 Z4).
        destruct (Q1 k j) as (A1 & A2 & A3); [apply K1; [destruct (three c)|destruct (two c)]; lia|]. rewrite A2, A3.
        destruct (two c) eqn:Tw; [destruct (Q1 k (j + 1)%Z) as (_ & _ & ->); [apply K1; [destruct (three c)|]; lia|]|]; (destruct (three c) eqn:Th; [destruct (Q1 (k + 1)%Z j) as (_ & -> & _); [apply K1; lia|]|]); reflexivity.
      * intros k i Tw Hk Hi. unfold nf2. fold E1 E3. unfold b1c, b3c.
        assert (Za : dzone c g k (js g) i /\ dzone c g k (js g - 1) i /\ dzone c g k (je g + 1) i /\ dzone c g k (je g) i).
        { unfold dzone, nghost. rewrite Tw. destruct (three c); try specialize (D3 eq_refl); lia. }
        destruct Za as (Z1 & Z2 & Z3 & Z4). destruct (PU _ _ _ Z1) as (_ & R1 & _). destruct (PU _ _ _ Z2) as (_ & R2 & _). specialize (R1 Tw). specialize (R2 Tw).
        replace (js g + (je g - js g + 1))%Z with (je g + 1)%Z in R1 by lia. replace (js g - 1 + (je g - js g + 1))%Z with (je g) in R2 by lia.
        replace (je g + 1 - 1)%Z with (je g) by lia. rewrite (R1 Z3), (R2 Z4).
        destruct (Q2 k i Tw) as (A1 & A2 & A3); [apply K2; auto; [destruct (three c)|]; lia|]. destruct (Q2 k (i + 1)%Z Tw) as (_ & _ & A4); [apply K2; auto; [destruct (three c)|]; lia|]. rewrite A1, A3, A4.
        destruct (three c) eqn:Th; [destruct (Q2 (k + 1)%Z i Tw) as (-> & _ & _); [apply K2; auto; lia|]|]; reflexivity.
      * intros j i Th Hj Hi. pose proof (D32 Th) as Tw. unfold nf3. fold E1 E2. unfold b1c, b2c.
        assert (Za : dzone c g (ks g) j i /\ dzone c g (ks g - 1) j i /\ dzone c g (ke g + 1) j i /\ dzone c g (ke g) j i).
        { unfold dzone, nghost. rewrite Tw, Th. lia. }
        destruct Za as (Z1 & Z2 & Z3 & Z4). destruct (PU _ _ _ Z1) as (_ & _ & R1). destruct (PU _ _ _ Z2) as (_ & _ & R2). specialize (R1 Th). specialize (R2 Th).
        replace (ks g + (ke g - ks g + 1))%Z with (ke g + 1)%Z in R1 by lia. replace (ks g - 1 + (ke g - ks g + 1))%Z with (ke g) in R2 by lia.
        replace (ke g + 1 - 1)%Z with (ke g) by lia. rewrite (R1 Z3), (R2 Z4).
        destruct (Q3 j i Th) as (A1 & A2 & A3); [apply K3; auto; lia|]. destruct (Q3 j (i + 1)%Z Th) as (_ & A4 & _); [apply K3; auto; lia|]. destruct (Q3 (j + 1)%Z i Th) as (A5 & _ & _); [apply K3; auto; lia|].
        rewrite A1, A2, A4, A5. reflexivity.
  - destruct (two c) eqn:Tw.
    + apply (W cB1 (fun _ _ _ => 0) (fun k j i => half * (E3 k j i + E3 k j (i + 1)%Z)) (fun k j i => - half * (E2 k j i + E2 k j (i + 1)%Z))).
      * intros k j i A. unfold G. rewrite (B1_cell c h z e g S k j i A), Tw. destruct (C k j i A) as (-> & _). destruct A as (Hk & Hj & Hi).
        rewrite !B1_face by (auto; lia). fold E2 E3. ring.
      * reflexivity.
      * intros k i _ Hk Hi. destruct (Q2 k i eq_refl) as (_ & _ & ->); [apply K2; auto; [destruct (three c)|]; lia|]. destruct (Q2 k (i + 1)%Z eq_refl) as (_ & _ & ->); [apply K2; auto; [destruct (three c)|]; lia|]. reflexivity.
      * intros j i Th Hj Hi. destruct (Q3 j i Th) as (_ & -> & _); [apply K3; auto; lia|]. destruct (Q3 j (i + 1)%Z Th) as (_ & -> & _); [apply K3; auto; lia|]. reflexivity.
    + apply W0. intros k j i. now apply (C80_only_field_energy c h z e g S).
  - destruct (two c) eqn:Tw.
    + apply (W cB2 (fun k j i => - half * (E3 k j i + E3 k (j + 1)%Z i)) (fun _ _ _ => 0) (fun k j i => half * (E1 k j i + E1 k (j + 1)%Z i))).
      * intros k j i A. unfold G. rewrite (B2_cell c h z e g S k j i A), Tw. destruct (C k j i A) as (_ & C2 & _). rewrite Tw in C2. rewrite C2. destruct A as (Hk & Hj & Hi).
        rewrite !B2_face by (auto; lia). fold E1 E3. ring.
      * intros k j Hk Hj. destruct (Q1 k j) as (_ & _ & ->); [apply K1; [destruct (three c)|]; lia|]. destruct (Q1 k (j + 1)%Z) as (_ & _ & ->); [apply K1; [destruct (three c)|]; lia|]. reflexivity.
      * reflexivity.
      * intros j i Th Hj Hi. destruct (Q3 j i Th) as (-> & _); [apply K3; auto; lia|]. destruct (Q3 (j + 1)%Z i Th) as (-> & _); [apply K3; auto; lia|]. reflexivity.
    + apply (W cB2 (fun k j i => - E3 k j i) (fun _ _ _ => 0) (fun _ _ _ => 0)); try reflexivity.
      * intros k j i A. unfold G. rewrite (B2_cell c h z e g S k j i A), Tw. fold E3. ring.
      * intros k j Hk Hj. destruct (Q1 k j) as (_ & _ & ->); [apply K1; [destruct (three c)|]; lia|]. reflexivity.
  - destruct (three c) eqn:Th.
    + pose proof (D32 eq_refl) as Tw.
      apply (W cB3 (fun k j i => half * (E2 k j i + E2 (k + 1)%Z j i)) (fun k j i => - half * (E1 k j i + E1 (k + 1)%Z j i)) (fun _ _ _ => 0)).
      * intros k j i A. unfold G. rewrite (B3_cell c h z e g S k j i A), Th. destruct (C k j i A) as (_ & _ & C3). rewrite Th in C3. rewrite C3. destruct A as (Hk & Hj & Hi).
        rewrite !B3_face by (auto; lia). fold E1 E2. ring.
      * intros k j Hk Hj. destruct (Q1 k j) as (_ & -> & _); [apply K1; [|rewrite Tw]; lia|]. destruct (Q1 (k + 1)%Z j) as (_ & -> & _); [apply K1; [|rewrite Tw]; lia|]. reflexivity.
      * intros k i _ Hk Hi. destruct (Q2 k i Tw) as (-> & _); [apply K2; auto; lia|]. destruct (Q2 (k + 1)%Z i Tw) as (-> & _); [apply K2; auto; lia|]. reflexivity.
      * reflexivity.
    + apply (W cB3 E2 (fun k j i => - E1 k j i) (fun _ _ _ => 0)); try reflexivity.
      * intros k j i A. unfold G. rewrite (B3_cell c h z e g S k j i A), Th. fold E1 E2. ring.
      * intros k j Hk Hj. destruct (Q1 k j) as (_ & -> & _); [apply K1; [|destruct (two c)]; lia|]. reflexivity.
      * intros k i Tw Hk Hi. destruct (Q2 k i Tw) as (-> & _); [apply K2; auto; lia|]. reflexivity.
Qed.
Print Assumptions C80_periodic.
