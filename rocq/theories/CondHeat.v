(** * Thermal conduction: heat flows out of the hottest cell and into the coldest *)
From Coq Require Import Reals ZArith List Bool Lia Lra Psatz.
From Verif Require Import GasModel ConvProps IntegModel IntegSpec IntegFacts Ctu3Model Integ3Spec Integ3Props CondModel DiffSpec CondProps.
Import ListNotations.
Open Scope R_scope.

Lemma vl0 : forall A B, A * B <= 0 -> vanleer A B = 0.
Proof. intros A B H. unfold vanleer. destruct (Rlt_dec 0 (A * B)); [lra|reflexivity]. Qed.
Lemma lim0 : forall A B C D, A * B <= 0 \/ C * D <= 0 -> limiter4 A B C D = 0.
Proof. intros A B C D [H|H]; unfold limiter4; rewrite (vl0 _ _ H); apply vl0; lra. Qed.
Lemma tiny_pos : 0 < TINY_NUMBER. Proof. unfold TINY_NUMBER. apply Rinv_0_lt_compat. apply pow_lt. lra. Qed.
Lemma max_tiny : forall x, 0 < MAX x TINY_NUMBER.
Proof. intros x. pose proof tiny_pos. unfold MAX. destruct (Rlt_dec TINY_NUMBER x); lra. Qed.
Lemma temp_eq : forall c u, cd u <> 0 -> temp (mhd c) (Gamma_1 c) u = temperature c u.
Proof. intros c u H. unfold temp, temperature, half. destruct (mhd c); field; exact H. Qed.

Section Sign.
Variables (c : dcfg) (g : grid3).
Let T := Tm c g.
Definition ext1 (k j i : Z) : Prop := (T k j (i + 1)%Z - T k j i) * (T k j i - T k j (i - 1)%Z) <= 0.
Definition ext2 (k j i : Z) : Prop := (T k (j + 1)%Z i - T k j i) * (T k j i - T k (j - 1)%Z i) <= 0.
Definition ext3 (k j i : Z) : Prop := (T (k + 1)%Z j i - T k j i) * (T k j i - T (k - 1)%Z j i) <= 0.
Hypothesis (Hsz : positive_sizes g) (Hki : 0 <= kappa_iso c) (Hka : 0 <= kappa_aniso c).
Lemma kd_nonneg : forall kap u v, 0 <= kap -> 0 < cd u -> 0 < cd v -> 0 <= kd kap u v.
Proof. intros kap u v H1 H2 H3. unfold kd, half. apply Rmult_le_pos; [|lra]. lra. Qed.
Lemma coef2 : forall (p q : bool) x y w B D, 0 <= x -> 0 <= y -> 0 < w -> 0 < D ->
  0 <= (if p then x / w else 0) + (if q then y * (B * B) / w / D else 0).
Proof.
  intros p q x y w B D Hx Hy Hw HD.
  assert (0 <= / w) by (left; now apply Rinv_0_lt_compat). assert (0 <= / D) by (left; now apply Rinv_0_lt_compat).
  apply Rplus_le_le_0_compat.
  - destruct p; [|lra]. unfold Rdiv. now apply Rmult_le_pos.
  - destruct q; [|lra]. assert (0 <= B * B) by apply Rle_0_sqr. unfold Rdiv. apply Rmult_le_pos; auto. apply Rmult_le_pos; auto. apply Rmult_le_pos; auto.
Qed.
Lemma fq1_form : forall k j i, 0 < cd (U g k j i) -> 0 < cd (U g k j (i - 1)%Z) ->
  (two c = true -> ext2 k j i \/ ext2 k j (i - 1)) -> (three c = true -> ext3 k j i \/ ext3 k j (i - 1)) ->
  exists a, 0 <= a /\ fq1 c g k j i = a * (T k j i - T k j (i - 1)%Z).
Proof.
  intros k j i Hd Hd' H2 H3. destruct Hsz as (P1 & P2 & P3).
  set (By := half * (cB2 (U g k j (i - 1)%Z) + cB2 (U g k j i))). set (Bz := half * (cB3 (U g k j (i - 1)%Z) + cB3 (U g k j i))). set (B := B1i g k j i).
  set (D := MAX (if three c then B * B + By * By + Bz * Bz else B * B + By * By) TINY_NUMBER).
  assert (PD : 0 < D) by apply max_tiny.
  exists ((if iso_on c then kd (kappa_iso c) (U g k j i) (U g k j (i - 1)%Z) / dx1 g else 0)
          + (if aniso_on c then kd (kappa_aniso c) (U g k j i) (U g k j (i - 1)%Z) * (B * B) / dx1 g / D else 0)). split.
  - apply coef2; auto; now apply kd_nonneg.
  - unfold fq1. assert (A : aniso_on c = true -> aniso1 c g T k j i = kd (kappa_aniso c) (U g k j i) (U g k j (i - 1)%Z) * (B * B) / dx1 g / D * (T k j i - T k j (i - 1)%Z)).
    { intros A. pose proof (aniso_two _ A) as Tw. unfold aniso1. cbv zeta. fold By Bz B D. unfold dT2, dT3. rewrite (lim0 _ _ _ _ (H2 Tw)).
      destruct (three c) eqn:Th; [rewrite (lim0 _ _ _ _ (H3 eq_refl))|]; field; repeat split; lra. }
    fold T. destruct (aniso_on c); [rewrite (A eq_refl)|]; destruct (iso_on c); field; repeat split; lra.
Qed.
Lemma fq2_form : forall k j i, two c = true -> 0 < cd (U g k j i) -> 0 < cd (U g k (j - 1)%Z i) ->
  (ext1 k j i \/ ext1 k (j - 1) i) -> (three c = true -> ext3 k j i \/ ext3 k (j - 1) i) ->
  exists a, 0 <= a /\ fq2 c g k j i = a * (T k j i - T k (j - 1)%Z i).
Proof.
  intros k j i Tw Hd Hd' H2 H3. destruct Hsz as (P1 & P2 & P3).
  set (Bx := half * (cB1 (U g k (j - 1)%Z i) + cB1 (U g k j i))). set (Bz := half * (cB3 (U g k (j - 1)%Z i) + cB3 (U g k j i))). set (B := B2i g k j i).
  set (D := MAX (if three c then Bx * Bx + B * B + Bz * Bz else Bx * Bx + B * B) TINY_NUMBER).
  assert (PD : 0 < D) by apply max_tiny.
  exists ((if iso_on c then kd (kappa_iso c) (U g k j i) (U g k (j - 1)%Z i) / dx2 g else 0)
          + (if aniso_on c then kd (kappa_aniso c) (U g k j i) (U g k (j - 1)%Z i) * (B * B) / dx2 g / D else 0)). split.
  - apply coef2; auto; now apply kd_nonneg.
  - unfold fq2. rewrite Tw. assert (A : aniso_on c = true -> aniso2 c g T k j i = kd (kappa_aniso c) (U g k j i) (U g k (j - 1)%Z i) * (B * B) / dx2 g / D * (T k j i - T k (j - 1)%Z i)).
    { intros A. unfold aniso2. cbv zeta. fold Bx Bz B D. unfold dT1, dT3. rewrite (lim0 _ _ _ _ H2).
      destruct (three c) eqn:Th; [rewrite (lim0 _ _ _ _ (H3 eq_refl))|]; field; repeat split; lra. }
    fold T. destruct (aniso_on c); [rewrite (A eq_refl)|]; destruct (iso_on c); field; repeat split; lra.
Qed.
Lemma fq3_form : forall k j i, three c = true -> 0 < cd (U g k j i) -> 0 < cd (U g (k - 1)%Z j i) ->
  (ext1 k j i \/ ext1 (k - 1) j i) -> (ext2 k j i \/ ext2 (k - 1) j i) ->
  exists a, 0 <= a /\ fq3 c g k j i = a * (T k j i - T (k - 1)%Z j i).
Proof.
  intros k j i Th Hd Hd' H2 H3. destruct Hsz as (P1 & P2 & P3).
  set (Bx := half * (cB1 (U g (k - 1)%Z j i) + cB1 (U g k j i))). set (By := half * (cB2 (U g (k - 1)%Z j i) + cB2 (U g k j i))). set (B := B3i g k j i).
  set (D := MAX (Bx * Bx + By * By + B * B) TINY_NUMBER).
  assert (PD : 0 < D) by apply max_tiny.
  exists ((if iso_on c then kd (kappa_iso c) (U g k j i) (U g (k - 1)%Z j i) / dx3 g else 0)
          + (if aniso_on c then kd (kappa_aniso c) (U g k j i) (U g (k - 1)%Z j i) * (B * B) / dx3 g / D else 0)). split.
  - apply coef2; auto; now apply kd_nonneg.
  - unfold fq3. rewrite Th, andb_true_r. assert (A : aniso_on c = true -> aniso3 c g T k j i = kd (kappa_aniso c) (U g k j i) (U g (k - 1)%Z j i) * (B * B) / dx3 g / D * (T k j i - T (k - 1)%Z j i)).
    { intros A. unfold aniso3. cbv zeta. fold Bx By B D. unfold dT1, dT2. rewrite (lim0 _ _ _ _ H2), (lim0 _ _ _ _ H3). field; repeat split; lra. }
    fold T. destruct (aniso_on c); [rewrite (A eq_refl)|]; destruct (iso_on c); field; repeat split; lra.
Qed.
(** The change of energy in a cell that is not between its neighbours in any direction, as a
    weighted sum of the differences to them. *)
Lemma exchange : forall h z k j i, shaped c g -> active3 g k j i -> 0 <= h ->
  (forall k' j' i', beside c k j i k' j' i' -> 0 < cd (U g k' j' i')) -> 0 < cd (U g k j i) ->
  ext1 k j i -> (two c = true -> ext2 k j i) -> (three c = true -> ext3 k j i) ->
  exists a1 b1 a2 b2 a3 b3, 0 <= a1 /\ 0 <= b1 /\ 0 <= a2 /\ 0 <= b2 /\ 0 <= a3 /\ 0 <= b3 /\
    cE (U (conduction c h z g) k j i) = cE (U g k j i)
      + a1 * (T k j (i + 1)%Z - T k j i) + b1 * (T k j (i - 1)%Z - T k j i)
      + (if two c then a2 * (T k (j + 1)%Z i - T k j i) + b2 * (T k (j - 1)%Z i - T k j i) else 0)
      + (if three c then a3 * (T (k + 1)%Z j i - T k j i) + b3 * (T (k - 1)%Z j i - T k j i) else 0).
Proof.
  intros h z k j i S A Hh Hb Hd X1 X2 X3. rewrite (cond_cell c z g S h k j i A). unfold set_E. cbn [cE].
  assert (D32 : three c = true -> two c = true) by (destruct S; tauto).
  assert (P : forall w, 0 < w -> 0 <= h / w).
  { intros w Hw. unfold Rdiv. apply Rmult_le_pos; [exact Hh|]. left. now apply Rinv_0_lt_compat. }
  destruct Hsz as (P1 & P2 & P3).
  assert (Z1 : (i + 1 - 1 = i)%Z) by lia. assert (Z2 : (j + 1 - 1 = j)%Z) by lia. assert (Z3 : (k + 1 - 1 = k)%Z) by lia.
  destruct (fq1_form k j (i + 1)) as (a1 & Pa1 & E1).
  { apply Hb. left. auto. } { now rewrite Z1. } { intros Tw. right. rewrite Z1. auto. } { intros Tw. right. rewrite Z1. auto. }
  destruct (fq1_form k j i) as (b1 & Pb1 & F1).
  { exact Hd. } { apply Hb. left. auto. } { auto. } { auto. }
  rewrite Z1 in E1. rewrite E1, F1.
  destruct (two c) eqn:Tw.
  - destruct (fq2_form k (j + 1) i) as (a2 & Pa2 & E2).
    { exact Tw. } { apply Hb. right. left. auto. } { now rewrite Z2. } { right. now rewrite Z2. } { intros Th. right. rewrite Z2. auto. }
    destruct (fq2_form k j i) as (b2 & Pb2 & F2).
    { exact Tw. } { exact Hd. } { apply Hb. right. left. auto. } { auto. } { auto. }
    rewrite Z2 in E2. rewrite E2, F2.
    destruct (three c) eqn:Th.
    + destruct (fq3_form (k + 1) j i) as (a3 & Pa3 & E3).
      { exact Th. } { apply Hb. right. right. auto. } { now rewrite Z3. } { right. now rewrite Z3. } { right. rewrite Z3. auto. }
      destruct (fq3_form k j i) as (b3 & Pb3 & F3).
      { exact Th. } { exact Hd. } { apply Hb. right. right. auto. } { auto. } { auto. }
      rewrite Z3 in E3. rewrite E3, F3.
      exists (h / dx1 g * a1), (h / dx1 g * b1), (h / dx2 g * a2), (h / dx2 g * b2), (h / dx3 g * a3), (h / dx3 g * b3).
      repeat split; try (apply Rmult_le_pos; auto). try ring.
    + exists (h / dx1 g * a1), (h / dx1 g * b1), (h / dx2 g * a2), (h / dx2 g * b2), 0, 0.
      repeat split; try (apply Rmult_le_pos; auto); try lra; try ring.
  - destruct (three c); [specialize (D32 eq_refl); discriminate|].
    exists (h / dx1 g * a1), (h / dx1 g * b1), 0, 0, 0, 0. repeat split; try (apply Rmult_le_pos; auto); try lra; try ring.
Qed.
End Sign.

Lemma temp_changed : forall c u e, 0 < cd u -> temperature c (set_E u e) = temperature c u + Gamma_1 c * (e - cE u) / cd u.
Proof. intros c u e H. unfold temperature, set_E. cbn [cd cM1 cM2 cM3 cE cB1 cB2 cB3]. destruct (mhd c); field; lra. Qed.
Lemma cond_set_E : forall c h z g k j i, shaped c g -> U (conduction c h z g) k j i = set_E (U g k j i) (cE (U (conduction c h z g) k j i)).
Proof.
  intros c h z g k j i S. destruct (classic_active g k j i) as [A|A].
  - rewrite (cond_cell c z g S h k j i A). reflexivity.
  - rewrite (cond_outside c z g h k j i A). destruct (U g k j i); reflexivity.
Qed.

(** ** A cell at least as hot as its neighbours is not heated; one at least as cold is not cooled *)
Theorem C75_hottest : forall c h z g k j i, shaped c g -> active3 g k j i -> positive_sizes g -> 0 <= h ->
  0 <= Gamma_1 c -> 0 <= kappa_iso c -> 0 <= kappa_aniso c -> 0 < cd (U g k j i) ->
  (forall k' j' i', beside c k j i k' j' i' -> 0 < cd (U g k' j' i') /\ temperature c (U g k' j' i') <= temperature c (U g k j i)) ->
  temperature c (U (conduction c h z g) k j i) <= temperature c (U g k j i).
Proof.
  intros c h z g k j i S A Hsz Hh HG Hi Ha Hd Hb.
  assert (Tb : forall k' j' i', beside c k j i k' j' i' -> Tm c g k' j' i' - Tm c g k j i <= 0).
  { intros k' j' i' B. destruct (Hb _ _ _ B) as (B1 & B2). unfold Tm. rewrite !temp_eq by lra. lra. }
  assert (D32 : three c = true -> two c = true) by (destruct S; tauto).
  assert (b1 := Tb k j (i + 1)%Z ltac:(left; auto)). assert (b2 := Tb k j (i - 1)%Z ltac:(left; auto)).
  assert (c1 : two c = true -> Tm c g k (j + 1) i - Tm c g k j i <= 0) by (intros; apply Tb; right; left; auto).
  assert (c2 : two c = true -> Tm c g k (j - 1) i - Tm c g k j i <= 0) by (intros; apply Tb; right; left; auto).
  assert (d1 : three c = true -> Tm c g (k + 1) j i - Tm c g k j i <= 0) by (intros; apply Tb; right; right; auto).
  assert (d2 : three c = true -> Tm c g (k - 1) j i - Tm c g k j i <= 0) by (intros; apply Tb; right; right; auto).
  destruct (exchange c g Hsz Hi Ha h z k j i S A Hh) as (p1 & q1 & p2 & q2 & p3 & q3 & P1 & Q1 & P2 & Q2 & P3 & Q3 & E).
  { intros k' j' i' B. apply Hb, B. } { exact Hd. }
  { unfold ext1. clear - b1 b2. nra. } { intros Tw. specialize (c1 Tw). specialize (c2 Tw). unfold ext2. clear - c1 c2. nra. }
  { intros Th. specialize (d1 Th). specialize (d2 Th). unfold ext3. clear - d1 d2. nra. }
  rewrite (cond_set_E c h z g k j i S), temp_changed by exact Hd.
  assert (L : cE (U (conduction c h z g) k j i) - cE (U g k j i) <= 0).
  { rewrite E. clear E. assert (M : forall a x, 0 <= a -> x <= 0 -> a * x <= 0) by (intros; nra).
    pose proof (M _ _ P1 b1). pose proof (M _ _ Q1 b2).
    destruct (two c); [pose proof (M _ _ P2 (c1 eq_refl)); pose proof (M _ _ Q2 (c2 eq_refl))|];
    (destruct (three c); [pose proof (M _ _ P3 (d1 eq_refl)); pose proof (M _ _ Q3 (d2 eq_refl))|]); lra. }
  assert (0 <= / cd (U g k j i)) by (left; now apply Rinv_0_lt_compat).
  assert (Gamma_1 c * (cE (U (conduction c h z g) k j i) - cE (U g k j i)) / cd (U g k j i) <= 0); [|lra].
  unfold Rdiv. assert (0 <= Gamma_1 c * - (cE (U (conduction c h z g) k j i) - cE (U g k j i)) * / cd (U g k j i)) by (repeat apply Rmult_le_pos; lra). lra.
Qed.
Print Assumptions C75_hottest.
Theorem C75_coldest : forall c h z g k j i, shaped c g -> active3 g k j i -> positive_sizes g -> 0 <= h ->
  0 <= Gamma_1 c -> 0 <= kappa_iso c -> 0 <= kappa_aniso c -> 0 < cd (U g k j i) ->
  (forall k' j' i', beside c k j i k' j' i' -> 0 < cd (U g k' j' i') /\ temperature c (U g k j i) <= temperature c (U g k' j' i')) ->
  temperature c (U g k j i) <= temperature c (U (conduction c h z g) k j i).
Proof.
  intros c h z g k j i S A Hsz Hh HG Hi Ha Hd Hb.
  assert (Tb : forall k' j' i', beside c k j i k' j' i' -> 0 <= Tm c g k' j' i' - Tm c g k j i).
  { intros k' j' i' B. destruct (Hb _ _ _ B) as (B1 & B2). unfold Tm. rewrite !temp_eq by lra. lra. }
  assert (D32 : three c = true -> two c = true) by (destruct S; tauto).
  assert (b1 := Tb k j (i + 1)%Z ltac:(left; auto)). assert (b2 := Tb k j (i - 1)%Z ltac:(left; auto)).
  assert (c1 : two c = true -> 0 <= Tm c g k (j + 1) i - Tm c g k j i) by (intros; apply Tb; right; left; auto).
  assert (c2 : two c = true -> 0 <= Tm c g k (j - 1) i - Tm c g k j i) by (intros; apply Tb; right; left; auto).
  assert (d1 : three c = true -> 0 <= Tm c g (k + 1) j i - Tm c g k j i) by (intros; apply Tb; right; right; auto).
  assert (d2 : three c = true -> 0 <= Tm c g (k - 1) j i - Tm c g k j i) by (intros; apply Tb; right; right; auto).
  destruct (exchange c g Hsz Hi Ha h z k j i S A Hh) as (p1 & q1 & p2 & q2 & p3 & q3 & P1 & Q1 & P2 & Q2 & P3 & Q3 & E).
  { intros k' j' i' B. apply Hb, B. } { exact Hd. }
  { unfold ext1. clear - b1 b2. nra. } { intros Tw. specialize (c1 Tw). specialize (c2 Tw). unfold ext2. clear - c1 c2. nra. }
  { intros Th. specialize (d1 Th). specialize (d2 Th). unfold ext3. clear - d1 d2. nra. }
  rewrite (cond_set_E c h z g k j i S), temp_changed by exact Hd.
  assert (L : 0 <= cE (U (conduction c h z g) k j i) - cE (U g k j i)).
  { rewrite E. clear E. pose proof (Rmult_le_pos _ _ P1 b1). pose proof (Rmult_le_pos _ _ Q1 b2).
    destruct (two c); [pose proof (Rmult_le_pos _ _ P2 (c1 eq_refl)); pose proof (Rmult_le_pos _ _ Q2 (c2 eq_refl))|];
    (destruct (three c); [pose proof (Rmult_le_pos _ _ P3 (d1 eq_refl)); pose proof (Rmult_le_pos _ _ Q3 (d2 eq_refl))|]); lra. }
  assert (0 <= / cd (U g k j i)) by (left; now apply Rinv_0_lt_compat).
  assert (0 <= Gamma_1 c * (cE (U (conduction c h z g) k j i) - cE (U g k j i)) * / cd (U g k j i)) by (repeat apply Rmult_le_pos; lra).
  unfold Rdiv. lra.
Qed.
Print Assumptions C75_coldest.
(** ** Where the temperature is uniform nothing changes *)
Theorem C75_uniform : forall c h z g k j i, shaped c g -> active3 g k j i -> positive_sizes g -> 0 <= h ->
  0 <= kappa_iso c -> 0 <= kappa_aniso c -> 0 < cd (U g k j i) ->
  (forall k' j' i', beside c k j i k' j' i' -> 0 < cd (U g k' j' i') /\ temperature c (U g k' j' i') = temperature c (U g k j i)) ->
  U (conduction c h z g) k j i = U g k j i.
Proof.
  intros c h z g k j i S A Hsz Hh Hi Ha Hd Hb.
  assert (Tb : forall k' j' i', beside c k j i k' j' i' -> Tm c g k' j' i' - Tm c g k j i = 0).
  { intros k' j' i' B. destruct (Hb _ _ _ B) as (B1 & B2). unfold Tm. rewrite !temp_eq by lra. lra. }
  assert (b1 := Tb k j (i + 1)%Z ltac:(left; auto)). assert (b2 := Tb k j (i - 1)%Z ltac:(left; auto)).
  assert (c1 : two c = true -> Tm c g k (j + 1) i - Tm c g k j i = 0) by (intros; apply Tb; right; left; auto).
  assert (c2 : two c = true -> Tm c g k (j - 1) i - Tm c g k j i = 0) by (intros; apply Tb; right; left; auto).
  assert (d1 : three c = true -> Tm c g (k + 1) j i - Tm c g k j i = 0) by (intros; apply Tb; right; right; auto).
  assert (d2 : three c = true -> Tm c g (k - 1) j i - Tm c g k j i = 0) by (intros; apply Tb; right; right; auto).
  destruct (exchange c g Hsz Hi Ha h z k j i S A Hh) as (p1 & q1 & p2 & q2 & p3 & q3 & P1 & Q1 & P2 & Q2 & P3 & Q3 & E).
  { intros k' j' i' B. apply Hb, B. } { exact Hd. }
  { unfold ext1. rewrite b1. lra. } { intros Tw. unfold ext2. rewrite (c1 Tw). lra. } { intros Th. unfold ext3. rewrite (d1 Th). lra. }
  rewrite (cond_set_E c h z g k j i S), E, b1, b2.
  replace (set_E (U g k j i) _) with (set_E (U g k j i) (cE (U g k j i))); [destruct (U g k j i); reflexivity|]. f_equal.
  destruct (two c); [rewrite c1, c2 by auto|]; (destruct (three c); [rewrite d1, d2 by auto|]); ring.
Qed.
Print Assumptions C75_uniform.
