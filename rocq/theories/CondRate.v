(** * Thermal conduction: how much heat flows, and where *)
From Coq Require Import Reals ZArith List Bool Lia Lra Psatz.
From Verif Require Import GasModel ConvProps IntegModel IntegSpec IntegFacts Ctu3Model Integ3Spec Integ3Props CondModel DiffSpec CondProps CondHeat CondMax.
Import ListNotations.
Open Scope R_scope.

(** ** Isotropic conduction: Fourier's law through each face of the cell *)
Theorem C75_isotropic : forall c h z g k j i, shaped c g -> active3 g k j i -> positive_sizes g -> 0 < kappa_iso c -> kappa_aniso c = 0 ->
  0 < cd (U g k j i) -> (forall k' j' i', beside c k j i k' j' i' -> 0 < cd (U g k' j' i')) ->
  let q dx := heat_in c (kappa_iso c) dx (U g k j i) in
  cE (U (conduction c h z g) k j i) = cE (U g k j i)
    + h * ((q (dx1 g) (U g k j (i + 1)%Z) + q (dx1 g) (U g k j (i - 1)%Z)) / dx1 g
           + (if two c then (q (dx2 g) (U g k (j + 1)%Z i) + q (dx2 g) (U g k (j - 1)%Z i)) / dx2 g else 0)
           + (if three c then (q (dx3 g) (U g (k + 1)%Z j i) + q (dx3 g) (U g (k - 1)%Z j i)) / dx3 g else 0)).
Proof.
  intros c h z g k j i S A (P1 & P2 & P3) Hk Ha Hd Hb q. rewrite (cond_cell c z g S h k j i A). unfold set_E at 1. cbn [cE].
  assert (An : aniso_on c = false). { unfold aniso_on. rewrite Ha. destruct (Rlt_dec 0 0); [lra|reflexivity]. }
  assert (Is : iso_on c = true). { unfold iso_on. destruct (Rlt_dec 0 (kappa_iso c)); [reflexivity|contradiction]. }
  assert (Z1 : (i + 1 - 1 = i)%Z) by lia. assert (Z2 : (j + 1 - 1 = j)%Z) by lia. assert (Z3 : (k + 1 - 1 = k)%Z) by lia.
  unfold fq1, fq2, fq3. rewrite An, Is, Z1, Z2, Z3. cbn [andb]. unfold q, heat_in, Tm.
  rewrite (temp_eq c (U g k j i)) by lra.
  rewrite (temp_eq c (U g k j (i + 1)%Z)) by (apply Rgt_not_eq, Hb; left; auto).
  rewrite (temp_eq c (U g k j (i - 1)%Z)) by (apply Rgt_not_eq, Hb; left; auto).
  destruct S as (_ & _ & _ & D32). unfold kd, half.
  destruct (two c) eqn:Tw.
  - rewrite (temp_eq c (U g k (j + 1)%Z i)) by (apply Rgt_not_eq, Hb; right; left; auto).
    rewrite (temp_eq c (U g k (j - 1)%Z i)) by (apply Rgt_not_eq, Hb; right; left; auto).
    destruct (three c) eqn:Th.
    + rewrite (temp_eq c (U g (k + 1)%Z j i)) by (apply Rgt_not_eq, Hb; right; right; auto).
      rewrite (temp_eq c (U g (k - 1)%Z j i)) by (apply Rgt_not_eq, Hb; right; right; auto).
      field. repeat split; lra.
    + field. repeat split; lra.
  - destruct (three c); [specialize (D32 eq_refl); discriminate|]. field. repeat split; lra.
Qed.
Print Assumptions C75_isotropic.

(** ** Anisotropic conduction: heat flows along the field lines and not across them *)
Lemma max_l : forall a b, b <= a -> MAX a b = a.
Proof. intros a b H. unfold MAX. destruct (Rlt_dec b a); lra. Qed.
Lemma an_on : forall c, mhd c = true -> two c = true -> 0 < kappa_aniso c -> aniso_on c = true.
Proof. intros c H1 H2 H3. unfold aniso_on. rewrite H1, H2. destruct (Rlt_dec 0 (kappa_aniso c)); [reflexivity|contradiction]. Qed.
Lemma iso_off : forall c, kappa_iso c = 0 -> iso_on c = false.
Proof. intros c H. unfold iso_on. rewrite H. destruct (Rlt_dec 0 0); [lra|reflexivity]. Qed.
Ltac zs := replace (0 * 0) with 0 by ring; rewrite ?Rplus_0_l, ?Rplus_0_r.

Theorem C75_along_x1 : forall c h z g k j i, shaped c g -> active3 g k j i -> positive_sizes g -> mhd c = true -> two c = true -> kappa_iso c = 0 -> 0 < kappa_aniso c ->
  0 < cd (U g k j i) -> (forall k' j' i', beside c k j i k' j' i' -> 0 < cd (U g k' j' i')) ->
  (cB2 (U g k j i) = 0 /\ cB3 (U g k j i) = 0) -> (forall k' j' i', beside c k j i k' j' i' -> cB2 (U g k' j' i') = 0 /\ cB3 (U g k' j' i') = 0) ->
  B2i g k j i = 0 -> B2i g k (j + 1)%Z i = 0 -> (three c = true -> B3i g k j i = 0 /\ B3i g (k + 1)%Z j i = 0) ->
  TINY_NUMBER <= B1i g k j i * B1i g k j i -> TINY_NUMBER <= B1i g k j (i + 1)%Z * B1i g k j (i + 1)%Z ->
  let q := heat_in c (kappa_aniso c) (dx1 g) (U g k j i) in
  cE (U (conduction c h z g) k j i) = cE (U g k j i) + h * (q (U g k j (i + 1)%Z) + q (U g k j (i - 1)%Z)) / dx1 g.
Proof.
  intros c h z g k j i S A (P1 & P2 & P3) Hm Tw Hi Ha Hd Hb (F2 & F3) Hf G2 G2' G3 T1 T1' q.
  rewrite (cond_cell c z g S h k j i A). unfold set_E at 1. cbn [cE]. pose proof tiny_pos as TP.
  pose proof (an_on c Hm Tw Ha) as An. pose proof (iso_off c Hi) as Is. rewrite Tw.
  assert (Z1 : (i + 1 - 1 = i)%Z) by lia. assert (Z2 : (j + 1 - 1 = j)%Z) by lia. assert (Z3 : (k + 1 - 1 = k)%Z) by lia.
  unfold fq1, fq2, fq3. rewrite An, Is. cbn [andb]. unfold q, heat_in.
  assert (Q1 : aniso1 c g (Tm c g) k j i = kd (kappa_aniso c) (U g k j i) (U g k j (i - 1)%Z) * (Tm c g k j i - Tm c g k j (i - 1)%Z) / dx1 g).
  { unfold aniso1. cbv zeta. destruct (Hf k j (i - 1)%Z ltac:(left; auto)) as (E2 & E3). rewrite F2, F3, E2, E3. zs. rewrite Rmult_0_r. zs.
    replace (if three c then B1i g k j i * B1i g k j i else B1i g k j i * B1i g k j i) with (B1i g k j i * B1i g k j i) by (destruct (three c); reflexivity).
    rewrite max_l by exact T1. destruct (three c); field; repeat split; try lra; intros Z; rewrite Z, Rmult_0_l in T1; lra. }
  assert (Q1' : aniso1 c g (Tm c g) k j (i + 1) = kd (kappa_aniso c) (U g k j (i + 1)%Z) (U g k j i) * (Tm c g k j (i + 1)%Z - Tm c g k j i) / dx1 g).
  { unfold aniso1. cbv zeta. rewrite Z1. destruct (Hf k j (i + 1)%Z ltac:(left; auto)) as (E2 & E3). rewrite F2, F3, E2, E3. zs. rewrite Rmult_0_r. zs.
    replace (if three c then B1i g k j (i + 1)%Z * B1i g k j (i + 1)%Z else B1i g k j (i + 1)%Z * B1i g k j (i + 1)%Z) with (B1i g k j (i + 1)%Z * B1i g k j (i + 1)%Z) by (destruct (three c); reflexivity).
    rewrite max_l by exact T1'. destruct (three c); field; repeat split; try lra; intros Z; rewrite Z, Rmult_0_l in T1'; lra. }
  assert (N2 : forall jj, B2i g k jj i = 0 -> aniso2 c g (Tm c g) k jj i = 0).
  { intros jj E. unfold aniso2. cbv zeta. rewrite E. rewrite !Rmult_0_l, Rmult_0_r. unfold Rdiv. ring. }
  assert (N3 : forall kk, B3i g kk j i = 0 -> aniso3 c g (Tm c g) kk j i = 0).
  { intros kk E. unfold aniso3. cbv zeta. rewrite E. rewrite !Rmult_0_l, Rmult_0_r. unfold Rdiv. ring. }
  rewrite Q1, Q1', (N2 _ G2), (N2 _ G2'). unfold Tm.
  rewrite (temp_eq c (U g k j i)) by lra.
  rewrite (temp_eq c (U g k j (i + 1)%Z)) by (apply Rgt_not_eq, Hb; left; auto).
  rewrite (temp_eq c (U g k j (i - 1)%Z)) by (apply Rgt_not_eq, Hb; left; auto).
  fold (Tm c g). unfold kd, half. destruct (three c); [destruct (G3 eq_refl) as (g3 & g3'); rewrite (N3 _ g3), (N3 _ g3')|]; field; repeat split; lra.
Qed.
Print Assumptions C75_along_x1.

Theorem C75_along_x2 : forall c h z g k j i, shaped c g -> active3 g k j i -> positive_sizes g -> mhd c = true -> two c = true -> kappa_iso c = 0 -> 0 < kappa_aniso c ->
  0 < cd (U g k j i) -> (forall k' j' i', beside c k j i k' j' i' -> 0 < cd (U g k' j' i')) ->
  (cB1 (U g k j i) = 0 /\ cB3 (U g k j i) = 0) -> (forall k' j' i', beside c k j i k' j' i' -> cB1 (U g k' j' i') = 0 /\ cB3 (U g k' j' i') = 0) ->
  B1i g k j i = 0 -> B1i g k j (i + 1)%Z = 0 -> (three c = true -> B3i g k j i = 0 /\ B3i g (k + 1)%Z j i = 0) ->
  TINY_NUMBER <= B2i g k j i * B2i g k j i -> TINY_NUMBER <= B2i g k (j + 1)%Z i * B2i g k (j + 1)%Z i ->
  let q := heat_in c (kappa_aniso c) (dx2 g) (U g k j i) in
  cE (U (conduction c h z g) k j i) = cE (U g k j i) + h * (q (U g k (j + 1)%Z i) + q (U g k (j - 1)%Z i)) / dx2 g.
Proof.
  intros c h z g k j i S A (P1 & P2 & P3) Hm Tw Hi Ha Hd Hb (F2 & F3) Hf G2 G2' G3 T1 T1' q.
  rewrite (cond_cell c z g S h k j i A). unfold set_E at 1. cbn [cE]. pose proof tiny_pos as TP.
  pose proof (an_on c Hm Tw Ha) as An. pose proof (iso_off c Hi) as Is. rewrite Tw.
  assert (Z1 : (i + 1 - 1 = i)%Z) by lia. assert (Z2 : (j + 1 - 1 = j)%Z) by lia. assert (Z3 : (k + 1 - 1 = k)%Z) by lia.
  unfold fq1, fq2, fq3. rewrite An, Is. cbn [andb]. unfold q, heat_in.
  assert (Q1 : aniso2 c g (Tm c g) k j i = kd (kappa_aniso c) (U g k j i) (U g k (j - 1)%Z i) * (Tm c g k j i - Tm c g k (j - 1)%Z i) / dx2 g).
  { unfold aniso2. cbv zeta. destruct (Hf k (j - 1)%Z i ltac:(right; left; auto)) as (E2 & E3). rewrite F2, F3, E2, E3. zs. rewrite Rmult_0_r. zs.
    replace (if three c then B2i g k j i * B2i g k j i else B2i g k j i * B2i g k j i) with (B2i g k j i * B2i g k j i) by (destruct (three c); reflexivity).
    rewrite max_l by exact T1. destruct (three c); field; repeat split; try lra; intros Z; rewrite Z, Rmult_0_l in T1; lra. }
  assert (Q1' : aniso2 c g (Tm c g) k (j + 1) i = kd (kappa_aniso c) (U g k (j + 1)%Z i) (U g k j i) * (Tm c g k (j + 1)%Z i - Tm c g k j i) / dx2 g).
  { unfold aniso2. cbv zeta. rewrite Z2. destruct (Hf k (j + 1)%Z i ltac:(right; left; auto)) as (E2 & E3). rewrite F2, F3, E2, E3. zs. rewrite Rmult_0_r. zs.
    replace (if three c then B2i g k (j + 1)%Z i * B2i g k (j + 1)%Z i else B2i g k (j + 1)%Z i * B2i g k (j + 1)%Z i) with (B2i g k (j + 1)%Z i * B2i g k (j + 1)%Z i) by (destruct (three c); reflexivity).
    rewrite max_l by exact T1'. destruct (three c); field; repeat split; try lra; intros Z; rewrite Z, Rmult_0_l in T1'; lra. }
  assert (N2 : forall ii, B1i g k j ii = 0 -> aniso1 c g (Tm c g) k j ii = 0).
  { intros ii E. unfold aniso1. cbv zeta. rewrite E. rewrite !Rmult_0_l, Rmult_0_r. unfold Rdiv. ring. }
  assert (N3 : forall kk, B3i g kk j i = 0 -> aniso3 c g (Tm c g) kk j i = 0).
  { intros kk E. unfold aniso3. cbv zeta. rewrite E. rewrite !Rmult_0_l, Rmult_0_r. unfold Rdiv. ring. }
  rewrite Q1, Q1', (N2 _ G2), (N2 _ G2'). unfold Tm.
  rewrite (temp_eq c (U g k j i)) by lra.
  rewrite (temp_eq c (U g k (j + 1)%Z i)) by (apply Rgt_not_eq, Hb; right; left; auto).
  rewrite (temp_eq c (U g k (j - 1)%Z i)) by (apply Rgt_not_eq, Hb; right; left; auto).
  fold (Tm c g). unfold kd, half. destruct (three c); [destruct (G3 eq_refl) as (g3 & g3'); rewrite (N3 _ g3), (N3 _ g3')|]; field; repeat split; lra.
Qed.
Print Assumptions C75_along_x2.

Theorem C75_along_x3 : forall c h z g k j i, shaped c g -> active3 g k j i -> positive_sizes g -> mhd c = true -> three c = true -> kappa_iso c = 0 -> 0 < kappa_aniso c ->
  0 < cd (U g k j i) -> (forall k' j' i', beside c k j i k' j' i' -> 0 < cd (U g k' j' i')) ->
  (cB1 (U g k j i) = 0 /\ cB2 (U g k j i) = 0) -> (forall k' j' i', beside c k j i k' j' i' -> cB1 (U g k' j' i') = 0 /\ cB2 (U g k' j' i') = 0) ->
  B1i g k j i = 0 -> B1i g k j (i + 1)%Z = 0 -> B2i g k j i = 0 -> B2i g k (j + 1)%Z i = 0 ->
  TINY_NUMBER <= B3i g k j i * B3i g k j i -> TINY_NUMBER <= B3i g (k + 1)%Z j i * B3i g (k + 1)%Z j i ->
  let q := heat_in c (kappa_aniso c) (dx3 g) (U g k j i) in
  cE (U (conduction c h z g) k j i) = cE (U g k j i) + h * (q (U g (k + 1)%Z j i) + q (U g (k - 1)%Z j i)) / dx3 g.
Proof.
  intros c h z g k j i S A (P1 & P2 & P3) Hm Th Hi Ha Hd Hb (F2 & F3) Hf G1 G1' G2 G2' T1 T1' q.
  assert (Tw : two c = true) by (destruct S; tauto).
  rewrite (cond_cell c z g S h k j i A). unfold set_E at 1. cbn [cE]. pose proof tiny_pos as TP.
  pose proof (an_on c Hm Tw Ha) as An. pose proof (iso_off c Hi) as Is. rewrite Tw, Th.
  assert (Z1 : (i + 1 - 1 = i)%Z) by lia. assert (Z2 : (j + 1 - 1 = j)%Z) by lia. assert (Z3 : (k + 1 - 1 = k)%Z) by lia.
  unfold fq1, fq2, fq3. rewrite An, Is, Th. cbn [andb]. unfold q, heat_in.
  assert (Q1 : aniso3 c g (Tm c g) k j i = kd (kappa_aniso c) (U g k j i) (U g (k - 1)%Z j i) * (Tm c g k j i - Tm c g (k - 1)%Z j i) / dx3 g).
  { unfold aniso3. cbv zeta. destruct (Hf (k - 1)%Z j i ltac:(right; right; auto)) as (E2 & E3). rewrite F2, F3, E2, E3. zs. rewrite Rmult_0_r. zs.
    rewrite max_l by exact T1. field; repeat split; try lra; intros Z; rewrite Z, Rmult_0_l in T1; lra. }
  assert (Q1' : aniso3 c g (Tm c g) (k + 1) j i = kd (kappa_aniso c) (U g (k + 1)%Z j i) (U g k j i) * (Tm c g (k + 1)%Z j i - Tm c g k j i) / dx3 g).
  { unfold aniso3. cbv zeta. rewrite Z3. destruct (Hf (k + 1)%Z j i ltac:(right; right; auto)) as (E2 & E3). rewrite F2, F3, E2, E3. zs. rewrite Rmult_0_r. zs.
    rewrite max_l by exact T1'. field; repeat split; try lra; intros Z; rewrite Z, Rmult_0_l in T1'; lra. }
  assert (N1 : forall ii, B1i g k j ii = 0 -> aniso1 c g (Tm c g) k j ii = 0).
  { intros ii E. unfold aniso1. cbv zeta. rewrite E. rewrite !Rmult_0_l, Rmult_0_r. unfold Rdiv. ring. }
  assert (N2 : forall jj, B2i g k jj i = 0 -> aniso2 c g (Tm c g) k jj i = 0).
  { intros jj E. unfold aniso2. cbv zeta. rewrite E. rewrite !Rmult_0_l, Rmult_0_r. unfold Rdiv. ring. }
  rewrite Q1, Q1', (N1 _ G1), (N1 _ G1'), (N2 _ G2), (N2 _ G2'). unfold Tm.
  rewrite (temp_eq c (U g k j i)) by lra.
  rewrite (temp_eq c (U g (k + 1)%Z j i)) by (apply Rgt_not_eq, Hb; right; right; auto).
  rewrite (temp_eq c (U g (k - 1)%Z j i)) by (apply Rgt_not_eq, Hb; right; right; auto).
  fold (Tm c g). unfold kd, half. field; repeat split; lra.
Qed.
Print Assumptions C75_along_x3.

(** ** Hypotheses that can be met *)
(** A periodic 3D Grid of MHD with temperatures that differ. *)
Definition ex_dcell (k j i : Z) : cons :=
  let b := if Z.even j then 1 else 2 in let d := if Z.even k then 3 else 4 in
  if Z.even (i + j + k) then Cons 1 2 0 0 40 b d 5 (1 :: nil) else Cons 3 (-1) 1 0 60 b d 5 (2 :: nil).
Definition ex_dgrid : grid3 :=
  Grid3 4 5 4 5 4 5 (1 / 10) 1 1 1 0 0 0 ex_dcell (fun k j i => if Z.even j then 1 else 2) (fun k j i => if Z.even k then 3 else 4) (fun _ _ _ => 5)
    (fun _ _ _ => 0) (fun _ _ _ => 0) (fun _ _ _ => 0) (fun _ _ _ => 0).
Definition ex_dcfg : dcfg := DCfg true true true false (2 / 3) 1 2 1 0 1 0 0 0.
Example ex_dshaped : shaped ex_dcfg ex_dgrid.
Proof. unfold shaped, nonempty3. cbn. repeat split; try lia; intros; try discriminate; reflexivity. Qed.
Example ex_dperiodic : dperiodic ex_dcfg ex_dgrid.
Proof.
  intros k j i _. unfold dimage. cbn [U B1i B2i B3i ex_dgrid ie is je js ke ks]. change (5 - 4 + 1)%Z with 2%Z. unfold ex_dcell. rewrite !Z.even_add.
  destruct (Z.even i), (Z.even j), (Z.even k); cbn; repeat split; reflexivity.
Qed.
Example ex_dlocal : dnear ex_dcfg ex_dgrid ex_dgrid 4 4 4 4 4 6 (-1) 1.
Proof.
  split; try reflexivity; intros dk dj di _; intros; cbn [U B1i B2i B3i ex_dgrid]; try reflexivity.
  unfold ex_dcell. replace (6 + di)%Z with (4 + di + 2 * 1)%Z by lia. rewrite !Z.even_add, Z.even_mul. destruct (Z.even 4), (Z.even di), (Z.even dj), (Z.even dk); reflexivity.
Qed.
(** A hot cell amid cold ones with a field along x1. *)
Definition ex_hot (b1 b2 b3 e : R) : grid3 :=
  Grid3 4 8 4 8 4 8 (1 / 10) 1 1 1 0 0 0 (fun k j i => Cons 1 0 0 0 (if (Z.eqb k 6 && Z.eqb j 6 && Z.eqb i 6)%bool then e else 2) b1 b2 b3 nil)
    (fun _ _ _ => b1) (fun _ _ _ => b2) (fun _ _ _ => b3) (fun _ _ _ => 0) (fun _ _ _ => 0) (fun _ _ _ => 0) (fun _ _ _ => 0).
Example ex_hot_ok : forall b1 b2 b3 e, shaped ex_dcfg (ex_hot b1 b2 b3 e) /\ active3 (ex_hot b1 b2 b3 e) 6 6 6 /\ positive_sizes (ex_hot b1 b2 b3 e).
Proof.
  intros. unfold shaped, nonempty3, active3, positive_sizes. cbn. repeat split; try lia; try lra; intros; try discriminate; reflexivity.
Qed.
Lemma beside_hot : forall c k' j' i', beside c 6 6 6 k' j' i' -> (Z.eqb k' 6 && Z.eqb j' 6 && Z.eqb i' 6)%bool = false.
Proof. intros c k' j' i' [(-> & -> & [-> | ->])|[(_ & -> & -> & [-> | ->])|(_ & -> & -> & [-> | ->])]]; reflexivity. Qed.
Example ex_hottest : forall k' j' i', beside ex_dcfg 6 6 6 k' j' i' ->
  0 < cd (U (ex_hot 1 0 0 9) k' j' i') /\ temperature ex_dcfg (U (ex_hot 1 0 0 9) k' j' i') < temperature ex_dcfg (U (ex_hot 1 0 0 9) 6 6 6).
Proof.
  intros k' j' i' B. cbn [U ex_hot]. rewrite (beside_hot _ _ _ _ B). rewrite Z.eqb_refl. cbn [andb].
  unfold temperature. cbn. split; lra.
Qed.
Example ex_coldest : forall k' j' i', beside ex_dcfg 6 6 6 k' j' i' ->
  0 < cd (U (ex_hot 1 0 0 1) k' j' i') /\ temperature ex_dcfg (U (ex_hot 1 0 0 1) 6 6 6) < temperature ex_dcfg (U (ex_hot 1 0 0 1) k' j' i').
Proof.
  intros k' j' i' B. cbn [U ex_hot]. rewrite (beside_hot _ _ _ _ B). rewrite Z.eqb_refl. cbn [andb].
  unfold temperature. cbn. split; lra.
Qed.
Example ex_along : TINY_NUMBER <= B1i (ex_hot 1 0 0 9) 6 6 6 * B1i (ex_hot 1 0 0 9) 6 6 6 /\ B2i (ex_hot 1 0 0 9) 6 6 6 = 0.
Proof. cbn. split; [|reflexivity]. rewrite Rmult_1_r. unfold TINY_NUMBER. rewrite <- Rinv_1. apply Rinv_le_contravar; lra. Qed.
(** C76 with CourNo = 0.8, Gamma = 5/3 and neighbours up to 2.75 times as dense. *)
Example ex_c76 : Gamma_1 ex_dcfg * (4 / 5) * (1 + 11 / 4) <= (if three ex_dcfg then 2 else 4).
Proof. cbn. lra. Qed.

(** ** With a denser neighbour the code's own timestep makes the temperature negative *)
Definition ref_cfg : dcfg := DCfg false false false false (2 / 3) 1 0 0 0 0 0 0 0.
Definition ref_grid : grid3 :=
  Grid3 4 4 0 0 0 0 (1 / 5) 1 1 1 0 0 0 (fun _ _ i => if Z.eqb i 4 then Cons 1 0 0 0 (3 / 2) 0 0 0 nil else Cons 100 0 0 0 (3 / 2) 0 0 0 nil)
    (fun _ _ _ => 0) (fun _ _ _ => 0) (fun _ _ _ => 0) (fun _ _ _ => 0) (fun _ _ _ => 0) (fun _ _ _ => 0) (fun _ _ _ => 0).
Theorem C76_dense_neighbour_refuted : exists c grids CourNo z g k j i,
  shaped c g /\ active3 g k j i /\ positive_sizes g /\ 0 < CourNo <= 1 /\ 0 < Gamma_1 c <= 2 / 3 /\ 0 < kappa_iso c /\ kappa_aniso c = 0 /\
  (forall k j i, 0 < cd (U g k j i) /\ 0 < temperature c (U g k j i)) /\
  dt g = diff_dt CourNo (new_dt_diff c true false false 0 (dx1 g) (dx2 g) (dx3 g) grids) /\
  temperature c (U (conduction c (dt g) z g) k j i) < 0.
Proof.
  exists ref_cfg, nil, (4 / 5), (CScratch (fun _ _ _ => 0) (fun _ _ _ => 0) (fun _ _ _ => 0) (fun _ _ _ => 0)), ref_grid, 0%Z, 0%Z, 4%Z.
  assert (S : shaped ref_cfg ref_grid) by (unfold shaped, nonempty3; cbn; repeat split; try lia; intros; discriminate).
  assert (A : active3 ref_grid 0 0 4) by (unfold active3; cbn; lia).
  assert (P : positive_sizes ref_grid) by (unfold positive_sizes; cbn; lra).
  assert (B : forall k j i, 0 < cd (U ref_grid k j i) /\ 0 < temperature ref_cfg (U ref_grid k j i)).
  { intros k j i. cbn [U ref_grid]. destruct (Z.eqb i 4); unfold temperature; cbn; split; lra. }
  assert (T : dt ref_grid = diff_dt (4 / 5) (new_dt_diff ref_cfg true false false 0 (dx1 ref_grid) (dx2 ref_grid) (dx3 ref_grid) nil)).
  { unfold new_dt_diff, dt_qa, dxmin. cbn. unfold diff_dt. rewrite MAX_r; [field|]. apply Rle_trans with 1; [|lra].
    unfold TINY_NUMBER. rewrite <- Rinv_1. apply Rinv_le_contravar; lra. }
  refine (conj S (conj A (conj P (conj _ (conj _ (conj _ (conj eq_refl (conj B (conj T _))))))))); try (cbn; lra).
  rewrite <- (iso_temp ref_cfg (dt ref_grid) _ ref_grid 0 0 4 S A P) by (try reflexivity; try apply B; try (cbn; lra); intros; apply B).
  unfold weight, temperature. cbn. lra.
Qed.
Print Assumptions C76_dense_neighbour_refuted.
