(** * Resistivity: Ohmic diffusion never increases the magnetic energy *)
From Coq Require Import Reals ZArith List Bool Lia Lra Psatz.
From Verif Require Import GasModel ConvProps IntegModel IntegSpec IntegFacts Ctu3Model Integ3Spec Integ3Props CondModel DiffSpec CondProps CondMax OhmModel OhmSpec OhmProps OhmLocal OhmCons CondRate.
From Verif Require Lattice.
Open Scope R_scope.

Definition wr (l u i : Z) : Z := (l + (i - l) mod (u - l + 1))%Z.
Lemma wr_in : forall l u i, (l <= i <= u)%Z -> wr l u i = i.
Proof. intros. unfold wr. rewrite Z.mod_small by lia. lia. Qed.
Lemma wr_low : forall l u, (l <= u)%Z -> wr l u (l - 1) = u.
Proof. intros. unfold wr. replace (l - 1 - l)%Z with (u - l + (-1) * (u - l + 1))%Z by lia. rewrite Z.mod_add, Z.mod_small by lia. lia. Qed.
Lemma wr_high : forall l u, (l <= u)%Z -> wr l u (u + 1) = l.
Proof. intros. unfold wr. replace (u + 1 - l)%Z with (0 + 1 * (u - l + 1))%Z by lia. rewrite Z.mod_add, Z.mod_small by lia. lia. Qed.
Lemma wr_per : forall l u i, (l <= u)%Z -> wr l u (i + (u - l + 1)) = wr l u i.
Proof. intros. unfold wr. replace (i + (u - l + 1) - l)%Z with (i - l + 1 * (u - l + 1))%Z by lia. rewrite Z.mod_add by lia. reflexivity. Qed.
Lemma wr_rng : forall l u i, (l <= u)%Z -> (l <= wr l u i <= u)%Z.
Proof. intros. unfold wr. pose proof (Z.mod_pos_bound (i - l) (u - l + 1)). lia. Qed.

Section Heat.
Variables (c : dcfg) (h : R) (z : rscratch) (e : etas) (g : grid3).
Hypothesis (Sh : shaped c g) (Pg : dperiodic c g) (Pe : eperiodic c g e).
Definition P (F : arr) : arr := fun k j i => F (wr (ks g) (ke g) k) (wr (js g) (je g) j) (wr (is g) (ie g) i).
Lemma P_per : forall F, Lattice.per (ks g) (ke g) (js g) (je g) (is g) (ie g) (P F).
Proof. intros F k j i. destruct Sh as ((L1 & L2 & L3) & _). unfold P. rewrite !wr_per by lia. auto. Qed.
(** An active cell or its lower neighbour in the directions the run has. *)
Definition low (k j i : Z) : Prop :=
  (is g - 1 <= i <= ie g)%Z /\ (if two c then (js g - 1 <= j <= je g)%Z else j = js g) /\ (if three c then (ks g - 1 <= k <= ke g)%Z else k = ks g).
Definition wraps (F : arr) : Prop := forall k j i, low k j i ->
  F k j (is g - 1)%Z = F k j (ie g) /\ (two c = true -> F k (js g - 1)%Z i = F k (je g) i) /\ (three c = true -> F (ks g - 1)%Z j i = F (ke g) j i).
Lemma P_low : forall F k j i, wraps F -> low k j i -> P F k j i = F k j i.
Proof.
  intros F k j i W (Hi & Hj & Hk). destruct Sh as ((L1 & L2 & L3) & D2 & D3 & D32). unfold P.
  assert (I : forall k j, low k j (ie g) -> F k j (wr (is g) (ie g) i) = F k j i).
  { intros k0 j0 L0. assert (H : (i = is g - 1 \/ is g <= i)%Z) by lia. destruct H as [->|H]; [|rewrite wr_in by lia; reflexivity]. rewrite wr_low by lia. symmetry. now apply (W k0 j0 (ie g)). }
  assert (J : forall k, low k (je g) i -> F k (wr (js g) (je g) j) i = F k j i).
  { intros k0 L0. destruct (two c) eqn:Tw; [|specialize (D2 eq_refl); rewrite wr_in by lia; reflexivity].
    assert (H : (j = js g - 1 \/ js g <= j)%Z) by lia. destruct H as [->|H]; [|rewrite wr_in by lia; reflexivity]. rewrite wr_low by lia. symmetry. now apply (W k0 (je g) i). }
  pose proof (wr_rng (js g) (je g) j ltac:(lia)) as Rj. pose proof (wr_rng (ks g) (ke g) k ltac:(lia)) as Rk. pose proof (wr_rng (is g) (ie g) i ltac:(lia)) as Ri.
  assert (K : F (wr (ks g) (ke g) k) j i = F k j i).
  { destruct (three c) eqn:Th; [|specialize (D3 eq_refl); rewrite wr_in by lia; reflexivity].
    assert (H : (k = ks g - 1 \/ ks g <= k)%Z) by lia. destruct H as [->|H]; [|rewrite wr_in by lia; reflexivity]. rewrite wr_low by lia. symmetry.
    apply (W (ke g) j i); [|exact Th]. unfold low. rewrite Th. repeat split; auto; lia. }
  rewrite I; [rewrite J; [exact K|]|]; unfold low; destruct (two c), (three c); try specialize (D2 eq_refl); try specialize (D3 eq_refl); repeat split; try lia.
Qed.
Lemma low_zone : forall k j i, low k j i -> dzone c g k j i.
Proof. intros k j i (Hi & Hj & Hk). destruct Sh as ((L1 & L2 & L3) & D2 & D3 & D32). unfold dzone, nghost. destruct (two c), (three c); try specialize (D2 eq_refl); try specialize (D3 eq_refl); lia. Qed.
Lemma low_x1 : forall k j i, low k j i -> dzone c g k j (is g - 1) /\ dzone c g k j (is g - 1 + (ie g - is g + 1)).
Proof. intros k j i (Hi & Hj & Hk). destruct Sh as ((L1 & L2 & L3) & D2 & D3 & D32). unfold dzone, nghost. destruct (two c), (three c); try specialize (D2 eq_refl); try specialize (D3 eq_refl); lia. Qed.
Lemma low_x2 : forall k j i, two c = true -> low k j i -> dzone c g k (js g - 1) i /\ dzone c g k (js g - 1 + (je g - js g + 1)) i.
Proof. intros k j i Tw (Hi & Hj & Hk). destruct Sh as ((L1 & L2 & L3) & D2 & D3 & D32). unfold dzone, nghost. rewrite Tw in *. destruct (three c); try specialize (D3 eq_refl); lia. Qed.
Lemma low_x3 : forall k j i, three c = true -> low k j i -> dzone c g (ks g - 1) j i /\ dzone c g (ks g - 1 + (ke g - ks g + 1)) j i.
Proof. intros k j i Th (Hi & Hj & Hk). destruct Sh as ((L1 & L2 & L3) & D2 & D3 & D32). pose proof (D32 Th) as Tw. unfold dzone, nghost. rewrite Th, Tw in *. lia. Qed.
Lemma wraps_grid : forall F : arr, (forall k j i k' j' i', low k j i -> dimage c g k j i k' j' i' -> F k' j' i' = F k j i) -> wraps F.
Proof.
  intros F HF k j i L. pose proof L as (Hi & Hj & Hk). pose proof Sh as ((L1 & L2 & L3) & D2 & D3 & D32). split; [|split].
  - destruct (low_x1 k j i L) as (Z1 & Z2). destruct (Pg _ _ _ Z1) as (I & _). specialize (I Z2). replace (is g - 1 + (ie g - is g + 1))%Z with (ie g) in I by lia. symmetry. apply HF; auto.
    repeat split; auto; lia.
  - intros Tw. destruct (low_x2 k j i Tw L) as (Z1 & Z2). destruct (Pg _ _ _ Z1) as (_ & I & _). specialize (I Tw Z2). replace (js g - 1 + (je g - js g + 1))%Z with (je g) in I by lia. symmetry. apply HF; auto.
    unfold low. rewrite Tw. repeat split; auto; lia.
  - intros Th. destruct (low_x3 k j i Th L) as (Z1 & Z2). destruct (Pg _ _ _ Z1) as (_ & _ & I). specialize (I Th Z2). replace (ks g - 1 + (ke g - ks g + 1))%Z with (ke g) in I by lia. symmetry. apply HF; auto.
    unfold low. rewrite Th. repeat split; auto; lia.
Qed.
Lemma w_B1 : wraps (B1i g).
Proof. apply wraps_grid. intros k j i k' j' i' (Hi & Hj & Hk) (_ & I & _). apply I. unfold nghost. lia. Qed.
Lemma w_B2 : wraps (fld2 c g).
Proof.
  apply wraps_grid. intros k j i k' j' i' (Hi & Hj & Hk) (I0 & _ & I & _). unfold fld2. destruct (two c) eqn:Tw; [|now rewrite I0]. apply I. intros _. unfold nghost. lia.
Qed.
Lemma w_B3 : wraps (fld3 c g).
Proof.
  apply wraps_grid. intros k j i k' j' i' (Hi & Hj & Hk) (I0 & _ & _ & I). unfold fld3. destruct (three c) eqn:Th; [|now rewrite I0]. apply I. intros _. unfold nghost. lia.
Qed.
Lemma wraps_e : wraps (e_O e) /\ wraps (e_A e).
Proof.
  pose proof Sh as ((L1 & L2 & L3) & D2 & D3 & D32).
  split; intros k j i L; pose proof L as (Hi & Hj & Hk); split.
  1,3: destruct (low_x1 k j i L) as (Z1 & Z2); destruct (Pe _ _ _ Z1) as (I & _); specialize (I Z2); replace (is g - 1 + (ie g - is g + 1))%Z with (ie g) in I by lia; symmetry; apply I.
  - split; [intros Tw; destruct (low_x2 k j i Tw L) as (Z1 & Z2); destruct (Pe _ _ _ Z1) as (_ & I & _); specialize (I Tw Z2); replace (js g - 1 + (je g - js g + 1))%Z with (je g) in I by lia; symmetry; apply I|].
    intros Th; destruct (low_x3 k j i Th L) as (Z1 & Z2); destruct (Pe _ _ _ Z1) as (_ & _ & I); specialize (I Th Z2); replace (ks g - 1 + (ke g - ks g + 1))%Z with (ke g) in I by lia; symmetry; apply I.
  - split; [intros Tw; destruct (low_x2 k j i Tw L) as (Z1 & Z2); destruct (Pe _ _ _ Z1) as (_ & I & _); specialize (I Tw Z2); replace (js g - 1 + (je g - js g + 1))%Z with (je g) in I by lia; symmetry; apply I|].
    intros Th; destruct (low_x3 k j i Th L) as (Z1 & Z2); destruct (Pe _ _ _ Z1) as (_ & _ & I); specialize (I Th Z2); replace (ks g - 1 + (ke g - ks g + 1))%Z with (ke g) in I by lia; symmetry; apply I.
Qed.
(** Bounds on the averages from bounds on the active cells. *)
Lemma low_bound : forall F m M, wraps F -> (forall k j i, active3 g k j i -> m <= F k j i <= M) -> forall k j i, low k j i -> m <= F k j i <= M.
Proof.
  intros F m M W H k j i L. rewrite <- (P_low F k j i W L). unfold P. apply H. destruct Sh as ((L1 & L2 & L3) & _). repeat split; apply wr_rng; auto.
Qed.

Definition b_1 : R := / dx1 g.
Definition b_2 : R := if two c then / dx2 g else 0.
Definition b_3 : R := if three c then / dx3 g else 0.
Let F1 := P (B1i g). Let F2 := P (fld2 c g). Let F3 := P (fld3 c g).
Definition c1 : arr := Lattice.curlm1 b_2 b_3 F2 F3.
Definition c2 : arr := Lattice.curlm2 b_1 b_3 F1 F3.
Definition c3 : arr := Lattice.curlm3 b_1 b_2 F1 F2.
Lemma act_low : forall k j i dk dj di, active3 g k j i -> offset c (-1) 0 dk dj di -> low (k + dk) (j + dj) (i + di).
Proof.
  intros k j i dk dj di (Hk & Hj & Hi) (Oi & Oj & Ok). destruct Sh as ((L1 & L2 & L3) & D2 & D3 & D32). unfold low.
  destruct (two c), (three c); try specialize (D2 eq_refl); try specialize (D3 eq_refl); repeat split; lia.
Qed.
Lemma low0 : forall k j i, active3 g k j i -> low k j i.
Proof. intros k j i A. replace k with (k + 0)%Z by lia. replace j with (j + 0)%Z by lia. replace i with (i + 0)%Z by lia. apply act_low; auto. unfold offset. destruct (two c), (three c); lia. Qed.
Lemma low1 : forall k j i, active3 g k j i -> low k j (i - 1).
Proof. intros k j i A. replace k with (k + 0)%Z by lia. replace j with (j + 0)%Z by lia. apply (act_low k j i 0 0 (-1)); auto. unfold offset. destruct (two c), (three c); lia. Qed.
Lemma low2 : forall k j i, two c = true -> active3 g k j i -> low k (j - 1) i.
Proof. intros k j i Tw A. replace k with (k + 0)%Z by lia. replace i with (i + 0)%Z by lia. apply (act_low k j i 0 (-1) 0); auto. unfold offset. rewrite Tw. destruct (three c); lia. Qed.
Lemma low3 : forall k j i, three c = true -> active3 g k j i -> low (k - 1) j i.
Proof. intros k j i Th A. replace j with (j + 0)%Z by lia. replace i with (i + 0)%Z by lia. apply (act_low k j i (-1) 0 0); auto. unfold offset. rewrite Th. destruct (two c); lia. Qed.
Ltac plow := repeat match goal with |- context [P ?F ?k ?j ?i] => rewrite (P_low F k j i) by (first [exact w_B1|exact w_B2|exact w_B3|now apply low0|now apply low1|now apply low2|now apply low3]) end.
(** The currents of the code are the curl of the periodic field. *)
Lemma J1_curl : forall k j i, two c = true -> active3 g k j i -> J1 c z g k j i = c1 k j i.
Proof.
  intros k j i Tw A. unfold c1, Lattice.curlm1, Lattice.Dm, Lattice.dn, F2, F3, b_2, b_3, J1. rewrite Tw. pose proof Sh as ((L1 & L2 & L3) & D2 & D3 & D32). pose proof A as (Hk & Hj & Hi).
  destruct (three c) eqn:Th.
  - plow. rewrite loop3_two by lia. unfold cur1, fld2, fld3. rewrite Tw, Th. ring.
  - specialize (D3 eq_refl). rewrite Rmult_0_l. plow. cbv zeta. rewrite loop3_two by lia. unfold fld3, b3c. rewrite Th. ring.
Qed.
Lemma J2_curl : forall k j i, active3 g k j i -> J2 c z g k j i = c2 k j i.
Proof.
  intros k j i A. unfold c2, Lattice.curlm2, Lattice.Dm, Lattice.dn, F1, F3, b_1, b_3, J2. pose proof Sh as ((L1 & L2 & L3) & D2 & D3 & D32). pose proof A as (Hk & Hj & Hi).
  destruct (three c) eqn:Th.
  - plow. rewrite loop3_two by lia. unfold cur2, fld3. rewrite Th. ring.
  - specialize (D3 eq_refl). rewrite Rmult_0_l. plow. destruct (two c) eqn:Tw; try specialize (D2 eq_refl); cbv zeta; [rewrite loop3_two by lia|rewrite loop3_in by lia]; unfold fld3, b3c, Rdiv; rewrite Th; ring.
Qed.
Lemma J3_curl : forall k j i, active3 g k j i -> J3 c z g k j i = c3 k j i.
Proof.
  intros k j i A. unfold c3, Lattice.curlm3, Lattice.Dm, Lattice.dn, F1, F2, b_1, b_2, J3. pose proof Sh as ((L1 & L2 & L3) & D2 & D3 & D32). pose proof A as (Hk & Hj & Hi).
  destruct (three c) eqn:Th; [pose proof (D32 eq_refl) as Tw|destruct (two c) eqn:Tw; specialize (D3 eq_refl)]; rewrite ?Tw; try (specialize (D2 eq_refl); rewrite Rmult_0_l); plow;
    [rewrite loop3_two by lia|rewrite loop3_in by lia|rewrite loop3_in by lia]; unfold cur3, fld2, b2c, Rdiv; rewrite Tw; ring.
Qed.
Lemma ez_0 : forall o k j i, active3 g k j i -> ez c g o k j i = 0.
Proof.
  intros o k j i (Hk & Hj & Hi). destruct Sh as ((L1 & L2 & L3) & D2 & D3 & D32). unfold ez, rkl, rku, rjl, rju. destruct (two c), (three c); try specialize (D2 eq_refl); try specialize (D3 eq_refl); rewrite loop3_in by lia; reflexivity.
Qed.
(** The electric field, with no Hall term and (but for 1D) no ambipolar term. *)
Hypothesis (NH : hall c = false) (NA : ambi c = false \/ two c = false).
Variable (M : R).
Hypothesis (HM : forall k j i, active3 g k j i -> 0 <= e_O e k j i /\ 0 <= e_A e k j i /\ e_O e k j i + e_A e k j i <= M).
Lemma low_e : forall k j i, low k j i -> 0 <= e_O e k j i /\ 0 <= e_A e k j i /\ e_O e k j i + e_A e k j i <= M.
Proof.
  intros k j i L. destruct wraps_e as (WO & WA). rewrite <- (P_low _ k j i WO L), <- (P_low _ k j i WA L). apply HM. destruct Sh as ((L1 & L2 & L3) & _). repeat split; apply wr_rng; auto.
Qed.
Lemma sq_w : forall w x, 0 <= w <= M -> (w * x) * (w * x) <= M * (w * x * x).
Proof.
  intros w x (A & B). replace (w * x * (w * x)) with (w * (w * (x * x))) by ring. replace (w * x * x) with (w * (x * x)) by ring.
  apply Rmult_le_compat_r; auto. apply Rmult_le_pos; auto. apply Rle_0_sqr.
Qed.
Lemma E1_ohm : forall k j i, active3 g k j i -> two c = true -> emf1 c z e g k j i * emf1 c z e g k j i <= M * (emf1 c z e g k j i * c1 k j i).
Proof.
  intros k j i A Tw. assert (exists w, 0 <= w <= M /\ emf1 c z e g k j i = w * c1 k j i) as (w & Hw & ->); [|now apply sq_w].
  pose proof (HM k j i A) as M0. assert (NA' : ambi c = false) by (destruct NA; congruence).
  unfold emf1, step2. rewrite NH, NA'. cbv zeta. destruct (ohm c); [|exists 0; split; [lra|rewrite ez_0 by auto; ring]].
  unfold O1. rewrite Tw. pose proof Sh as ((L1 & L2 & L3) & D2 & D3 & D32). pose proof A as (Hk & Hj & Hi).
  destruct (three c) eqn:Th; try specialize (D3 eq_refl); rewrite loop3_in by lia; rewrite ez_0, J1_curl by auto.
  - exists (av23 (e_O e) k j i). split; [|ring]. unfold av23. pose proof (low_e _ _ _ (low2 k j i Tw A)). pose proof (low_e _ _ _ (low3 k j i Th A)).
    assert (L : low (k - 1) (j - 1) i). { replace i with (i + 0)%Z by lia. apply (act_low k j i (-1) (-1) 0); auto. unfold offset. rewrite Tw, Th. lia. }
    pose proof (low_e _ _ _ L). lra.
  - exists (av2 (e_O e) k j i). split; [|ring]. unfold av2, half. pose proof (low_e _ _ _ (low2 k j i Tw A)). lra.
Qed.
Lemma E2_ohm : forall k j i, active3 g k j i -> two c = true -> emf2 c h z e g k j i * emf2 c h z e g k j i <= M * (emf2 c h z e g k j i * c2 k j i).
Proof.
  intros k j i A Tw. assert (exists w, 0 <= w <= M /\ emf2 c h z e g k j i = w * c2 k j i) as (w & Hw & ->); [|now apply sq_w].
  pose proof (HM k j i A) as M0. assert (NA' : ambi c = false) by (destruct NA; congruence).
  unfold emf2, step2. rewrite NH, NA'. cbv zeta. destruct (ohm c); [|exists 0; split; [lra|rewrite ez_0 by auto; ring]].
  unfold O2. rewrite Tw. pose proof Sh as ((L1 & L2 & L3) & D2 & D3 & D32). pose proof A as (Hk & Hj & Hi). pose proof (low_e _ _ _ (low1 k j i A)).
  destruct (three c) eqn:Th; try specialize (D3 eq_refl); rewrite loop3_in by lia; rewrite ez_0, J2_curl by auto.
  - exists (av13 (e_O e) k j i). split; [|ring]. unfold av13. pose proof (low_e _ _ _ (low3 k j i Th A)).
    assert (L : low (k - 1) j (i - 1)). { replace j with (j + 0)%Z by lia. apply (act_low k j i (-1) 0 (-1)); auto. unfold offset. rewrite Tw, Th. lia. }
    pose proof (low_e _ _ _ L). lra.
  - exists (av1 (e_O e) k j i). split; [|ring]. unfold av1, half. lra.
Qed.
Lemma E3_ohm : forall k j i, active3 g k j i -> two c = true -> emf3 c h z e g k j i * emf3 c h z e g k j i <= M * (emf3 c h z e g k j i * c3 k j i).
Proof.
  intros k j i A Tw. assert (exists w, 0 <= w <= M /\ emf3 c h z e g k j i = w * c3 k j i) as (w & Hw & ->); [|now apply sq_w].
  pose proof (HM k j i A) as M0. assert (NA' : ambi c = false) by (destruct NA; congruence).
  unfold emf3, step2. rewrite NH, NA'. cbv zeta. destruct (ohm c); [|exists 0; split; [lra|rewrite ez_0 by auto; ring]].
  unfold O3. rewrite Tw. pose proof Sh as ((L1 & L2 & L3) & D2 & D3 & D32). pose proof A as (Hk & Hj & Hi). pose proof (low_e _ _ _ (low1 k j i A)). pose proof (low_e _ _ _ (low2 k j i Tw A)).
  assert (L : low k (j - 1) (i - 1)). { replace k with (k + 0)%Z by lia. apply (act_low k j i 0 (-1) (-1)); auto. unfold offset. rewrite Tw. destruct (three c); lia. }
  pose proof (low_e _ _ _ L).
  exists (av12 (e_O e) k j i). split; [unfold av12; lra|].
  destruct (three c) eqn:Th; try specialize (D3 eq_refl); rewrite loop3_in by lia; rewrite ez_0, J3_curl by auto; ring.
Qed.
(** In 1D, both components of the electric field are known at the same faces. *)
Lemma ad_plane : forall o a j2 j3 x y w, 0 <= o -> 0 <= a -> o + a <= M ->
  let E2 := o * j2 + ad a 0 j2 j3 x y w j2 y in let E3 := o * j3 + ad a 0 j2 j3 x y w j3 w in
  E2 * E2 + E3 * E3 <= M * (E2 * j2 + E3 * j3).
Proof.
  intros o a j2 j3 x y w Ho Ha HoM. unfold ad. cbv zeta. assert (HT : 0 < TINY_NUMBER) by (unfold TINY_NUMBER; apply Rinv_0_lt_compat, pow_lt; lra).
  set (t := TINY_NUMBER) in *. clearbody t. pose proof (Rle_0_sqr x) as X. pose proof (Rle_0_sqr y) as Y. pose proof (Rle_0_sqr w) as W. unfold Rsqr in *.
  set (Q := x * x + y * y + w * w + t). assert (HQ : 0 < Q) by (unfold Q; lra).
  set (s := 0 * x + j2 * y + j3 * w). assert (Es : s = j2 * y + j3 * w) by (unfold s; ring). clearbody s. set (u := s / Q). assert (Eu : s = u * Q) by (unfold u; field; lra).
  assert (V : 0 <= s * u). { rewrite Eu. replace (u * Q * u) with (Q * (u * u)) by ring. apply Rmult_le_pos; [lra|apply Rle_0_sqr]. }
  assert (B : (y * y + w * w) * (u * u) <= s * u). { replace (s * u) with (Q * (u * u)) by (rewrite Eu; ring). apply Rmult_le_compat_r; [apply Rle_0_sqr|unfold Q; lra]. }
  assert (C : s * u <= j2 * j2 + j3 * j3).
  { assert (C1 : s * s <= (j2 * j2 + j3 * j3) * Q).
    { pose proof (Rle_0_sqr (j2 * w - j3 * y)) as C2. unfold Rsqr in C2. apply Rle_trans with ((j2 * j2 + j3 * j3) * (y * y + w * w)); [rewrite Es; lra|].
      apply Rmult_le_compat_l; [pose proof (Rle_0_sqr j2); pose proof (Rle_0_sqr j3); unfold Rsqr in *; lra|unfold Q; lra]. }
    apply Rmult_le_reg_r with Q; [exact HQ|]. replace (s * u * Q) with (s * s) by (rewrite Eu at 2; ring). exact C1. }
  assert (Eu2 : s * y / Q = u * y) by (unfold u; field; lra). assert (Eu3 : s * w / Q = u * w) by (unfold u; field; lra). rewrite Eu2, Eu3. clear Eu2 Eu3.
  clearbody u. clear Eu.
  assert (EE : (o * j2 + a * (j2 - u * y)) * j2 + (o * j3 + a * (j3 - u * w)) * j3 = (o + a) * (j2 * j2 + j3 * j3) - a * (s * u)) by (rewrite Es; ring).
  rewrite EE. set (q := j2 * j2 + j3 * j3) in *. set (v := s * u) in *.
  assert (E2 : (o * j2 + a * (j2 - u * y)) * (o * j2 + a * (j2 - u * y)) + (o * j3 + a * (j3 - u * w)) * (o * j3 + a * (j3 - u * w))
     = (o + a) * (o + a) * q - 2 * (o + a) * a * v + a * a * ((y * y + w * w) * (u * u))) by (unfold q, v; rewrite Es; ring).
  rewrite E2. set (bb := (y * y + w * w) * (u * u)) in *.
  assert (aa : a * a * bb <= a * a * v) by (apply Rmult_le_compat_l; [apply Rle_0_sqr|exact B]).
  assert (ov : 0 <= a * o * v) by (apply Rmult_le_pos; auto; apply Rmult_le_pos; auto).
  assert (pw : 0 <= (o + a) * q - a * v). { assert (a * v <= a * q) by (apply Rmult_le_compat_l; auto). assert (0 <= o * q) by (apply Rmult_le_pos; lra). lra. }
  apply Rle_trans with ((o + a) * ((o + a) * q - a * v)); [|apply Rmult_le_compat_r; auto].
  apply Rle_trans with ((o + a) * (o + a) * q - 2 * (o + a) * a * v + a * a * v); [lra|]. lra.
Qed.
Lemma E23_1d : forall k j i, active3 g k j i -> two c = false ->
  emf2 c h z e g k j i * emf2 c h z e g k j i + emf3 c h z e g k j i * emf3 c h z e g k j i <= M * (emf2 c h z e g k j i * c2 k j i + emf3 c h z e g k j i * c3 k j i).
Proof.
  intros k j i A Tw. pose proof Sh as ((L1 & L2 & L3) & D2 & D3 & D32). pose proof A as (Hk & Hj & Hi). assert (Th : three c = false) by (destruct (three c); auto; specialize (D32 eq_refl); congruence).
  specialize (D2 Tw). specialize (D3 Th). pose proof (HM k j i A) as M0. pose proof (low_e _ _ _ (low1 k j i A)) as M1.
  unfold emf2, emf3, step2. rewrite NH. cbv zeta. unfold O2, O3, A2, A3. rewrite Tw, Th.
  set (o := if ohm c then av1 (e_O e) k j i else 0). set (a := if ambi c then av1 (e_A e) k j i else 0).
  assert (Ho : 0 <= o) by (unfold o, av1, half; destruct (ohm c); lra). assert (Ha : 0 <= a) by (unfold a, av1, half; destruct (ambi c); lra).
  assert (HoM : o + a <= M) by (unfold o, a, av1, half; destruct (ohm c), (ambi c); lra).
  pose proof (ad_plane o a (c2 k j i) (c3 k j i) (B1i g k j i) (av1 (b2c g) k j i) (av1 (b3c g) k j i) Ho Ha HoM) as R. cbv zeta in R.
  match goal with |- ?x * ?x + ?y * ?y <= _ => replace x with (o * c2 k j i + ad a 0 (c2 k j i) (c3 k j i) (B1i g k j i) (av1 (b2c g) k j i) (av1 (b3c g) k j i) (c2 k j i) (av1 (b2c g) k j i));
    [replace y with (o * c3 k j i + ad a 0 (c2 k j i) (c3 k j i) (B1i g k j i) (av1 (b2c g) k j i) (av1 (b3c g) k j i) (c3 k j i) (av1 (b3c g) k j i)); [exact R|]|] end;
    clear R; unfold o, a, ad1; destruct (ohm c), (ambi c); rewrite ?loop3_in by lia; rewrite ?J2_curl, ?J3_curl, ez_0 by auto; unfold ad; cbv zeta; ring.
Qed.

Hypothesis (Hh : 0 <= h).
Let G := resistivity c h z e g.
Let S0 := Lattice.S (ks g) (ke g) (js g) (je g) (is g) (ie g).
Lemma up_emf : forall k j i, active3 g k j i ->
  (P (emf1 c z e g) k j (i + 1)%Z = emf1 c z e g k j (i + 1)%Z /\ P (emf2 c h z e g) k j (i + 1)%Z = emf2 c h z e g k j (i + 1)%Z /\ P (emf3 c h z e g) k j (i + 1)%Z = emf3 c h z e g k j (i + 1)%Z) /\
  (two c = true -> P (emf1 c z e g) k (j + 1)%Z i = emf1 c z e g k (j + 1)%Z i /\ P (emf2 c h z e g) k (j + 1)%Z i = emf2 c h z e g k (j + 1)%Z i /\ P (emf3 c h z e g) k (j + 1)%Z i = emf3 c h z e g k (j + 1)%Z i) /\
  (three c = true -> P (emf1 c z e g) (k + 1)%Z j i = emf1 c z e g (k + 1)%Z j i /\ P (emf2 c h z e g) (k + 1)%Z j i = emf2 c h z e g (k + 1)%Z j i /\ P (emf3 c h z e g) (k + 1)%Z j i = emf3 c h z e g (k + 1)%Z j i).
Proof.
  intros k j i (Hk & Hj & Hi). pose proof Sh as ((L1 & L2 & L3) & D2 & D3 & D32). unfold P. rewrite (wr_in (ks g) (ke g) k), (wr_in (js g) (je g) j), (wr_in (is g) (ie g) i) by lia.
  assert (C : forall k j i, (ks g <= k <= ke g)%Z -> (js g <= j <= je g)%Z -> (is g <= i <= ie g)%Z -> corner c g k j i).
  { intros. unfold corner. destruct (two c), (three c); try specialize (D2 eq_refl); try specialize (D3 eq_refl); lia. }
  split; [|split].
  - assert (H : (i + 1 <= ie g \/ i = ie g)%Z) by lia. destruct H as [H| ->]; [rewrite wr_in by lia; auto|]. rewrite wr_high by lia.
    destruct (emf_per1 c h z e g Sh Pg Pe k j) as (-> & -> & ->); auto. apply C; lia.
  - intros Tw. assert (H : (j + 1 <= je g \/ j = je g)%Z) by lia. destruct H as [H| ->]; [rewrite wr_in by lia; auto|]. rewrite wr_high by lia.
    destruct (emf_per2 c h z e g Sh Pg Pe k i Tw) as (-> & -> & ->); auto. apply C; lia.
  - intros Th. assert (H : (k + 1 <= ke g \/ k = ke g)%Z) by lia. destruct H as [H| ->]; [rewrite wr_in by lia; auto|]. rewrite wr_high by lia.
    destruct (emf_per3 c h z e g Sh Pg Pe j i Th) as (-> & -> & ->); auto. apply C; lia.
Qed.
Lemma P_act : forall F k j i, active3 g k j i -> P F k j i = F k j i.
Proof. intros F k j i (Hk & Hj & Hi). unfold P. rewrite !wr_in by lia. reflexivity. Qed.
Let E1 := P (emf1 c z e g). Let E2 := P (emf2 c h z e g). Let E3 := P (emf3 c h z e g).
Lemma new_field : forall k j i, active3 g k j i ->
  B1i G k j i = F1 k j i - h * Lattice.curlp1 b_2 b_3 E2 E3 k j i /\ fld2 c G k j i = F2 k j i - h * Lattice.curlp2 b_1 b_3 E1 E3 k j i
  /\ fld3 c G k j i = F3 k j i - h * Lattice.curlp3 b_1 b_2 E1 E2 k j i.
Proof.
  intros k j i A. pose proof Sh as ((L1 & L2 & L3) & D2 & D3 & D32). pose proof A as (Hk & Hj & Hi). destruct (up_emf k j i A) as ((I1 & I2 & I3) & J & K).
  unfold Lattice.curlp1, Lattice.curlp2, Lattice.curlp3, Lattice.Dp, Lattice.up, F1, F2, F3. fold E1 E2 E3 in I1, I2, I3, J, K.
  rewrite !(P_act _ k j i A). rewrite I2, I3. unfold E1, E2, E3. rewrite !(P_act _ k j i A). fold E1 E2 E3. unfold b_1, b_2, b_3.
  split; [|split].
  - destruct (two c) eqn:Tw.
    + unfold G. rewrite B1_face by (auto; lia). unfold OhmProps.a2, OhmProps.a3. rewrite Tw. destruct (J eq_refl) as (_ & _ & J3').
      rewrite J3'. destruct (three c) eqn:Th; [destruct (K eq_refl) as (_ & K2 & _); rewrite K2|]; unfold Rdiv; ring.
    + unfold G. rewrite B1_same by auto. destruct (three c) eqn:Th; [specialize (D32 eq_refl); discriminate|]. ring.
  - unfold fld2. destruct (two c) eqn:Tw.
    + unfold G. rewrite B2_face by (auto; lia). unfold OhmProps.a1, OhmProps.a3.
      destruct (three c) eqn:Th; [destruct (K eq_refl) as (K1 & _ & _); rewrite K1|]; unfold Rdiv; ring.
    + unfold G. rewrite B2_cell by auto. unfold OhmProps.a1. rewrite Tw. destruct (three c) eqn:Th; [specialize (D32 eq_refl); discriminate|]. unfold Rdiv. ring.
  - unfold fld3. destruct (three c) eqn:Th.
    + pose proof (D32 eq_refl) as Tw. unfold G. rewrite B3_face by (auto; lia). unfold OhmProps.a1, OhmProps.a2. rewrite Tw. destruct (J Tw) as (J1' & _ & _). rewrite J1'. unfold Rdiv. ring.
    + unfold G. rewrite B3_cell by auto. unfold OhmProps.a1, OhmProps.a2. rewrite Th. destruct (two c) eqn:Tw; [destruct (J eq_refl) as (J1' & _ & _); rewrite J1'|]; unfold Rdiv; ring.
Qed.
Lemma emf1_1d : forall k j i, active3 g k j i -> two c = false -> emf1 c z e g k j i = 0.
Proof.
  intros k j i A Tw. assert (Th : three c = false). { destruct Sh as (_ & _ & _ & D32). destruct (three c); auto. specialize (D32 eq_refl). congruence. }
  unfold emf1, step2. rewrite NH. cbv zeta. unfold O1, A1. rewrite Tw, Th.
  replace (if ambi c then if ohm c then ez c g (z_e1 z) else ez c g (z_e1 z) else if ohm c then ez c g (z_e1 z) else ez c g (z_e1 z)) with (ez c g (z_e1 z)).
  - now apply ez_0.
  - clear. destruct (ambi c), (ohm c); reflexivity.
Qed.
Lemma heat_loss : 0 < M -> 2 * h * M * inverse_squares c g <= 1 -> positive_sizes g -> magnetic_energy c G <= magnetic_energy c g.
Proof.
  intros M1 Hs (X1 & X2 & X3). pose proof Sh as ((L1 & L2 & L3) & D2 & D3 & D32).
  assert (Z : forall k j i, Lattice.inb (ks g) (ke g) (js g) (je g) (is g) (ie g) k j i -> active3 g k j i) by (intros; assumption).
  assert (A0 : active3 g (ks g) (js g) (is g)) by (unfold active3; lia).
  assert (M0 : 0 <= M). { pose proof (HM _ _ _ A0). lra. }
  assert (IS : b_1 * b_1 + b_2 * b_2 + b_3 * b_3 = inverse_squares c g).
  { unfold b_1, b_2, b_3, inverse_squares. destruct (two c), (three c); field; repeat split; lra. }
  assert (Q : S0 (fun k j i => E1 k j i * E1 k j i) + S0 (fun k j i => E2 k j i * E2 k j i) + S0 (fun k j i => E3 k j i * E3 k j i)
     <= M * (S0 (fun k j i => E1 k j i * Lattice.curlm1 b_2 b_3 F2 F3 k j i) + S0 (fun k j i => E2 k j i * Lattice.curlm2 b_1 b_3 F1 F3 k j i) + S0 (fun k j i => E3 k j i * Lattice.curlm3 b_1 b_2 F1 F2 k j i))).
  { unfold S0. rewrite <- !Lattice.S_plus, <- Lattice.S_scal. apply Lattice.S_le. intros k j i A. apply Z in A.
    unfold E1, E2, E3. rewrite !(P_act _ k j i A). fold c1 c2 c3. assert (Tw : two c = true \/ two c = false) by (clear; destruct (two c); auto). destruct Tw as [Tw|Tw].
    - pose proof (E1_ohm k j i A Tw). pose proof (E2_ohm k j i A Tw). pose proof (E3_ohm k j i A Tw). lra.
    - rewrite (emf1_1d k j i A Tw). pose proof (E23_1d k j i A Tw). lra. }
  pose proof (Lattice.lattice_energy (ks g) (ke g) (js g) (je g) (is g) (ie g) L3 L2 L1 b_1 b_2 b_3 F1 F2 F3 E1 E2 E3 (P_per _) (P_per _) (P_per _) (P_per _) (P_per _) (P_per _) h M Hh M0 Q) as LE.
  cbv zeta in LE. fold S0 in LE. rewrite IS in LE.
  set (W := S0 (fun k j i => E1 k j i * Lattice.curlm1 b_2 b_3 F2 F3 k j i) + S0 (fun k j i => E2 k j i * Lattice.curlm2 b_1 b_3 F1 F3 k j i) + S0 (fun k j i => E3 k j i * Lattice.curlm3 b_1 b_2 F1 F2 k j i)) in *.
  assert (SQ : forall f : arr, 0 <= S0 (fun k j i => f k j i * f k j i)) by (intros f; apply Lattice.S_nonneg; intros; apply Rle_0_sqr).
  assert (W0 : 0 <= M * W). { pose proof (SQ E1). pose proof (SQ E2). pose proof (SQ E3). lra. }
  assert (LOSS : 0 <= h * (1 - 2 * h * M * inverse_squares c g) * W).
  { apply Rmult_le_pos; [apply Rmult_le_pos; [auto|lra]|]. apply Rmult_le_reg_l with M; lra. }
  assert (EN : magnetic_energy c g = / 2 * (S0 (fun k j i => F1 k j i * F1 k j i) + S0 (fun k j i => F2 k j i * F2 k j i) + S0 (fun k j i => F3 k j i * F3 k j i))).
  { unfold S0. rewrite <- !Lattice.S_plus, <- Lattice.S_scal. apply Lattice.S_ext. intros k j i A. apply Z in A. unfold F1, F2, F3. rewrite !(P_act _ k j i A). field. }
  match type of LE with ?x <= _ => assert (EN' : magnetic_energy c G = / 2 * x) end.
  { unfold S0. rewrite <- !Lattice.S_plus, <- Lattice.S_scal. apply Lattice.S_ext. intros k j i A. apply Z in A. destruct (new_field k j i A) as (-> & -> & ->). field. }
  rewrite EN, EN'. lra.
Qed.
End Heat.

(** ** On a periodic Grid Ohmic diffusion does not increase the magnetic energy, provided the
    timestep keeps h eta (1/dx1^2 + 1/dx2^2 + 1/dx3^2) within 1/2; nor does ambipolar
    diffusion in one dimension *)
Theorem C81_dissipates : forall c h z e g M, shaped c g -> positive_sizes g -> dperiodic c g -> eperiodic c g e ->
  Q_Hall c <= 0 -> (Q_AD c <= 0 \/ two c = false) ->
  (forall k j i, active3 g k j i -> 0 <= e_O e k j i /\ 0 <= e_A e k j i /\ e_O e k j i + e_A e k j i <= M) ->
  0 <= h -> 2 * h * M * inverse_squares c g <= 1 ->
  magnetic_energy c (resistivity c h z e g) <= magnetic_energy c g.
Proof.
  intros c h z e g M Sh Sz Pg Pe QH QA HM Hh Hs.
  assert (NH : hall c = false) by (unfold hall; destruct (Rlt_dec 0 (Q_Hall c)); [lra|reflexivity]).
  assert (NA : ambi c = false \/ two c = false) by (destruct QA as [QA|QA]; [left; unfold ambi; destruct (Rlt_dec 0 (Q_AD c)); [lra|reflexivity]|auto]).
  assert (I0 : 0 < inverse_squares c g).
  { destruct Sz as (X1 & X2 & X3). assert (Q : forall x, 0 < x -> 0 < / (x * x)) by (intros; apply Rinv_0_lt_compat, Rmult_lt_0_compat; auto).
    unfold inverse_squares. pose proof (Q _ X1). pose proof (Q _ X2). pose proof (Q _ X3). destruct (two c), (three c); lra. }
  destruct (Rlt_dec 0 M) as [M1|M1]; [eapply heat_loss; eauto|].
  assert (W : 0 < 1 + 2 * h * inverse_squares c g). { assert (0 <= h * inverse_squares c g) by (apply Rmult_le_pos; lra). lra. }
  apply (heat_loss c h z e g Sh Pg Pe NH NA (/ (1 + 2 * h * inverse_squares c g))); auto.
  - intros k j i A. destruct (HM k j i A) as (? & ? & ?). pose proof (Rinv_0_lt_compat _ W). lra.
  - apply Rinv_0_lt_compat, W.
  - apply Rmult_le_reg_r with (1 + 2 * h * inverse_squares c g); [exact W|]. field_simplify; lra.
Qed.
Print Assumptions C81_dissipates.

(** The timestep of new_dt_diff() is small enough, up to CourNo = 1. *)
Lemma dti_resist : forall c cd v n d1 d2 d3 grids s l o hh a, In (s, l) grids -> In (o, hh, a) l -> let '(x1, x2, x3) := s in
  (o + a) / dt_qa c (dxmin c x1 x2 x3) <= new_dt_diff c cd v true n d1 d2 d3 grids.
Proof.
  intros c cd v n d1 d2 d3 grids ((x1, x2), x3) l o hh a I I'. unfold new_dt_diff. cbv zeta.
  match goal with |- _ <= fold_left ?f grids ?m => generalize m end. revert I. induction grids as [|gr gs IH]; [intros []|].
  intros [->|I] m; [|cbn [fold_left]; apply IH; auto]. cbn [fold_left]. eapply Rle_trans; [|apply fold_max2]. cbv zeta.
  clear IH. revert m. induction l as [|((o', h'), a') l IL]; [destruct I'|]. intros m. destruct I' as [E|I']; [|cbn [fold_left]; apply IL; auto].
  injection E as -> -> ->. cbn [fold_left]. eapply Rle_trans; [|apply fold_max]. cbv zeta. destruct (MAX_ge m ((o + a) / dt_qa c (dxmin c x1 x2 x3))) as (_ & A).
  destruct (Rlt_dec 0 (Q_Hall c)); [|exact A]. destruct (MAX_ge (MAX m ((o + a) / dt_qa c (dxmin c x1 x2 x3))) (Rabs hh / dt_qa c (dxmin c x1 x2 x3))) as (B & _). lra.
Qed.
Lemma qa_squares : forall c g, shaped c g -> positive_sizes g -> 2 * dt_qa c (dxmin c (dx1 g) (dx2 g) (dx3 g)) * inverse_squares c g <= 1.
Proof.
  intros c g Sh (X1 & X2 & X3). pose proof (dxmin_pos c _ _ _ X1 X2 X3) as X0. destruct (dxmin_le c (dx1 g) (dx2 g) (dx3 g)) as (Y1 & Y2 & Y3).
  set (x := dxmin c (dx1 g) (dx2 g) (dx3 g)) in *. clearbody x.
  assert (Q : forall y, 0 < y -> x <= y -> x * x * / (y * y) <= 1).
  { intros y H0 H. apply Rmult_le_reg_r with (y * y); [apply Rmult_lt_0_compat; auto|]. field_simplify; [|lra]. assert (x * x <= y * y) by (apply Rmult_le_compat; lra). lra. }
  pose proof (Q _ X1 Y1) as Q1. unfold dt_qa, inverse_squares. destruct Sh as (_ & _ & _ & D32).
  destruct (two c) eqn:Tw, (three c) eqn:Th; try (specialize (D32 eq_refl); discriminate).
  - pose proof (Q _ X2 (Y2 eq_refl)). pose proof (Q _ X3 (Y3 eq_refl)). lra.
  - pose proof (Q _ X2 (Y2 eq_refl)). lra.
  - lra.
Qed.
Theorem C81_timestep : forall c h z e g cond visc levels d1 d2 d3 grids l CourNo, shaped c g -> positive_sizes g -> dperiodic c g -> eperiodic c g e ->
  Q_Hall c <= 0 -> (Q_AD c <= 0 \/ two c = false) -> (forall k j i, active3 g k j i -> 0 <= e_O e k j i /\ 0 <= e_A e k j i) ->
  In ((dx1 g, dx2 g, dx3 g), l) grids -> (forall k j i, active3 g k j i -> In (e_O e k j i, e_H e k j i, e_A e k j i) l) ->
  0 < CourNo <= 1 -> 0 <= h <= diff_dt CourNo (new_dt_diff c cond visc true levels d1 d2 d3 grids) ->
  magnetic_energy c (resistivity c h z e g) <= magnetic_energy c g.
Proof.
  intros c h z e g cond visc levels d1 d2 d3 grids l CourNo Sh Sz Pg Pe QH QA Pos I IL HC (Hh & Hd).
  set (T := new_dt_diff c cond visc true levels d1 d2 d3 grids) in *. set (qa := dt_qa c (dxmin c (dx1 g) (dx2 g) (dx3 g))).
  assert (Q0 : 0 < qa) by (unfold qa; destruct Sz as (? & ? & ?); apply qa_pos, dxmin_pos; auto).
  assert (B : forall k j i, active3 g k j i -> e_O e k j i + e_A e k j i <= T * qa).
  { intros k j i A. pose proof (dti_resist c cond visc levels d1 d2 d3 grids _ l _ _ _ I (IL k j i A)) as D. cbv beta iota in D. fold T qa in D.
    apply Rmult_le_compat_r with (r := qa) in D; [|lra]. unfold Rdiv in D. rewrite Rmult_assoc, Rinv_l, Rmult_1_r in D by lra. exact D. }
  assert (T0 : 0 < T).
  { unfold T, new_dt_diff. cbv zeta. eapply Rlt_le_trans; [|apply fold_max2]. assert (0 < TINY_NUMBER) by (unfold TINY_NUMBER; apply Rinv_0_lt_compat, pow_lt; lra).
    repeat match goal with |- context [MAX ?a ?b] => lazymatch a with context [MAX] => fail | _ => pose proof (proj1 (MAX_ge a b)); set (MAX a b) in * end end.
    destruct visc, cond; repeat match goal with |- context [MAX ?a ?b] => pose proof (proj1 (MAX_ge a b)); set (MAX a b) in * end; lra. }
  apply (C81_dissipates c h z e g (T * qa)); auto.
  - intros k j i A. destruct (Pos k j i A). auto.
  - unfold diff_dt in Hd. assert (hT : h * T <= 1). { apply Rmult_le_compat_r with (r := T) in Hd; [|lra]. unfold Rdiv in Hd. rewrite Rmult_assoc, Rinv_l, Rmult_1_r in Hd by lra. lra. }
    pose proof (qa_squares c g Sh Sz) as QS. fold qa in QS.
    assert (I0 : 0 <= 2 * qa * inverse_squares c g).
    { destruct Sz as (X1 & X2 & X3). assert (Q : forall x, 0 < x -> 0 < / (x * x)) by (intros; apply Rinv_0_lt_compat, Rmult_lt_0_compat; auto).
      apply Rmult_le_pos; [lra|]. unfold inverse_squares. pose proof (Q _ X1). pose proof (Q _ X2). pose proof (Q _ X3). destruct (two c), (three c); lra. }
    replace (2 * h * (T * qa) * inverse_squares c g) with (h * T * (2 * qa * inverse_squares c g)) by ring.
    apply Rle_trans with (1 * (2 * qa * inverse_squares c g)); [|lra]. apply Rmult_le_compat_r; auto.
Qed.
Print Assumptions C81_timestep.

(** ** Hypotheses that can be met *)
Definition ex_hcfg : dcfg := DCfg true true true false (2 / 3) 0 0 0 0 1 0 0 0.
Definition ex_hetas : etas := Etas (fun k j i => if Z.even i then 1 else 2) (fun _ _ _ => 0) (fun _ _ _ => 0).
Example ex_c81 : shaped ex_hcfg ex_dgrid /\ positive_sizes ex_dgrid /\ dperiodic ex_hcfg ex_dgrid /\ eperiodic ex_hcfg ex_dgrid ex_hetas /\ Q_Hall ex_hcfg <= 0 /\ Q_AD ex_hcfg <= 0 /\
  (forall k j i, active3 ex_dgrid k j i -> 0 <= e_O ex_hetas k j i /\ 0 <= e_A ex_hetas k j i /\ e_O ex_hetas k j i + e_A ex_hetas k j i <= 2) /\
  2 * (1 / 12) * 2 * inverse_squares ex_hcfg ex_dgrid <= 1.
Proof.
  split; [exact ex_dshaped|]. split; [unfold positive_sizes; cbn; lra|]. split; [exact ex_dperiodic|]. split; [|split; [cbn; lra|split; [cbn; lra|split]]].
  - intros k j i _. cbn [e_O e_H e_A ex_hetas ex_dgrid ie is je js ke ks]. change (5 - 4 + 1)%Z with 2%Z. rewrite !Z.even_add. destruct (Z.even i); repeat split; reflexivity.
  - intros k j i _. cbn. destruct (Z.even i); lra.
  - unfold inverse_squares. cbn. lra.
Qed.
Example ex_c81_timestep : let l := (1, 0, 0) :: (2, 0, 0) :: nil in
  In ((dx1 ex_dgrid, dx2 ex_dgrid, dx3 ex_dgrid), l) (((1, 1, 1), l) :: nil) /\ (forall k j i, active3 ex_dgrid k j i -> In (e_O ex_hetas k j i, e_H ex_hetas k j i, e_A ex_hetas k j i) l).
Proof. cbv zeta. split; [left; reflexivity|]. intros k j i _. cbn. destruct (Z.even i); auto. Qed.
