(** Property C86: slices and averages of output data. *)
From Coq Require Import ZArith List Bool Arith Reals Lia Lra.
From Verif Require Import CStr MeshModel MeshProps PosModel PosProps SliceModel SliceSpec HistMain IntegSpec IntegFacts.
Import ListNotations.
Open Scope R_scope.

Lemma face_le : forall p a i j, 0 < p_dx p a -> (i <= j)%Z -> face p a i <= face p a j.
Proof. intros p a i j D L. unfold face. apply Rplus_le_compat_l, Rmult_le_compat_r; [lra|]. apply IZR_le. lia. Qed.
Lemma face_lt : forall p a i j, 0 < p_dx p a -> (i < j)%Z -> face p a i < face p a j.
Proof. intros p a i j D L. unfold face. apply Rplus_lt_compat_l, Rmult_lt_compat_r; [lra|]. apply IZR_lt. lia. Qed.
Lemma fc_axis_face : forall G l a n, fc_axis G l a n = face (og_p G) a n.
Proof. intros G l [] n; reflexivity. Qed.
Lemma up_ok : forall fuel fc x k m, (k <= m)%Z -> (m - k <= Z.of_nat fuel)%Z -> x < fc m ->
  exists r, search_up fuel fc x k = Ok r /\ (k <= r <= m)%Z /\ x < fc r /\ forall t, (k <= t < r)%Z -> fc t <= x.
Proof.
  induction fuel as [|fuel IH]; intros fc x k m H1 H2 H3; cbn [search_up]; destruct (Rge_dec x (fc k)) as [G|G].
  - assert (k = m) by lia. subst. lra.
  - exists k. repeat split; try lia; try lra; intros; lia.
  - destruct (IH fc x (k + 1)%Z m) as (r & E & R1 & R2 & R3); [|lia|auto|].
    + destruct (Z.eq_dec k m); [subst; lra|lia].
    + exists r. repeat split; auto; [lia|lia|]. intros t T. destruct (Z.eq_dec t k) as [->|]; [lra|apply R3; lia].
  - exists k. repeat split; try lia; try lra; intros; lia.
Qed.
Lemma down_ok : forall fuel fc x k m, (m <= k)%Z -> (k - m <= Z.of_nat fuel)%Z -> fc m <= x ->
  exists r, search_down fuel fc x k = Ok r /\ (m <= r <= k)%Z /\ fc r <= x /\ forall t, (r < t <= k)%Z -> x < fc t.
Proof.
  induction fuel as [|fuel IH]; intros fc x k m H1 H2 H3; cbn [search_down]; destruct (Rlt_dec x (fc k)) as [G|G].
  - assert (k = m) by lia. subst. lra.
  - exists k. repeat split; try lia; try lra; intros; lia.
  - destruct (IH fc x (k - 1)%Z m) as (r & E & R1 & R2 & R3); [|lia|auto|].
    + destruct (Z.eq_dec k m); [subst; lra|lia].
    + exists r. repeat split; auto; [lia|lia|]. intros t T. destruct (Z.eq_dec t k) as [->|]; [lra|apply R3; lia].
  - exists k. repeat split; try lia; try lra; intros; lia.
Qed.
Lemma lo_hi : forall wg ng G a, (0 <= ng)%Z -> (1 <= og_Nx G a)%Z -> (og_e G a = p_s (og_p G) a + og_Nx G a - 1)%Z ->
  (lo wg ng G a <= p_s (og_p G) a <= og_e G a)%Z /\ (og_e G a <= hi wg ng G a)%Z.
Proof. intros. unfold lo, hi. destruct (wg && (1 <? og_Nx G a)%Z)%bool; lia. Qed.
Lemma face_start : forall p a, face p a (p_s p a) = p_MinX p a.
Proof. intros. unfold face. rewrite Z.sub_diag. lra. Qed.
Lemma range_ok : forall wg ng G o a, (0 <= ng)%Z -> sound_grid G -> sl_l o a <= sl_u o a -> ~ misses G o a ->
  exists ks ke, range_of G (lo wg ng G) (hi wg ng G) o a = Ok (ks, ke) /\
    touched G (lo wg ng G a) (hi wg ng G a) a (sl_l o a) (sl_u o a) ks ke.
Proof.
  intros wg ng G o a HN HS HL HM. destruct (HS a) as (D & N & E & MX). destruct (lo_hi wg ng G a HN N E) as (B1 & B2).
  unfold misses in HM. set (l := lo wg ng G) in *. set (h := hi wg ng G) in *. unfold range_of.
  assert (FC : forall n, fc_axis G l a n = face (og_p G) a n) by (intros; apply fc_axis_face).
  assert (U1 : sl_l o a < face (og_p G) a (h a + 1)).
  { apply Rlt_le_trans with (face (og_p G) a (og_e G a + 1)); [lra|]. apply face_le; [auto|lia]. }
  assert (U2 : face (og_p G) a (l a) <= sl_u o a).
  { apply Rle_trans with (face (og_p G) a (p_s (og_p G) a)); [apply face_le; [auto|lia]|]. rewrite face_start. lra. }
  destruct (up_ok (Z.to_nat (h a - l a + 1)) (fc_axis G l a) (sl_l o a) (l a + 1) (h a + 1)) as (r & -> & R1 & R2 & R3); [lia|lia|rewrite FC; exact U1|].
  destruct (down_ok (Z.to_nat (h a - l a + 1)) (fc_axis G l a) (sl_u o a) (h a) (l a)) as (q & -> & Q1 & Q2 & Q3); [lia|lia|rewrite FC; exact U2|].
  cbn [bind]. exists (r - 1)%Z, q. split; [reflexivity|].
  assert (A1 : forall k, (l a <= k <= h a)%Z -> ((r - 1 <= k)%Z <-> sl_l o a < face (og_p G) a (k + 1))).
  { intros k K. split; intros Hk.
    - rewrite FC in R2. apply Rlt_le_trans with (1 := R2). apply face_le; [auto|lia].
    - destruct (Z_lt_le_dec k (r - 1)) as [L|]; [|auto]. specialize (R3 (k + 1)%Z). rewrite FC in R3. assert (face (og_p G) a (k + 1) <= sl_l o a) by (apply R3; lia). lra. }
  assert (A2 : forall k, (l a <= k <= h a)%Z -> ((k <= q)%Z <-> face (og_p G) a k <= sl_u o a)).
  { intros k K. split; intros Hk.
    - rewrite FC in Q2. apply Rle_trans with (2 := Q2). apply face_le; [auto|lia].
    - destruct (Z_lt_le_dec q k) as [L|]; [|auto]. specialize (Q3 k). rewrite FC in Q3. assert (sl_u o a < face (og_p G) a k) by (apply Q3; lia). lra. }
  assert (W : (r - 1 <= q)%Z).
  { apply A2; [lia|]. destruct (Z.eq_dec r (l a + 1)) as [->|NE].
    - replace (l a + 1 - 1)%Z with (l a) by lia. exact U2.
    - specialize (R3 (r - 1)%Z). rewrite FC in R3. assert (face (og_p G) a (r - 1) <= sl_l o a) by (apply R3; lia). lra. }
  split; [lia|]. split; [lia|]. intros k K. unfold touches. rewrite <- A1, <- A2 by exact K. lia.
Qed.
Lemma oor : forall G o a, out_of_range G o a = true <-> misses G o a.
Proof.
  intros. unfold out_of_range, misses. destruct (Rlt_dec _ _), (Rge_dec _ _); cbn [orb]; split; intros H; try lra; try discriminate; auto; left; lra.
Qed.
Lemma oor_false : forall G o a, out_of_range G o a = false <-> ~ misses G o a.
Proof. intros. rewrite <- oor. destruct (out_of_range G o a); split; congruence. Qed.
Lemma fold_plus : forall (f : nat -> R) ns s, fold_left (fun s n => s + f n) ns s = s + fold_right Rplus 0 (map f ns).
Proof. induction ns as [|n ns IH]; intros s; cbn [fold_left map fold_right]; [lra|]. rewrite IH. lra. Qed.
Lemma accum_sum : forall ks ke f s, accum ks ke f s = s + sumZ ks ke f.
Proof. intros. unfold accum. rewrite (fold_plus (fun n => f (ks + Z.of_nat n)%Z)). reflexivity. Qed.
Lemma accum2_sum : forall ks ke js je (f : Z -> Z -> R),
  fold_left (fun s n => accum js je (f (ks + Z.of_nat n)%Z) s) (seq 0 (Z.to_nat (ke - ks + 1))) 0 = sumZ ks ke (fun k => sumZ js je (f k)).
Proof.
  intros. transitivity (0 + sumZ ks ke (fun k => sumZ js je (f k))); [|lra].
  rewrite <- (accum_sum ks ke (fun k => sumZ js je (f k)) 0). unfold accum at 2. generalize 0. generalize (seq 0 (Z.to_nat (ke - ks + 1))).
  induction l as [|n l IH]; intros s; cbn [fold_left]; [reflexivity|]. rewrite accum_sum. apply IH.
Qed.
Lemma mean_accum : forall ks ke f, accum ks ke f 0 * (1 / IZR (ke - ks + 1)) = mean ks ke f.
Proof. intros. rewrite accum_sum. unfold mean, Rdiv. lra. Qed.
Lemma mean2 : forall ks ke js je (f : Z -> Z -> R),
  fold_left (fun s n => accum js je (f (ks + Z.of_nat n)%Z) s) (seq 0 (Z.to_nat (ke - ks + 1))) 0 * (1 / IZR (ke - ks + 1) / IZR (je - js + 1)) =
  mean ks ke (fun k => mean js je (f k)).
Proof.
  intros. rewrite accum2_sum. unfold mean.
  rewrite (sumZ_ext ks ke (fun k => sumZ js je (f k) / IZR (je - js + 1)) (fun k => / IZR (je - js + 1) * sumZ js je (f k))) by (intros; unfold Rdiv; lra).
  rewrite sumZ_scal. unfold Rdiv. ring.
Qed.

(** The output is accepted for a mesh of [Nx] cells; the Grid has one cell along an axis
    exactly when the mesh has; the ranges are not empty. *)
Definition accepted_output (Nx : axis -> Z) (o : slice) (G : ogrid) : Prop :=
  slice_ndim Nx (sl_red o) = Ok (sl_ndim o) /\ (forall a, 1 <= Nx a)%Z /\ (Nx X2 = 1 -> Nx X3 = 1)%Z /\
  (forall a, og_Nx G a = 1%Z <-> Nx a = 1%Z) /\ (forall a, sl_l o a <= sl_u o a).

Section Out.
Variables (wg : bool) (ng : Z) (G : ogrid) (o : slice) (expr : Z -> Z -> Z -> R) (Nx : axis -> Z).
Notation first := (lo wg ng G).
Notation last := (hi wg ng G).
Notation count := (fun a => (last a - first a + 1)%Z).

Theorem C86_volume : accepted_output Nx o G -> sl_ndim o = 3%Z ->
  exists D, OutData3 wg ng G o expr = Ok (count X1, count X2, count X3, D) /\
    forall z y x, D z y x = expr (first X1 + x)%Z (first X2 + y)%Z (first X3 + z)%Z.
Proof.
  intros _ H. unfold OutData3. rewrite H. eexists. split; [reflexivity|]. intros z y x. cbv beta.
  rewrite (Z.add_comm x), (Z.add_comm y), (Z.add_comm z). reflexivity.
Qed.

(** A plane of a three-dimensional run: along the one reduced axis the mean over the cells
    the range touches; NULL if the Grid lies outside the range.  Two-dimensional runs need no
    reduction. *)
Theorem C86_plane : (0 <= ng)%Z -> sound_grid G -> accepted_output Nx o G -> sl_ndim o = 2%Z ->
  ((Nx X3 = 1)%Z -> exists D, OutData2 wg ng G o expr = Ok (Some (count X1, count X2, D)) /\
     forall y x, D y x = expr (first X1 + x)%Z (first X2 + y)%Z (first X3)) /\
  ((1 < Nx X3)%Z -> exists a, sl_red o a = true /\ (forall b, sl_red o b = true -> b = a) /\
     let (b, c) := others a in
     (misses G o a -> OutData2 wg ng G o expr = Ok None) /\
     (~ misses G o a -> exists ks ke D, touched G (first a) (last a) a (sl_l o a) (sl_u o a) ks ke /\
        OutData2 wg ng G o expr = Ok (Some (count b, count c, D)) /\
        forall y x, D y x = mean ks ke (fun k => at_cell expr (put a k (first b + x) (first c + y))))).
Proof.
  intros HN HS (HA & HX & H23 & HG & HL) H2. split.
  - intros H. unfold OutData2. rewrite H2. cbn [Z.eqb negb Pos.eqb]. rewrite (proj2 (HG X3) H). cbn [Z.eqb Pos.eqb].
    eexists. split; [reflexivity|]. intros y x. cbv beta. rewrite (Z.add_comm x), (Z.add_comm y). reflexivity.
  - intros H.
    assert (N3 : (og_Nx G X3 =? 1)%Z = false) by (apply Z.eqb_neq; intros C; apply HG in C; lia).
    assert (N2 : (1 <? Nx X2)%Z = true) by (apply Z.ltb_lt; pose proof (HX X2); lia).
    unfold slice_ndim in HA. rewrite N2, (proj2 (Z.ltb_lt _ _) H), H2 in HA. cbn [andb] in HA.
    unfold OutData2. rewrite H2, N3. cbn [Z.eqb negb Pos.eqb].
    destruct (sl_red o X1) eqn:R1, (sl_red o X2) eqn:R2, (sl_red o X3) eqn:R3; try discriminate HA.
    + exists X1. split; [auto|]. split; [intros []; congruence|]. cbn [others]. split; intros M.
      * rewrite (proj2 (oor _ _ _) M). reflexivity.
      * rewrite (proj2 (oor_false _ _ _) M). destruct (range_ok wg ng G o X1 HN HS (HL X1) M) as (ks & ke & -> & T).
        exists ks, ke. eexists. split; [exact T|]. cbn [bind]. split; [reflexivity|]. intros y x. cbv beta. rewrite mean_accum.
        rewrite (Z.add_comm x), (Z.add_comm y). reflexivity.
    + exists X2. split; [auto|]. split; [intros []; congruence|]. cbn [others]. split; intros M.
      * rewrite (proj2 (oor _ _ _) M). reflexivity.
      * rewrite (proj2 (oor_false _ _ _) M). destruct (range_ok wg ng G o X2 HN HS (HL X2) M) as (ks & ke & -> & T).
        exists ks, ke. eexists. split; [exact T|]. cbn [bind]. split; [reflexivity|]. intros y x. cbv beta. rewrite mean_accum.
        rewrite (Z.add_comm x), (Z.add_comm y). reflexivity.
    + exists X3. split; [auto|]. split; [intros []; congruence|]. cbn [others]. split; intros M.
      * rewrite (proj2 (oor _ _ _) M). reflexivity.
      * rewrite (proj2 (oor_false _ _ _) M). destruct (range_ok wg ng G o X3 HN HS (HL X3) M) as (ks & ke & -> & T).
        exists ks, ke. eexists. split; [exact T|]. cbn [bind]. split; [reflexivity|]. intros y x. cbv beta. rewrite mean_accum.
        rewrite (Z.add_comm x), (Z.add_comm y). reflexivity.
Qed.

Lemma x3_ok : (0 <= ng)%Z -> sound_grid G -> sl_l o X3 <= sl_u o X3 -> ~ misses G o X3 ->
  exists ks ke, range_x3 wg ng G o = Ok (ks, ke) /\ touched G (first X3) (last X3) X3 (sl_l o X3) (sl_u o X3) ks ke.
Proof.
  intros HN HS HL HM. unfold range_x3. destruct (Z.eqb_spec (og_Nx G X3) 1) as [E|E].
  - assert (EL : first X3 = p_s (og_p G) X3) by (unfold lo; rewrite E; rewrite andb_false_r; reflexivity).
    assert (EH : last X3 = og_e G X3) by (unfold hi; rewrite E; rewrite andb_false_r; reflexivity).
    destruct (HS X3) as (D & N & EE & MX).
    exists (first X3), (last X3). split; [reflexivity|]. unfold touched. rewrite EL, EH. split; [lia|]. split; [lia|].
    intros k K. split; [intros _|auto]. assert (k = p_s (og_p G) X3) by lia. subst k. unfold misses in HM. unfold touches.
    rewrite face_start. replace (p_s (og_p G) X3 + 1)%Z with (og_e G X3 + 1)%Z by lia. lra.
  - apply range_ok; auto.
Qed.

(** A line: along the kept axis [a]; the mean over the touched cells of the other two. *)
Theorem C86_line : (0 <= ng)%Z -> sound_grid G -> accepted_output Nx o G -> sl_ndim o = 1%Z ->
  ((Nx X2 = 1)%Z -> exists D, OutData1 wg ng G o expr = Ok (Some (count X1, D)) /\
     forall x, D x = expr (first X1 + x)%Z (first X2) (first X3)) /\
  ((1 < Nx X2)%Z -> exists a, sl_red o a = false /\ (a = X3 -> (1 < Nx X3)%Z) /\ (forall b, b <> a -> sl_red o b = true \/ (Nx b = 1)%Z) /\
     let (b, c) := others a in
     (misses G o b \/ misses G o c -> OutData1 wg ng G o expr = Ok None) /\
     (~ misses G o b -> ~ misses G o c -> exists bs be cs ce D,
        touched G (first b) (last b) b (sl_l o b) (sl_u o b) bs be /\ touched G (first c) (last c) c (sl_l o c) (sl_u o c) cs ce /\
        OutData1 wg ng G o expr = Ok (Some (count a, D)) /\
        forall x, D x = mean cs ce (fun z => mean bs be (fun y => at_cell expr (put a (first a + x) y z))))).
Proof.
  intros HN HS (HA & HX & H23 & HG & HL) H1. split.
  - intros H. unfold OutData1. rewrite H1. cbn [Z.eqb negb Pos.eqb]. rewrite (proj2 (HG X2) H). cbn [Z.eqb Pos.eqb].
    eexists. split; [reflexivity|]. intros x. cbv beta. rewrite (Z.add_comm x). reflexivity.
  - intros H.
    assert (N2 : (og_Nx G X2 =? 1)%Z = false) by (apply Z.eqb_neq; intros C; apply HG in C; lia).
    assert (KK : forall a b c, others a = (b, c) -> sl_red o a = false -> (a = X3 -> (1 < Nx X3)%Z) -> (forall b, b <> a -> sl_red o b = true \/ (Nx b = 1)%Z) ->
       (misses G o b \/ misses G o c -> OutData1 wg ng G o expr = Ok None) /\
       (~ misses G o b -> ~ misses G o c -> exists bs be cs ce D,
        touched G (first b) (last b) b (sl_l o b) (sl_u o b) bs be /\ touched G (first c) (last c) c (sl_l o c) (sl_u o c) cs ce /\
        OutData1 wg ng G o expr = Ok (Some (count a, D)) /\
        forall x, D x = mean cs ce (fun z => mean bs be (fun y => at_cell expr (put a (first a + x) y z))))).
    { intros a b c EO RA R3 RO. unfold OutData1. rewrite H1, N2. cbn [Z.eqb negb Pos.eqb].
      destruct a; injection EO as <- <-.
      - rewrite RA. cbn [negb]. split.
        + intros [M|M]; rewrite (proj2 (oor _ _ _) M), ?orb_true_r; reflexivity.
        + intros M2 M3. rewrite (proj2 (oor_false _ _ _) M2), (proj2 (oor_false _ _ _) M3). cbn [orb].
          destruct (x3_ok HN HS (HL X3) M3) as (cs & ce & -> & T3). destruct (range_ok wg ng G o X2 HN HS (HL X2) M2) as (bs & be & E2 & T2).
          cbn [bind]. rewrite E2. cbn [bind]. exists bs, be, cs, ce. eexists. split; [exact T2|]. split; [exact T3|]. split; [reflexivity|].
          intros x. cbv beta. rewrite (Z.add_comm x). rewrite (mean2 cs ce bs be (fun k j => expr (first X1 + x)%Z j k)). reflexivity.
      - assert (R1 : sl_red o X1 = true).
        { destruct (RO X1) as [|N1]; [congruence|auto|]. destruct (sl_red o X1) eqn:R1; [auto|]. exfalso.
          unfold slice_ndim in HA. rewrite R1, RA, H1, (proj2 (Z.ltb_lt _ _) H) in HA. cbn [andb] in HA.
          destruct (1 <? Nx X3)%Z, (sl_red o X3); discriminate HA. }
        rewrite R1, RA. cbn [negb]. split.
        + intros [M|M]; rewrite (proj2 (oor _ _ _) M), ?orb_true_r; reflexivity.
        + intros M2 M3. rewrite (proj2 (oor_false _ _ _) M2), (proj2 (oor_false _ _ _) M3). cbn [orb].
          destruct (x3_ok HN HS (HL X3) M3) as (cs & ce & -> & T3). destruct (range_ok wg ng G o X1 HN HS (HL X1) M2) as (bs & be & E2 & T2).
          cbn [bind]. rewrite E2. cbn [bind]. exists bs, be, cs, ce. eexists. split; [exact T2|]. split; [exact T3|]. split; [reflexivity|].
          intros x. cbv beta. rewrite (Z.add_comm x). rewrite (mean2 cs ce bs be (fun k i => expr i (first X2 + x)%Z k)). reflexivity.
      - specialize (R3 eq_refl).
        assert (R2 : sl_red o X2 = true) by (destruct (RO X2); [congruence|auto|lia]).
        assert (R1 : sl_red o X1 = true).
        { destruct (sl_red o X1) eqn:R1; [auto|]. exfalso. unfold slice_ndim in HA.
          rewrite R1, R2, RA, H1, (proj2 (Z.ltb_lt _ _) H), (proj2 (Z.ltb_lt _ _) R3) in HA. discriminate HA. }
        rewrite R1, R2, RA. cbn [negb]. split.
        + intros [M|M]; rewrite (proj2 (oor _ _ _) M), ?orb_true_r; reflexivity.
        + intros M1 M2. rewrite (proj2 (oor_false _ _ _) M1), (proj2 (oor_false _ _ _) M2). cbn [orb].
          destruct (range_ok wg ng G o X2 HN HS (HL X2) M2) as (cs & ce & -> & T3). destruct (range_ok wg ng G o X1 HN HS (HL X1) M1) as (bs & be & E2 & T2).
          cbn [bind]. rewrite E2. cbn [bind]. exists bs, be, cs, ce. eexists. split; [exact T2|]. split; [exact T3|]. split; [reflexivity|].
          intros x. cbv beta. rewrite (Z.add_comm x). rewrite (mean2 cs ce bs be (fun j i => expr i j (first X3 + x)%Z)). reflexivity. }
    assert (EX : exists a, sl_red o a = false /\ (a = X3 -> (1 < Nx X3)%Z) /\ (forall b, b <> a -> sl_red o b = true \/ (Nx b = 1)%Z)).
    { unfold slice_ndim in HA. rewrite H1, (proj2 (Z.ltb_lt _ _) H) in HA. cbn [andb] in HA.
      destruct (Z.ltb_spec 1 (Nx X3)) as [L3|L3].
      - destruct (sl_red o X1) eqn:R1, (sl_red o X2) eqn:R2, (sl_red o X3) eqn:R3; try discriminate HA.
        + exists X3. repeat split; auto. intros []; auto; congruence.
        + exists X2. repeat split; auto; try congruence. intros []; auto; congruence.
        + exists X1. repeat split; auto; try congruence. intros []; auto; congruence.
      - assert (E3 : Nx X3 = 1%Z) by (pose proof (HX X3); lia). cbn [andb] in HA.
        destruct (sl_red o X1) eqn:R1, (sl_red o X2) eqn:R2; try discriminate HA.
        + exists X2. repeat split; auto; try congruence. intros []; auto; congruence.
        + exists X1. repeat split; auto; try congruence. intros []; auto; congruence. }
    destruct EX as (a & RA & R3 & RO). exists a. split; [auto|]. split; [auto|]. split; [auto|].
    destruct (others a) as (b, c) eqn:EO. apply (KK a b c); auto.
Qed.
End Out.
Print Assumptions C86_volume.
Print Assumptions C86_plane.
Print Assumptions C86_line.

(** A range of one point touches the one cell that contains the point. *)
Theorem C86_point : forall G f l a x ks ke, sound_grid G -> touched G f l a x x ks ke ->
  ks = ke /\ face (og_p G) a ks <= x < face (og_p G) a (ks + 1).
Proof.
  intros G f l a x ks ke HS (T1 & T2 & T3).
  destruct (proj1 (T3 ks ltac:(lia)) ltac:(lia)) as (A1 & A2). destruct (proj1 (T3 ke ltac:(lia)) ltac:(lia)) as (B1 & B2).
  split; [|lra]. destruct (Z.eq_dec ks ke); [auto|]. exfalso.
  assert (face (og_p G) a (ks + 1) <= face (og_p G) a ke) by (apply face_le; [apply HS|lia]). lra.
Qed.
Print Assumptions C86_point.

(** The number of dimensions of an output: the axes of the run, less those given a point or a
    range; an output of which nothing is left is refused. *)
Definition axes_left (Nx : axis -> Z) (red : axis -> bool) : list axis :=
  filter (fun a => negb (red a)) (X1 :: filter (fun a => (1 <? Nx a)%Z) [X2; X3]).
Theorem C86_dimensions : forall Nx red, slice_ndim Nx red = (if (length (axes_left Nx red) =? 0)%nat then Fatal else Ok (Z.of_nat (length (axes_left Nx red)))).
Proof.
  intros Nx red. unfold slice_ndim, axes_left. cbn [filter]. destruct (Z.ltb_spec 1 (Nx X2)), (Z.ltb_spec 1 (Nx X3)); cbn [filter]; destruct (red X1), (red X2), (red X3); reflexivity.
Qed.
Print Assumptions C86_dimensions.
Example C86_dimensions_example : slice_ndim (fun a => match a with X1 => 8 | X2 => 4 | X3 => 1 end)%Z (fun a => match a with X1 => false | _ => true end) = Ok 1%Z.
Proof. reflexivity. Qed.

(** The Grids of the mesh meet the hypotheses, and a point of the Domain lies in the range of
    exactly one Grid along each axis. *)
Definition mk_ogrid (nghost : Z) (xmin xmax : axis -> R) (M : mesh) (d : domain) (g : gidx) : ogrid :=
  OG (mk_pgrid nghost xmin xmax M d g) (fun a => grid_e nghost d a (gi_ax g a)) (fun a => gNx d a (gi_ax g a)) (fun a => grid_MaxX xmin xmax M d a (gi_ax g a)).
Theorem C86_grids_sound : forall ng ideal P bs M nl l d nghost xmin xmax g, (0 <= ng)%Z -> (0 < P)%Z ->
  init_mesh ng ideal P bs = Ok M -> nth_error (ms_levels M) nl = Some l -> In d l -> (forall a, xmin a < xmax a) ->
  (forall a, (dm_NG d a <= dm_Nx d a)%Z) -> sound_grid (mk_ogrid nghost xmin xmax M d g).
Proof.
  intros ng ideal P bs M nl l d nghost xmin xmax g HN HP HI HL HD HB HF a. cbn [mk_ogrid og_p og_Nx og_e og_MaxX mk_pgrid p_dx p_s].
  assert (G1 : (1 <= gNx d a (gi_ax g a))%Z).
  { pose proof (good ng ideal P bs M nl l d HN HP HI HL HD) as (_ & G2 & _). specialize (G2 a). specialize (HF a).
    unfold gNx. assert (1 <= Z.quot (dm_Nx d a) (dm_NG d a))%Z by (apply Z.quot_le_lower_bound; lia). destruct (_ <? _)%Z; lia. }
  split; [eapply dx_pos; eauto|]. split; [exact G1|]. split.
  - unfold grid_e, grid_s. destruct (Z.ltb_spec 1 (gNx d a (gi_ax g a))); lia.
  - symmetry. apply (proj1 (C30_grid_edges ng ideal P bs M nl l d nghost xmin xmax g a HN HP HI HL HD) G1).
Qed.
Print Assumptions C86_grids_sound.
Theorem C86_one_grid : forall ng ideal P bs M nl l d nghost xmin xmax a x, (0 <= ng)%Z -> (0 < P)%Z ->
  init_mesh ng ideal P bs = Ok M -> nth_error (ms_levels M) nl = Some l -> In d l -> (forall a, xmin a < xmax a) ->
  dom_MinX xmin xmax M d a <= x < dom_MaxX xmin xmax M d a ->
  exists q, (Z.of_nat q < dm_NG d a)%Z /\ forall g o, (Z.of_nat (gi_ax g a) < dm_NG d a)%Z -> sl_l o a = x -> sl_u o a = x ->
    (~ misses (mk_ogrid nghost xmin xmax M d g) o a <-> gi_ax g a = q).
Proof.
  intros ng ideal P bs M nl l d nghost xmin xmax a x HN HP HI HL HD HB HX.
  pose proof (good ng ideal P bs M nl l d HN HP HI HL HD) as (G1 & G2 & _). specialize (G1 a). specialize (G2 a).
  assert (DP : 0 < dom_dx xmin xmax M d a) by (exact (dx_pos ng ideal P bs M nl l d xmin xmax HN HP HI HL HD HB a)).
  pose proof (extent ng ideal P bs M nl l d xmin xmax HN HP HI HL HD a) as EX.
  pose proof (low_edge M d xmin xmax a) as LE.
  set (dx := dom_dx xmin xmax M d a) in *. set (c := Int_part ((x - xmin a) / dx)).
  assert (C : IZR c * dx <= x - xmin a < (IZR c + 1) * dx).
  { pose proof (int_part_bounds ((x - xmin a) / dx)) as B. fold c in B. assert (Q : (x - xmin a) = (x - xmin a) / dx * dx) by (field; lra).
    rewrite Q at 1 2. split; [apply Rmult_le_compat_r; lra|apply Rmult_lt_compat_r; lra]. }
  assert (K : forall z, (IZR z * dx <= x - xmin a -> (z <= c)%Z) /\ (x - xmin a < IZR z * dx -> (c < z)%Z)).
  { intros z. split; intros H.
    - destruct (Z_lt_le_dec c z) as [L|]; [|auto]. apply Zlt_le_succ, IZR_le in L. rewrite succ_IZR in L. exfalso. assert ((IZR c + 1) * dx <= IZR z * dx) by (apply Rmult_le_compat_r; lra). lra.
    - destruct (Z_lt_le_dec c z) as [|L]; [auto|]. apply IZR_le in L. exfalso. assert (IZR z * dx <= IZR c * dx) by (apply Rmult_le_compat_r; lra). lra. }
  assert (CR : (dm_Disp d a <= c < dm_Disp d a + dm_Nx d a)%Z).
  { split; apply K; [lra|]. rewrite plus_IZR. lra. }
  assert (GE : forall q, ~ (x < grid_MinX xmin xmax M d a q \/ grid_MaxX xmin xmax M d a q <= x) <-> (gDisp d a q <= c < gDisp d a q + gNx d a q)%Z).
  { intros q. change (grid_MaxX xmin xmax M d a q) with (grid_MinX xmin xmax M d a (S q)). rewrite !grid_MinX_eq. fold dx. cbn [gDisp]. split; intros H.
    - split; apply K; lra.
    - destruct H as (H1 & H2). apply IZR_le in H1. apply Zlt_le_succ, IZR_le in H2. rewrite succ_IZR in H2.
      assert (IZR (gDisp d a q) * dx <= IZR c * dx) by (apply Rmult_le_compat_r; lra).
      assert ((IZR c + 1) * dx <= IZR (gDisp d a q + gNx d a q) * dx) by (apply Rmult_le_compat_r; lra). lra. }
  destruct (proj1 (axis_tiles d a c ltac:(lia) G2) CR) as (q & Q1 & Q2). exists q. split; [exact Q1|].
  intros g o LG E1 E2. unfold misses. cbn [mk_ogrid og_p og_MaxX mk_pgrid p_MinX]. rewrite E1, E2, GE. split; [|intros ->; exact Q2].
  intros H. eapply (axis_unique d a); eauto; lia.
Qed.
Print Assumptions C86_one_grid.

(** A Grid of 8 cells along each axis of the unit box; the mean over 0.3 <= x2 <= 0.6 takes
    the cells 6, 7 and 8 (4 is the first). *)
Definition ex_grid : ogrid := OG (PG (fun _ => 4%Z) (fun _ => 0) (fun _ => 1/8)) (fun _ => 11%Z) (fun _ => 8%Z) (fun _ => 1).
Definition ex_slice : slice := SL 2 (fun a => match a with X2 => 3/10 | _ => 0 end) (fun a => match a with X2 => 6/10 | _ => 1 end) (fun a => match a with X2 => true | _ => false end).
Example C86_example : sound_grid ex_grid /\ accepted_output (fun _ => 8%Z) ex_slice ex_grid /\
  forall expr, exists D, OutData2 false 4 ex_grid ex_slice expr = Ok (Some (8%Z, 8%Z, D)) /\
    forall y x, D y x = (expr (4 + x)%Z 6%Z (4 + y)%Z + expr (4 + x)%Z 7%Z (4 + y)%Z + expr (4 + x)%Z 8%Z (4 + y)%Z) / 3.
Proof.
  assert (HS : sound_grid ex_grid).
  { intros a. cbn [ex_grid og_p og_Nx og_e og_MaxX p_s p_dx]. unfold face. cbn [p_MinX p_s p_dx]. repeat split; try lia; try lra. change (11 + 1 - 4)%Z with 8%Z. lra. }
  assert (HA : accepted_output (fun _ => 8%Z) ex_slice ex_grid).
  { split; [reflexivity|]. split; [intros; lia|]. split; [intros; lia|]. split; [intros; cbn; lia|]. intros []; cbn; lra. }
  split; [exact HS|]. split; [exact HA|].
  intros expr.
  destruct (C86_plane false 4 ex_grid ex_slice expr (fun _ => 8%Z) ltac:(lia) HS HA eq_refl) as (_ & H).
  destruct (H ltac:(lia)) as (a & RA & _ & K). assert (a = X2) by (destruct a; try discriminate; reflexivity). subst a. cbn [others] in K.
  destruct K as (_ & K). destruct K as (ks & ke & D & (T1 & T2 & T3) & E & V).
  { unfold misses. cbn. lra. }
  change (lo false 4 ex_grid X2) with 4%Z in *. change (hi false 4 ex_grid X2) with 11%Z in *.
  assert (TS : forall k, touches ex_grid X2 (sl_l ex_slice X2) (sl_u ex_slice X2) k <-> (IZR (k - 4) * (1/8) <= 6/10 /\ 3/10 < IZR (k + 1 - 4) * (1/8))).
  { intros k. unfold touches, face. cbn [ex_grid ex_slice og_p p_MinX p_s p_dx sl_l sl_u]. lra. }
  assert (K6 : (ks <= 6 <= ke)%Z) by (apply T3; [lia|]; apply TS; cbn; lra).
  assert (K8 : (ks <= 8 <= ke)%Z) by (apply T3; [lia|]; apply TS; cbn; lra).
  assert (K5 : ~ (ks <= 5 <= ke)%Z) by (intros C; apply T3 in C; [|lia]; apply TS in C; cbn in C; lra).
  assert (K9 : ~ (ks <= 9 <= ke)%Z) by (intros C; apply T3 in C; [|lia]; apply TS in C; cbn in C; lra).
  assert (ks = 6%Z) by lia. assert (ke = 8%Z) by lia. subst ks ke.
  exists D. split; [exact E|]. intros y x. rewrite V. unfold mean. rewrite sumZ_last, sumZ_last, sumZ_last, sumZ_empty by lia.
  change (8 - 1 - 1)%Z with 6%Z. change (8 - 1)%Z with 7%Z. change (8 - 6 + 1)%Z with 3%Z. unfold at_cell, put. change (lo false 4 ex_grid X1) with 4%Z. change (lo false 4 ex_grid X3) with 4%Z. lra.
Qed.
(** Refuted when a Grid of a three-dimensional run is one cell thick along x3: OutData2 takes
    the run for a two-dimensional one, ignores the slice, and returns data of a Grid the
    slice does not meet. *)
Definition thin_blk := Blk 0 (mk_vec 8 8 2) (mk_vec 0 0 0) (mk_vec 1 2 2) 0.
Definition thin_slice : slice := SL 2 (fun a => match a with X2 => 3/4 | _ => 0 end) (fun a => match a with X2 => 3/4 | _ => 1 end) (fun a => match a with X2 => true | _ => false end).
Theorem C86_thin_refuted : exists M d, init_mesh 4 (fun _ _ _ => 1%Z) 4 [thin_blk] = Ok M /\ nth_error (ms_levels M) 0 = Some [d] /\
  slice_ndim (ms_Nx M) (sl_red thin_slice) = Ok (sl_ndim thin_slice) /\ sl_red thin_slice X2 = true /\
  let G := mk_ogrid 4 (fun _ => 0) (fun _ => 1) M d (Gi 0 0 0) in
  misses G thin_slice X2 /\ forall expr, exists D, OutData2 false 4 G thin_slice expr = Ok (Some (8%Z, 4%Z, D)).
Proof.
  destruct (init_mesh 4 (fun _ _ _ => 1%Z) 4 [thin_blk]) as [M| |] eqn:EM; [|vm_compute in EM; discriminate|vm_compute in EM; discriminate].
  assert (exists d, nth_error (ms_levels M) 0 = Some [d] /\ ms_Nx M X1 = 8%Z /\ ms_Nx M X2 = 8%Z /\ ms_Nx M X3 = 2%Z /\ dm_Disp d X2 = 0%Z /\ dm_Nx d X2 = 8%Z /\ dm_level d = 0%nat /\
    gNx d X1 0 = 8%Z /\ gNx d X2 0 = 4%Z /\ gNx d X3 0 = 1%Z) as (d & HL & M1 & M2 & M3 & D2 & N2 & LV & G1 & G2 & G3).
  { assert (EM' := EM). vm_compute in EM'. injection EM' as <-. eexists. split; [reflexivity|]. repeat split; reflexivity. }
  exists M, d. split; [reflexivity|]. split; [exact HL|]. split; [unfold slice_ndim; rewrite M2, M3; reflexivity|]. split; [reflexivity|]. cbv zeta. split.
  - right. cbn [mk_ogrid og_MaxX thin_slice sl_l gi_ax gm]. unfold grid_MaxX. cbn [grid_MinX]. unfold dom_MinX, dom_dx, root_dx. rewrite D2, N2, G2, M2, LV. cbn. lra.
  - intros expr. unfold OutData2. cbn [thin_slice sl_ndim Z.eqb Pos.eqb negb mk_ogrid og_Nx gi_ax gn]. rewrite G3. cbn [Z.eqb Pos.eqb].
    eexists. apply f_equal, f_equal. apply f_equal2; [|reflexivity]. apply f_equal2; unfold hi, lo; cbn [andb og_e og_p mk_ogrid mk_pgrid p_s gi_ax gl gm]; unfold grid_e, grid_s; [rewrite G1|rewrite G2]; reflexivity.
Qed.
Print Assumptions C86_thin_refuted.
