(** * C89: the shearing sheet boundary *)
From Coq Require Import Reals ZArith Bool Lia Lra Psatz List.
From Verif Require Import CStr PosModel GasModel ReconModel IntegModel IntegSpec IntegFacts SumFacts ShearModel ShearSpec ShearFacts.
Import ListNotations.
Open Scope R_scope.

Lemma ghost_boosted : forall inner fargo qomL z v, cd (zU z) <> 0 ->
  ghost_var inner fargo qomL z v = boosted (image_speed inner fargo qomL) z v.
Proof.
  intros inner fargo qomL z v H. unfold ghost_var, boosted, image_speed, value, SQR, half.
  destruct v, fargo, inner; cbv zeta; try reflexivity; try ring; field; exact H.
Qed.

Section Sheet.
Variables (inner fargo third three : bool) (ns : nat) (nghost : Z) (qomL eps : R) (joffset : Z).
Variables (ie ke : Z) (NG js n : Z) (D : Z -> Z -> Z -> zone) (G : Z -> Z -> Z -> Z -> zone).
Hypothesis HN : (0 < NG)%Z.
Hypothesis Hg : (3 <= nghost)%Z.
Hypothesis Hn : (nghost < n)%Z.
Hypothesis HD : forall k i, periodic (NG * n) (fun J => D k J i).
Hypothesis Hd : forall k J i, cd (zU (D k J i)) <> 0.
Hypothesis HG : holds nghost NG js n D G.
Hypothesis Ho : (0 <= joffset < NG * n)%Z.
Let w := image_speed inner fargo qomL.
Let C (k i : Z) (v : rvar) (J : Z) : R := carried inner third joffset eps (fun J => boosted w (D k J i) v) J.
Let je := (js + n - 1)%Z.

Lemma boost_periodic : forall k i v, periodic (NG * n) (fun J => boosted w (D k J i) v).
Proof. intros k i v J. cbn beta. pose proof (HD k i J) as P. cbn beta in P. rewrite P. reflexivity. Qed.
Lemma carried_periodic : forall U, periodic (NG * n) U -> periodic (NG * n) (carried inner third joffset eps U).
Proof.
  intros U P J. unfold carried. destruct inner.
  - replace (J + NG * n - joffset)%Z with (J - joffset + NG * n)%Z by lia. now apply remap_periodic.
  - replace (J + NG * n + joffset)%Z with (J + joffset + NG * n)%Z by lia. now apply remap_periodic.
Qed.
Lemma C_periodic : forall k i v, periodic (NG * n) (C k i v).
Proof. intros k i v. apply carried_periodic. apply boost_periodic. Qed.
Lemma buf_ok : forall p j k i v, (0 <= p < NG)%Z -> (js <= j <= js + n - 1)%Z ->
  zns_buf inner fargo third qomL eps G p j k i v =
  remap third (if inner then eps else - eps) (fun J => boosted w (D k J i) v) (row_of js n p j).
Proof.
  intros p j k i v Hp Hj. unfold zns_buf. apply remap_local. intros d Hd'.
  rewrite HG by (try assumption; lia). rewrite ghost_boosted by apply Hd. f_equal. f_equal. unfold row_of. lia.
Qed.
Lemma shifted_ok : forall p j, (0 <= p < NG)%Z -> (js <= j <= js + n - 1)%Z ->
  exists r, shifted inner fargo third qomL eps joffset NG js n G p j = Ok r /\
            forall k i v, r k i v = C k i v (row_of js n p j).
Proof.
  intros p j Hp Hj. unfold shifted. unfold C, carried. destruct (Bool.bool_dec inner true) as [EI|EI]; [|apply Bool.not_true_is_false in EI]; rewrite EI; cbv iota; rewrite <- EI.
  - destruct (shift_ix1_ok _ NG js n (zns_buf inner fargo third qomL eps G) HN ltac:(lia) joffset p j Ho Hp Hj) as [q [j' [c [Hq [Hj' [E S]]]]]].
    eexists. split; [exact S|]. intros k i v. rewrite buf_ok by assumption. rewrite EI.
    unfold row_of. rewrite E.
    apply (periodic_mult (fun J => remap third eps (fun J0 => boosted w (D k J0 i) v) J) (NG * n)). intros J. apply remap_periodic. apply boost_periodic.
  - destruct (shift_ox1_ok _ NG js n (zns_buf inner fargo third qomL eps G) HN ltac:(lia) joffset p j Ho Hp Hj) as [q [j' [c [Hq [Hj' [E S]]]]]].
    eexists. split; [exact S|]. intros k i v. rewrite buf_ok by assumption. rewrite EI.
    unfold row_of. rewrite E.
    apply (periodic_mult (fun J => remap third (- eps) (fun J0 => boosted w (D k J0 i) v) J) (NG * n)). intros J. apply remap_periodic. apply boost_periodic.
Qed.

(** What is known of a zone after the boundary condition. *)
Definition good_zone (k J i : Z) (z : zone) : Prop :=
  (forall v, (forall m, v = Vs m -> (m < ns)%nat) -> (v = VB1i -> inner = true \/ i <> (ie + 1)%Z) -> value z v = C k i v J) /\
  (inner = false -> i = (ie + 1)%Z -> zB1i z = zB1i (D k J i)) /\ length (cs (zU z)) = ns.
Definition B3_ok (k J i : Z) (z : zone) : Prop :=
  cB3 (zU z) = if three then half * (C k i VB3i J + C (k + 1)%Z i VB3i J) else cB3 (zU (D k J i)).
Definition B2_ok (k J i : Z) (z : zone) : Prop := cB2 (zU z) = half * (C k i VB2i J + C k i VB2i (J + 1)%Z).

Lemma step6_ok : forall p k j i, (0 <= p < NG)%Z -> (js <= j <= js + n - 1)%Z ->
  exists z, step6 inner fargo third three ns qomL eps joffset ie ke NG js n G p k j i = Ok z /\
    (k <= ke -> good_zone k (row_of js n p j) i z /\ zU z = Cons (cd (zU z)) (cM1 (zU z)) (cM2 (zU z)) (cM3 (zU z)) (cE (zU z)) (cB1 (zU z)) (cB2 (zU z)) (cB3 (zU (D k (row_of js n p j) i))) (cs (zU z)))%Z /\
    (k <= ke \/ three = true -> zB3i z = C k i VB3i (row_of js n p j))%Z.
Proof.
  intros p k j i Hp Hj. unfold step6.
  replace (js <=? j)%Z with true by (symmetry; apply Z.leb_le; lia). replace (j <=? js + n - 1)%Z with true by (symmetry; apply Z.leb_le; lia). cbn [andb].
  destruct (shifted_ok p j Hp Hj) as [r [E R]]. rewrite E. cbn [bind]. eexists. split; [reflexivity|]. unfold stored. cbv zeta.
  rewrite HG by (try assumption; lia).
  destruct (k <=? ke)%Z eqn:EK; [apply Z.leb_le in EK|apply Z.leb_gt in EK].
  - split; [intros _; split; [split; [|split]|]|intros _].
    + intros v Hv Hb. rewrite <- R. destruct v as [| | | | | | | | |m]; cbn [value zU zB1i zB2i zB3i cd cM1 cM2 cM3 cE cB1 cs]; try reflexivity.
      * destruct (Hb eq_refl) as [-> |N]; [reflexivity|]. replace (i =? ie + 1)%Z with false by (symmetry; apply Z.eqb_neq; exact N). rewrite andb_false_r. reflexivity.
      * rewrite (nth_indep _ 0 (r k i (Vs ns))) by (rewrite map_length, seq_length; apply Hv; reflexivity).
        rewrite (map_nth (fun m0 => r k i (Vs m0))). rewrite seq_nth by (apply Hv; reflexivity). reflexivity.
    + intros EI Ei. cbn [zB1i]. rewrite EI, Ei, Z.eqb_refl. reflexivity.
    + cbn. rewrite map_length, seq_length. reflexivity.
    + reflexivity.
    + cbn. apply R.
  - split; [intros X; lia|]. intros [X|X]; [lia|]. rewrite X. cbn. apply R.
Qed.
Lemma step6_total : forall p k j i, (0 <= p < NG)%Z -> (js <= j <= js + n)%Z ->
  exists z, step6 inner fargo third three ns qomL eps joffset ie ke NG js n G p k j i = Ok z.
Proof.
  intros p k j i Hp Hj. destruct (Z.eq_dec j (js + n)) as [->|Hne].
  - unfold step6. replace (js + n <=? js + n - 1)%Z with false by (symmetry; apply Z.leb_gt; lia). rewrite andb_false_r. eexists; reflexivity.
  - destruct (step6_ok p k j i Hp ltac:(lia)) as [z [E _]]. exists z. exact E.
Qed.
Lemma setB2c_value : forall z b v, value (setB2c z b) v = value z v. Proof. intros z b [| | | | | | | | |m]; reflexivity. Qed.
Lemma setB3c_value : forall z b v, value (setB3c z b) v = value z v. Proof. intros z b [| | | | | | | | |m]; reflexivity. Qed.
Lemma good_set2 : forall k J i z b, good_zone k J i z -> good_zone k J i (setB2c z b).
Proof. intros k J i z b [A [B L]]. split; [|split; [exact B|exact L]]. intros v H1 H2. rewrite setB2c_value. now apply A. Qed.
Lemma good_set3 : forall k J i z b, good_zone k J i z -> good_zone k J i (setB3c z b).
Proof. intros k J i z b [A [B L]]. split; [|split; [exact B|exact L]]. intros v H1 H2. rewrite setB3c_value. now apply A. Qed.

Lemma good_B2i : forall k J i z, good_zone k J i z -> zB2i z = C k i VB2i J.
Proof. intros k J i z H. apply (proj1 H VB2i); intros; discriminate. Qed.
Lemma step7_ok : forall p k j i, (0 <= p < NG)%Z -> (js <= j <= js + n - 1)%Z -> (k <= ke)%Z ->
  exists z, step7 inner fargo third three ns qomL eps joffset ie ke NG js n G p k j i = Ok z /\
    good_zone k (row_of js n p j) i z /\ B3_ok k (row_of js n p j) i z /\
    (j <> js + n - 1 -> B2_ok k (row_of js n p j) i z)%Z.
Proof.
  intros p k j i Hp Hj Hk. unfold step7.
  replace (js <=? j)%Z with true by (symmetry; apply Z.leb_le; lia). replace (j <=? js + n - 1)%Z with true by (symmetry; apply Z.leb_le; lia).
  replace (k <=? ke)%Z with true by (symmetry; apply Z.leb_le; lia). cbn [andb].
  destruct (step6_ok p k j i Hp Hj) as [z [E [H1 H2]]]. rewrite E. cbn [bind]. destruct (H1 Hk) as [GZ UZ].
  destruct (step6_total p k (j + 1)%Z i Hp ltac:(lia)) as [zr Er]. rewrite Er. cbn [bind]. cbv zeta.
  assert (B2 : (j <> js + n - 1)%Z -> half * (zB2i z + zB2i zr) = half * (C k i VB2i (row_of js n p j) + C k i VB2i (row_of js n p j + 1)%Z)).
  { intros Hne. destruct (step6_ok p k (j + 1)%Z i Hp ltac:(lia)) as [zr' [Er' [Hr _]]]. rewrite Er in Er'. injection Er' as <-.
    destruct (Hr Hk) as [Gr _]. rewrite (good_B2i _ _ _ _ GZ), (good_B2i _ _ _ _ Gr). replace (row_of js n p (j + 1)) with (row_of js n p j + 1)%Z by (unfold row_of; lia). reflexivity. }
  unfold B3_ok. destruct (Bool.bool_dec three true) as [E3|E3]; [|apply Bool.not_true_is_false in E3]; rewrite E3; cbv iota; rewrite <- ?E3.
  - destruct (step6_ok p (k + 1)%Z j i Hp Hj) as [zu [Eu [_ Hu]]]. rewrite Eu. cbn [bind]. eexists. split; [reflexivity|].
    split; [apply good_set3, good_set2; exact GZ|]. split.
    + cbn [setB3c zU cB3]. cbn [setB2c zB3i]. rewrite (H2 ltac:(left; lia)), (Hu ltac:(right; exact E3)). reflexivity.
    + intros Hne. unfold B2_ok. cbn [setB3c zU cB2 setB2c]. now apply B2.
  - eexists. split; [reflexivity|]. split; [apply good_set2; exact GZ|]. split.
    + cbn [setB2c zU cB3]. rewrite UZ. reflexivity.
    + intros Hne. unfold B2_ok. cbn [zU cB2 setB2c]. now apply B2.
Qed.
Lemma good_move : forall k J c i z, good_zone k J i z -> good_zone k (J + c * (NG * n))%Z i z.
Proof.
  intros k J c i z [A [B L]]. split; [|split; [|exact L]].
  - intros v H1 H2. rewrite (A v H1 H2). symmetry. apply (periodic_mult (C k i v)). apply C_periodic.
  - intros H1 H2. rewrite (B H1 H2). symmetry. f_equal. apply (periodic_mult (fun J => D k J i)). apply HD.
Qed.
Lemma B3_move : forall k J c i z, B3_ok k J i z -> B3_ok k (J + c * (NG * n))%Z i z.
Proof.
  intros k J c i z A. unfold B3_ok in *. rewrite A.
  rewrite (periodic_mult (fun J => D k J i) (NG * n) (HD k i)).
  rewrite (periodic_mult (C k i VB3i) _ (C_periodic k i VB3i)), (periodic_mult (C (k + 1)%Z i VB3i) _ (C_periodic (k + 1)%Z i VB3i)). reflexivity.
Qed.
Lemma B2_move : forall k J c i z, B2_ok k J i z -> B2_ok k (J + c * (NG * n))%Z i z.
Proof.
  intros k J c i z A. unfold B2_ok in *. rewrite A. replace (J + c * (NG * n) + 1)%Z with (J + 1 + c * (NG * n))%Z by lia.
  rewrite !(periodic_mult (C k i VB2i) _ (C_periodic k i VB2i)). reflexivity.
Qed.
Lemma step9_ok : forall p k j i, (0 <= p < NG)%Z -> (js - nghost <= j <= js + n - 1 + nghost)%Z -> (k <= ke)%Z ->
  exists z, step9 inner fargo third three ns qomL eps joffset ie ke NG js n G p k j i = Ok z /\
    good_zone k (row_of js n p j) i z /\ B3_ok k (row_of js n p j) i z /\
    (j <> js + n - 1 -> j <> js - 1 -> B2_ok k (row_of js n p j) i z)%Z.
Proof.
  intros p k j i Hp Hj Hk. unfold step9.
  assert (K : forall q j' c, (0 <= q < NG)%Z -> (js <= j' <= js + n - 1)%Z -> row_of js n p j = (row_of js n q j' + c * (NG * n))%Z -> (j' = js + n - 1 -> j = js + n - 1 \/ j = js - 1)%Z ->
    exists z, step7 inner fargo third three ns qomL eps joffset ie ke NG js n G q k j' i = Ok z /\
    good_zone k (row_of js n p j) i z /\ B3_ok k (row_of js n p j) i z /\
    (j <> js + n - 1 -> j <> js - 1 -> B2_ok k (row_of js n p j) i z)%Z).
  { intros q j' c Hq Hj' E X. destruct (step7_ok q k j' i Hq Hj' Hk) as [z [S [A [B P]]]]. exists z. rewrite E.
    split; [exact S|]. split; [now apply good_move|]. split; [now apply B3_move|]. intros N1 N2. apply B2_move, P. intros Y. destruct (X Y); lia. }
  destruct (j <? js)%Z eqn:E1; [apply Z.ltb_lt in E1|apply Z.ltb_ge in E1].
  - destruct (NG =? 1)%Z eqn:E2; [apply Z.eqb_eq in E2|apply Z.eqb_neq in E2].
    + apply (K p (j + n)%Z (-1)%Z); try lia; unfold row_of; nia.
    + destruct (down_ring NG p 1 Hp ltac:(lia)) as [D1 [D2|D2]].
      * apply (K _ (j + n)%Z 0%Z); try lia; unfold row_of; rewrite D2; nia.
      * apply (K _ (j + n)%Z (-1)%Z); try lia; unfold row_of; rewrite D2; nia.
  - destruct (js + n - 1 <? j)%Z eqn:E3; [apply Z.ltb_lt in E3|apply Z.ltb_ge in E3].
    + destruct (NG =? 1)%Z eqn:E2; [apply Z.eqb_eq in E2|apply Z.eqb_neq in E2].
      * apply (K p (j - n)%Z 1%Z); try lia; unfold row_of; nia.
      * destruct (up_ring NG p 1 Hp ltac:(lia)) as [D1 [D2|D2]].
        -- apply (K _ (j - n)%Z 0%Z); try lia; unfold row_of; rewrite D2; nia.
        -- apply (K _ (j - n)%Z 1%Z); try lia; unfold row_of; rewrite D2; nia.
    + apply (K p j 0%Z); try lia; unfold row_of; nia.
Qed.
Lemma sheet_ok : forall p k j i, (0 <= p < NG)%Z -> (js - nghost <= j <= js + n - 1 + nghost)%Z -> (k <= ke)%Z ->
  exists z, sheet inner fargo third three ns qomL eps joffset ie ke NG js n G p k j i = Ok z /\
    good_zone k (row_of js n p j) i z /\ B3_ok k (row_of js n p j) i z /\ B2_ok k (row_of js n p j) i z.
Proof.
  intros p k j i Hp Hj Hk. unfold sheet. replace (k <=? ke)%Z with true by (symmetry; apply Z.leb_le; lia). rewrite andb_true_r.
  destruct (step9_ok p k j i Hp Hj Hk) as [z [E [A [B P]]]].
  destruct ((j =? js + n - 1) || (j =? js - 1))%Z eqn:E1.
  - assert (Hj1 : (js - nghost <= j + 1 <= js + n - 1 + nghost)%Z).
    { apply orb_true_iff in E1. destruct E1 as [X|X]; apply Z.eqb_eq in X; lia. }
    destruct (step9_ok p k (j + 1)%Z i Hp Hj1 Hk) as [zr [Er [Ar _]]]. rewrite E, Er. cbn [bind]. eexists. split; [reflexivity|].
    split; [now apply good_set2|]. split; [exact B|]. unfold B2_ok. cbn [setB2c zU cB2]. rewrite (good_B2i _ _ _ _ A), (good_B2i _ _ _ _ Ar).
    replace (row_of js n p (j + 1)) with (row_of js n p j + 1)%Z by (unfold row_of; lia). reflexivity.
  - apply orb_false_iff in E1. destruct E1 as [X1 X2]. apply Z.eqb_neq in X1. apply Z.eqb_neq in X2. exists z. auto.
Qed.
End Sheet.

(** ** C89: the ghost zones hold the image of the box, however the Domain is divided into Grids *)
Theorem C89_image : forall inner fargo third three ns nghost qomL eps joffset ie ke NG js n D G,
  (0 < NG)%Z -> (3 <= nghost)%Z -> (nghost < n)%Z ->
  (forall k i, periodic (NG * n) (fun J => D k J i)) -> (forall k J i, cd (zU (D k J i)) <> 0) -> holds nghost NG js n D G ->
  (0 <= joffset < NG * n)%Z ->
  forall p k j i, (0 <= p < NG)%Z -> (js - nghost <= j <= js + n - 1 + nghost)%Z -> (k <= ke)%Z ->
  let J := row_of js n p j in
  let image k v J := carried inner third joffset eps (fun J => boosted (image_speed inner fargo qomL) (D k J i) v) J in
  exists z, sheet inner fargo third three ns qomL eps joffset ie ke NG js n G p k j i = Ok z /\
    (forall v, (forall m, v = Vs m -> (m < ns)%nat) -> (v = VB1i -> inner = true \/ i <> (ie + 1)%Z) -> value z v = image k v J) /\
    (inner = false -> i = (ie + 1)%Z -> zB1i z = zB1i (D k J i)) /\
    cB2 (zU z) = half * (image k VB2i J + image k VB2i (J + 1)%Z) /\
    (three = true -> cB3 (zU z) = half * (image k VB3i J + image (k + 1)%Z VB3i J)).
Proof.
  intros inner fargo third three ns nghost qomL eps joffset ie ke NG js n D G H1 H2 H3 H4 H5 H6 H7 p k j i Hp Hj Hk J image.
  destruct (sheet_ok inner fargo third three ns nghost qomL eps joffset ie ke NG js n D G H1 H2 H3 H4 H5 H6 H7 p k j i Hp Hj Hk) as [z [E [[A [B _]] [B3 B2]]]].
  exists z. split; [exact E|]. split; [exact A|]. split; [exact B|]. split; [exact B2|]. intros ->. exact B3.
Qed.
Print Assumptions C89_image.

(** ** C89: the displacement *)
Theorem C89_displacement : forall qomL time dx2 N,
  0 <= qomL * time -> 0 < dx2 -> (0 < N < 2 ^ 31)%Z ->
  exists m joffset eps, sheared qomL time (IZR N * dx2) dx2 = Ok (joffset, eps) /\
    (0 <= joffset < N)%Z /\ 0 <= eps < 1 /\
    qomL * time = IZR m * (IZR N * dx2) + (IZR joffset + eps) * dx2.
Proof.
  intros qomL time dx2 N Hy Hdx HN.
  assert (NP : 0 < IZR N) by (apply IZR_lt; lia).
  destruct (fmod_pos (qomL * time) (IZR N * dx2) Hy ltac:(nra)) as [m [Hm [E [F0 F1]]]].
  unfold sheared. cbv zeta. set (dy := fmod (qomL * time) (IZR N * dx2)) in *. clearbody dy.
  assert (Q : 0 <= dy / dx2) by (apply Rmult_le_pos; [lra|apply Rlt_le, Rinv_0_lt_compat; lra]).
  assert (Q1 : dy / dx2 < IZR N) by (apply (Rmult_lt_reg_r dx2); [lra|]; unfold Rdiv; rewrite Rmult_assoc, Rinv_l by lra; lra).
  pose proof (Int_part_bound (dy / dx2)) as B. pose proof (Int_part_nonneg _ Q) as I0.
  assert (I1 : (Int_part (dy / dx2) < N)%Z) by (apply lt_IZR; lra).
  unfold c_int. destruct (Rle_dec 0 (dy / dx2)); [|lra]. cbv zeta.
  assert (Rg : ((MeshModel.INT_MIN <=? Int_part (dy / dx2)) && (Int_part (dy / dx2) <=? MeshModel.INT_MAX))%Z = true).
  { apply andb_true_iff. split; apply Z.leb_le; unfold MeshModel.INT_MIN, MeshModel.INT_MAX; lia. }
  rewrite Rg. cbn [bind]. exists m, (Int_part (dy / dx2)), (fmod dy dx2 / dx2).
  assert (FM : fmod dy dx2 / dx2 = dy / dx2 - IZR (Int_part (dy / dx2))).
  { unfold fmod. destruct (Rle_dec 0 (dy / dx2)); [|lra]. field. lra. }
  rewrite FM. split; [reflexivity|]. split; [lia|]. split; [lra|]. rewrite E. field. lra.
Qed.
Print Assumptions C89_displacement.

(** ** C89: what carrying a profile does *)
Theorem C89_conserves : forall inner third m eps U N, (0 < N)%Z -> periodic N U ->
  sumZ 0 (N - 1) (carried inner third m eps U) = sumZ 0 (N - 1) U.
Proof.
  intros inner third m eps U N HN H. unfold carried. destruct inner.
  - rewrite <- (remap_sum third eps U N HN H).
    apply (sum_period (remap third eps U) N HN (remap_periodic third eps U N H) (- m)%Z).
  - rewrite <- (remap_sum third (- eps) U N HN H).
    apply (sum_period (remap third (- eps) U) N HN (remap_periodic third (- eps) U N H) m).
Qed.
Print Assumptions C89_conserves.

(** Where the profile is linear over seven cells, it is moved by exactly m + eps cells. *)
Theorem C89_linear : forall (inner third : bool) (m : Z) (eps : R) (U : Z -> R) (J : Z) (a b : R),
  (forall d, (-3 <= d <= 3)%Z -> U ((if inner then J - m else J + m) + d)%Z = a + b * IZR ((if inner then J - m else J + m) + d)) ->
  carried inner third m eps U J = a + b * (if inner then IZR J - (IZR m + eps) else IZR J + (IZR m + eps)).
Proof.
  intros inner third m eps U J a b H. unfold carried. destruct inner.
  - rewrite (remap_linear third eps (a + b * IZR (J - m)) b).
    + rewrite minus_IZR. ring.
    + intros d Hd. rewrite H by assumption. rewrite plus_IZR. ring.
  - rewrite (remap_linear third (- eps) (a + b * IZR (J + m)) b).
    + rewrite plus_IZR. ring.
    + intros d Hd. rewrite H by assumption. rewrite !plus_IZR. ring.
Qed.
Print Assumptions C89_linear.

(** A displacement by whole cells is an exact copy. *)
Theorem C89_whole : forall (inner third : bool) (m : Z) (U : Z -> R) (J : Z), carried inner third m 0 U J = U (if inner then J - m else J + m)%Z.
Proof. intros inner third m U J. unfold carried. rewrite Ropp_0. destruct inner; apply remap_zero. Qed.
Print Assumptions C89_whole.

(** At second order every new value lies between the two cells it covers: no new extrema, and
    positive quantities stay positive. *)
Theorem C89_no_new_extrema : forall (inner : bool) (m : Z) (eps : R) (U : Z -> R) (J : Z), 0 <= eps <= 1 ->
  between (U (if inner then J - m else J + m)%Z) (U (if inner then J - m - 1 else J + m + 1)%Z) (carried inner false m eps U J).
Proof.
  intros inner m eps U J He. unfold carried, between. destruct inner.
  - destruct (remap2_forward eps U (J - m)%Z He) as [x [Hx ->]]. set (a := U _). set (b := U _). clearbody a b.
    unfold Rmin, Rmax. destruct (Rle_dec a b); nra.
  - destruct (remap2_backward eps U (J + m)%Z He) as [x [Hx ->]]. set (a := U _). set (b := U _). clearbody a b.
    unfold Rmin, Rmax. destruct (Rle_dec a b); nra.
Qed.
Print Assumptions C89_no_new_extrema.

(** The image moves with the speed of the boundary and has the same internal energy. *)
Theorem C89_boost : forall inner fargo qomL z, cd (zU z) <> 0 ->
  let w := image_speed inner fargo qomL in
  let kin (d m1 m2 m3 : R) := (m1 * m1 + m2 * m2 + m3 * m3) / (2 * d) in
  let g := ghost_var inner fargo qomL z in
  g Vd = cd (zU z) /\ g VM1 = cM1 (zU z) /\ g VM3 = cM3 (zU z) /\
  g VM2 / g Vd = cM2 (zU z) / cd (zU z) + w /\
  g VE - kin (g Vd) (g VM1) (g VM2) (g VM3) = cE (zU z) - kin (cd (zU z)) (cM1 (zU z)) (cM2 (zU z)) (cM3 (zU z)).
Proof.
  intros inner fargo qomL z H w kin g. unfold g. rewrite !ghost_boosted by exact H. fold w. cbn [boosted value].
  split; [reflexivity|]. split; [reflexivity|]. split; [reflexivity|]. unfold kin. split; field; exact H.
Qed.
Print Assumptions C89_boost.
Theorem C89_boost_xz : forall inner qomL u, cd u <> 0 ->
  let w := image_speed inner false qomL in
  let kin (u : cons) := (cM1 u * cM1 u + cM2 u * cM2 u + cM3 u * cM3 u) / (2 * cd u) in
  let g := sheet_xz inner qomL u in
  cd g = cd u /\ cM1 g = cM1 u /\ cM2 g = cM2 u /\ cM3 g / cd g = cM3 u / cd u + w /\ cE g - kin g = cE u - kin u /\
  cB1 g = cB1 u /\ cB2 g = cB2 u /\ cB3 g = cB3 u /\ cs g = cs u.
Proof.
  intros inner qomL u H w kin g. unfold g, w, kin, sheet_xz, image_speed, SQR, half. cbn.
  repeat (split; [solve [reflexivity | destruct inner; field; exact H]|]). reflexivity.
Qed.
Print Assumptions C89_boost_xz.

(** ** Where the code does not do this *)
(** In 2D (x-y) runs the cell centred B3 is not carried: it keeps its place while everything else moves. *)
Definition spot (N : Z) (B : R) : Z -> Z -> Z -> zone := fun _ J _ => Zone (Cons 1 0 0 0 1 0 0 (if (J mod N =? 0)%Z then B else 0) []) 0 0 0.
Lemma spot_periodic : forall N B k i, (0 < N)%Z -> periodic N (fun J => spot N B k J i).
Proof. intros N B k i HN J. unfold spot. replace (J + N)%Z with (J + 1 * N)%Z by lia. rewrite Z.mod_add by lia. reflexivity. Qed.
Theorem C89_B3_2d_refuted : exists D G z,
  (forall k i, periodic 10 (fun J => D k J i)) /\ (forall k J i, cd (zU (D k J i)) = 1) /\ holds 4 2 4 5 D G /\
  sheet true false false false 0 1 0 1 8 0 2 4 5 G 0%Z 0%Z 4%Z 0%Z = Ok z /\
  cB3 (zU z) = 1 /\ carried true false 1 0 (fun J => cB3 (zU (D 0%Z J 0%Z))) (row_of 4 5 0 4) = 0.
Proof.
  set (D := spot 10 1). set (G := fun p k j i => D k (row_of 4 5 p j) i).
  assert (HD : forall k i, periodic 10 (fun J => D k J i)) by (intros; apply spot_periodic; lia).
  assert (HG : holds 4 2 4 5 D G) by (intros p k j i _ _; reflexivity).
  destruct (sheet_ok true false false false 0 4 1 0 1 8 0 2 4 5 D G ltac:(lia) ltac:(lia) ltac:(lia) HD
              ltac:(intros; cbn; lra) HG ltac:(lia) 0%Z 0%Z 4%Z 0%Z ltac:(lia) ltac:(lia) ltac:(lia)) as [z [E [_ [B3 _]]]].
  exists D, G, z. split; [exact HD|]. split; [reflexivity|]. split; [exact HG|]. split; [exact E|]. split.
  - unfold B3_ok in B3. rewrite B3. reflexivity.
  - rewrite C89_whole. reflexivity.
Qed.
Print Assumptions C89_B3_2d_refuted.

Lemma Int_part_is : forall x z, IZR z <= x < IZR z + 1 -> Int_part x = z.
Proof. intros x z H. pose proof (Int_part_bound x) as B. assert (Int_part x < z + 1)%Z by (apply lt_IZR; rewrite plus_IZR; lra).
  assert (z < Int_part x + 1)%Z by (apply lt_IZR; rewrite plus_IZR; lra). lia. Qed.
(** If the boundary moves the other way (qshear < 0), rows of the buffer that were never set are read. *)
Theorem C89_backward_refuted : exists joffset eps, sheared (-1) 1 (IZR 5 * 1) 1 = Ok (joffset, eps) /\
  forall fargo third three ns qomL eps' ie ke G p k i, sheet true fargo third three ns qomL eps' joffset ie ke 1 4 5 G p k 8%Z i = UB.
Proof.
  exists (-1)%Z, 0. split.
  - unfold sheared. cbv zeta.
    assert (F1 : fmod (-1 * 1) (IZR 5 * 1) = -1).
    { unfold fmod. assert (P : Int_part (- (-1 * 1 / (IZR 5 * 1))) = 0%Z) by (apply Int_part_is; lra).
      destruct (Rle_dec 0 (-1 * 1 / (IZR 5 * 1))) as [C|_]; [lra|]. rewrite P. cbn [Z.opp]. lra. }
    rewrite F1.
    assert (P : Int_part (- (-1 / 1)) = 1%Z) by (apply Int_part_is; lra).
    assert (CI : c_int (-1 / 1) = Ok (-1)%Z).
    { unfold c_int. destruct (Rle_dec 0 (-1 / 1)) as [C|_]; [lra|]. cbv zeta. rewrite P. reflexivity. }
    rewrite CI. cbn [bind]. f_equal. f_equal.
    unfold fmod. destruct (Rle_dec 0 (-1 / 1)) as [C|_]; [lra|]. rewrite P. cbn [Z.opp]. lra.
  - intros fargo third three ns qomL eps' ie ke G p k i. unfold sheet, step9, step7, step6, shifted, shift_ix1, row. cbn.
    destruct (k <=? ke)%Z; reflexivity.
Qed.
Print Assumptions C89_backward_refuted.

(** At third order the remap can leave the range of the data: here a positive profile becomes negative. *)
Definition bowl (J : Z) : R := let r := IZR (J mod 10) in (r - 4) * (r - 5) + 1 / 8.
Theorem C89_third_order_refuted : periodic 10 bowl /\ (forall J, 0 < bowl J) /\ carried true true 0 (1 / 2) bowl 5 < 0.
Proof.
  split; [|split].
  - intros J. unfold bowl. replace (J + 10)%Z with (J + 1 * 10)%Z by lia. rewrite Z.mod_add by lia. reflexivity.
  - intros J. unfold bowl. cbv zeta. set (r := (J mod 10)%Z). clearbody r.
    assert (P : (0 <= (r - 4) * (r - 5))%Z) by (destruct (Z.le_gt_cases r 4); nia). apply IZR_le in P. rewrite mult_IZR, !minus_IZR in P. lra.
  - unfold carried. rewrite (remap_local true (1 / 2) bowl (fun J => IZR J * (IZR J + 1) + 1 / 8) (5 - 0)%Z 0%Z).
    2:{ intros d Hd. unfold bowl. cbv zeta. replace ((5 - 0 + d) mod 10)%Z with (5 + d)%Z by (symmetry; apply Z.mod_small; lia).
        rewrite Z.add_0_l, plus_IZR. ring. }
    set (U := fun J : Z => IZR J * (IZR J + 1) + 1 / 8).
    assert (H : forall j, prim3_half (fun i _ => U i) j 0 = IZR j * IZR j - 1 / 3 + 1 / 8).
    { intros j. unfold prim3_half, U. cbv zeta. rewrite !plus_IZR, !minus_IZR.
      repeat match goal with |- context [Rlt_dec ?x ?y] => destruct (Rlt_dec x y); try lra end.
      all: unfold half, SIGN, MIN.
      all: replace ((IZR j - 2) * (IZR j - 2 + 1) + 1 / 8 - 2 * ((IZR j - 1) * (IZR j - 1 + 1) + 1 / 8) + (IZR j * (IZR j + 1) + 1 / 8)) with 2 by field.
      all: replace ((IZR j - 1) * (IZR j - 1 + 1) + 1 / 8 - 2 * (IZR j * (IZR j + 1) + 1 / 8) + ((IZR j + 1) * (IZR j + 1 + 1) + 1 / 8)) with 2 by field.
      all: match goal with |- context [Rabs ?x] => idtac | _ => idtac end.
      all: set (c := 3 * _).
      all: assert (c = 2) by (unfold c; field).
      all: rewrite H in *.
      all: rewrite !(Rabs_right 2) by lra.
      all: repeat match goal with |- context [Rlt_dec ?x ?y] => destruct (Rlt_dec x y); try lra end.
      all: try lra; try field. }
    assert (E0 : rf_ends U 0 = (- (1 / 3) + 1 / 8, 2 / 3 + 1 / 8)).
    { unfold rf_ends. cbv zeta. rewrite !H. cbn [Z.add]. unfold prim3_extremum, U. cbv zeta. cbn [Z.add Z.sub Z.opp Z.pos_sub].
      destruct (Rle_dec _ 0) as [X|X]; [lra|]. cbn [fst snd]. unfold monotonize, half. cbv zeta.
      destruct (Rle_dec _ 0) as [Y|Y]; [lra|]. destruct (Rlt_dec _ _) as [V|V]; [lra|]. destruct (Rlt_dec _ _) as [W|W]; [lra|].
      f_equal; lra. }
    assert (E1 : rf_ends U (-1) = (2 / 3 + 1 / 8, - (1 / 3) + 1 / 8)).
    { unfold rf_ends. cbv zeta. rewrite !H. cbn [Z.add Z.pos_sub]. unfold prim3_extremum, U. cbv zeta. cbn [Z.add Z.sub Z.opp Z.pos_sub].
      destruct (Rle_dec _ 0) as [X|X]; [lra|]. cbn [fst snd]. unfold monotonize, half. cbv zeta.
      destruct (Rle_dec _ 0) as [Y|Y]; [lra|]. destruct (Rlt_dec _ _) as [V|V]; [lra|]. destruct (Rlt_dec _ _) as [W|W]; [lra|].
      f_equal; lra. }
    unfold remap, RemapFlux, RemapFlux3. cbv zeta. destruct (Rlt_dec 0 (1 / 2)); [|lra].
    replace (0 + 1 - 1)%Z with 0%Z by reflexivity. replace (0 - 1)%Z with (-1)%Z by reflexivity. rewrite E0, E1. unfold U, half. lra.
Qed.
Print Assumptions C89_third_order_refuted.

(** The message buffers hold the largest message of step 9 exactly if the Grids are wide enough. *)
Theorem C89_buffer : forall nghost n nx3 nremap nvar_share ns, (0 < nghost)%Z -> (0 <= nx3)%Z ->
  (step9_cnt nghost nx3 nvar_share ns <= buf_size nghost n nx3 nremap ns <-> nghost * (nvar_share + ns) <= n * (nremap + ns))%Z.
Proof.
  intros nghost n nx3 nremap nvar_share ns Hg Hx. unfold step9_cnt, buf_size.
  replace (nghost * nghost * (nx3 + 1) * (nvar_share + ns))%Z with (nghost * (nx3 + 1) * (nghost * (nvar_share + ns)))%Z by ring.
  replace (nghost * n * (nx3 + 1) * (nremap + ns))%Z with (nghost * (nx3 + 1) * (n * (nremap + ns)))%Z by ring.
  symmetry. apply Z.mul_le_mono_pos_l. nia.
Qed.
Print Assumptions C89_buffer.
(** Adiabatic MHD, four ghost zones, Grids of four cells: the message does not fit. *)
Theorem C89_buffer_refuted : exists n nx3, (4 <= n)%Z /\ (buf_size 4 n nx3 9 0 < step9_cnt 4 nx3 11 0)%Z.
Proof. exists 4%Z, 16%Z. split; [lia|]. vm_compute. reflexivity. Qed.
Print Assumptions C89_buffer_refuted.

(** ** The hypotheses are met: three Grids of five cells, a density that varies along x2 *)
Definition stripes : Z -> Z -> Z -> zone := fun k J i =>
  Zone (Cons (2 + IZR (J mod 15)) 1 (IZR (J mod 15)) (IZR i) 40 (1 / 2) 0 0 [IZR (J mod 15) / 15]) (1 / 2) 1 (IZR k).
Example C89_example :
  (forall k i, periodic (3 * 5) (fun J => stripes k J i)) /\ (forall k J i, cd (zU (stripes k J i)) <> 0) /\
  holds 4 3 4 5 stripes (fun p k j i => stripes k (row_of 4 5 p j) i) /\
  (** a displacement of 7 cells is more than one Grid: row 0 of Grid 0 comes from row 8, in Grid 1 *)
  exists z, sheet true false false true 1 2 0 7 8 8 3 4 5 (fun p k j i => stripes k (row_of 4 5 p j) i) 0%Z 4%Z 4%Z 1%Z = Ok z /\
            cd (zU z) = 10 /\ cM2 (zU z) = 8 + 2 * 10.
Proof.
  assert (P : forall k i, periodic (3 * 5) (fun J => stripes k J i)).
  { intros k i J. unfold stripes. replace (J + 3 * 5)%Z with (J + 1 * 15)%Z by lia. rewrite Z.mod_add by lia. reflexivity. }
  assert (Q : forall k J i, cd (zU (stripes k J i)) <> 0).
  { intros k J i. cbn. pose proof (Z.mod_pos_bound J 15 ltac:(lia)) as B. destruct B as [B _]. apply IZR_le in B. lra. }
  assert (H : holds 4 3 4 5 stripes (fun p k j i => stripes k (row_of 4 5 p j) i)) by (intros p k j i _ _; reflexivity).
  split; [exact P|]. split; [exact Q|]. split; [exact H|].
  destruct (C89_image true false false true 1 4 2 0 7 8 8 3 4 5 stripes _ ltac:(lia) ltac:(lia) ltac:(lia) P Q H ltac:(lia) 0%Z 4%Z 4%Z 1%Z ltac:(lia) ltac:(lia) ltac:(lia))
    as [z [E [A _]]].
  exists z. split; [exact E|]. split.
  - pose proof (A Vd ltac:(intros; discriminate) ltac:(intros; discriminate)) as X. rewrite C89_whole in X. cbn in X. lra.
  - pose proof (A VM2 ltac:(intros; discriminate) ltac:(intros; discriminate)) as X. rewrite C89_whole in X. cbn in X. lra.
Qed.
Example C89_displacement_example : exists m joffset eps, sheared (3 / 2) 5 (IZR 4 * (1 / 2)) (1 / 2) = Ok (joffset, eps) /\
  (0 <= joffset < 4)%Z /\ 0 <= eps < 1 /\ 3 / 2 * 5 = IZR m * (IZR 4 * (1 / 2)) + (IZR joffset + eps) * (1 / 2).
Proof. apply C89_displacement; [lra|lra|lia]. Qed.
