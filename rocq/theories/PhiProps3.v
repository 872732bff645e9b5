(** * Ghost zones of the potential: the theorems *)
From Coq Require Import ZArith List Bool Lia Reals Lra.
From Verif Require Import Loop BvalsModel BvalsSpec BvalsProofs BvalsMsg BvalsParModel BvalsParProps BvalsLenProps PhiModel PhiSpec PhiProps PhiProps2.
Import ListNotations.
Open Scope Z_scope.

Lemma lst_fst : forall G a, 1 < g_N G a -> lst_ G a = fst_ G a + g_N G a - 1.
Proof. intros G a H. unfold lst_, fst_. rewrite (gt1 _ H). lia. Qed.
Lemma ng_le : forall G a, geom_ok G -> 1 < g_N G a -> 1 <= g_ng G <= g_N G a.
Proof. intros G a (Q1 & Q2 & Q3) N. destruct (Q3 a); lia. Qed.
Lemma act_cell : forall G a x, act G Cell a x = true <-> fst_ G a <= x <= lst_ G a.
Proof. intros. unfold act. cbn [normal andb btoz]. rewrite rng_spec. lia. Qed.
Lemma ext_cell : forall G a x, 1 < g_N G a -> ext G Cell a x = true <-> fst_ G a - g_ng G <= x <= lst_ G a + g_ng G.
Proof. intros G a x N. unfold ext. rewrite (gt1 _ N). cbn [normal btoz]. rewrite rng_spec. lia. Qed.
Lemma ext_act1 : forall G a x, g_N G a <= 1 -> ext G Cell a x = true -> act G Cell a x = true.
Proof. intros G a x N H. unfold ext in H. rewrite (gt1' _ N) in H. apply Z.eqb_eq in H. subst. apply act_cell. unfold fst_, lst_. rewrite (gt1' _ N). lia. Qed.
Lemma step_ext : forall G a c, step_dom G Cell a c -> ext G Cell a (co a c) = true.
Proof. intros G a c S. assert (X := S a). rewrite axis_eqb_refl in X. exact X. Qed.
Lemma step_pre : forall G a c, step_dom G Cell a c -> act G Cell a (co a c) = true -> pre_dom G Cell a c.
Proof. intros G a c S A. rewrite <- (upd_same a c). apply pre_upd; auto. intros. apply step_others; auto. Qed.
Lemma step_upd' : forall G a c y, step_dom G Cell a c -> act G Cell a y = true -> pre_dom G Cell a (upd a c y).
Proof. intros G a c y S A. apply pre_upd; auto. intros. apply step_others; auto. Qed.

Section Phi.
Context {F : Type} (ext3 : F -> F -> F -> F).
Lemma rowv_ext2 : forall b (right : bool) G a (p q : Z -> F) x, 1 < g_N G a -> g_ng G <= g_N G a -> (b = GOpen -> 3 <= g_N G a) ->
  (if right then lst_ G a < x <= lst_ G a + g_ng G else fst_ G a - g_ng G <= x < fst_ G a) ->
  (forall y, fst_ G a <= y <= lst_ G a -> p y = q y) -> rowv ext3 b right G a p x = rowv ext3 b right G a q x.
Proof.
  intros b right G a p q x N NG O X H. assert (E := lst_fst G a N).
  destruct b, right; cbn [rowv]; try (apply H; lia); apply openv_ext; intros k Hk; apply H; specialize (O eq_refl); lia.
Qed.
Lemma axisv_ext : forall bl br G a A B c, geom_ok G -> open_ok bl br G -> step_dom G Cell a c ->
  (forall d, pre_dom G Cell a d -> A d = B d) -> axisv ext3 bl br G a A c = axisv ext3 bl br G a B c.
Proof.
  intros bl br G a A B c OK OP S H. assert (X := step_ext _ _ _ S). unfold axisv. destruct (Z.gtb_spec (g_N G a) 1) as [N|N].
  - assert (NG := ng_le _ _ OK N). apply ext_cell in X; auto. destruct (Z.ltb_spec (co a c) (fst_ G a)); [|destruct (Z.ltb_spec (lst_ G a) (co a c))].
    + apply rowv_ext2; auto; try lia. { intros E. destruct (OP a (or_introl E)); lia. } intros y Y. apply H, step_upd'; auto. apply act_cell. lia.
    + apply rowv_ext2; auto; try lia. { intros E. destruct (OP a (or_intror E)); lia. } intros y Y. apply H, step_upd'; auto. apply act_cell. lia.
    + apply H, step_pre; auto. apply act_cell. lia.
  - apply H, step_pre; auto. apply ext_act1; auto.
Qed.
Lemma axisv_active : forall bl br G a A c, act G Cell a (co a c) = true -> axisv ext3 bl br G a A c = A c.
Proof.
  intros bl br G a A c H. apply act_cell in H. unfold axisv. destruct (_ >? _); auto.
  destruct (Z.ltb_spec (co a c) (fst_ G a)); [lia|]. destruct (Z.ltb_spec (lst_ G a) (co a c)); [lia|]. reflexivity.
Qed.
(** The array before the exchange along [a]. *)
Definition stage (bl br : axis -> gbc) (G : geom) (a : axis) (A : arr F) : arr F :=
  match a with A1 => A | A2 => gphys_axis ext3 bl br G A1 A | A3 => gphys_axis ext3 bl br G A2 (gphys_axis ext3 bl br G A1 A) end.
Lemma gphys_active : forall bl br G a A c, geom_ok G -> open_ok bl br G -> step_dom G Cell a c -> act G Cell a (co a c) = true -> gphys_axis ext3 bl br G a A c = A c.
Proof. intros. rewrite gaxis_step by auto. apply axisv_active. auto. Qed.
Lemma pre_step1 : forall G c, geom_ok G -> pre_dom G Cell A1 c -> step_dom G Cell A1 c.
Proof. intros G c (O & _) H a. specialize (H a). destruct a; cbn in *; auto. apply act_ext; auto. Qed.
Lemma pre_step2 : forall G c, geom_ok G -> pre_dom G Cell A2 c -> step_dom G Cell A2 c.
Proof. intros G c (O & _) H a. specialize (H a). destruct a; cbn in *; auto. apply act_ext; auto. Qed.
Lemma pre_step3 : forall G c, geom_ok G -> pre_dom G Cell A3 c -> step_dom G Cell A3 c.
Proof. intros G c (O & _) H a. specialize (H a). destruct a; cbn in *; auto. apply act_ext; auto. Qed.
Lemma pre_step : forall G a c, geom_ok G -> pre_dom G Cell a c -> step_dom G Cell a c.
Proof. intros G [] c; [apply pre_step1|apply pre_step2|apply pre_step3]. Qed.
Lemma s12 : forall G c, step_dom G Cell A1 c -> pre_dom G Cell A2 c.
Proof. intros G c H a. specialize (H a). destruct a; exact H. Qed.
Lemma s23 : forall G c, step_dom G Cell A2 c -> pre_dom G Cell A3 c.
Proof. intros G c H a. specialize (H a). destruct a; exact H. Qed.
Lemma pre_act : forall G a c, pre_dom G Cell a c -> act G Cell a (co a c) = true.
Proof. intros G a c H. specialize (H a). rewrite before_refl in H. exact H. Qed.
Lemma stage_pre : forall bl br G a A c, geom_ok G -> open_ok bl br G -> pre_dom G Cell a c -> bvals_grav ext3 bl br G A c = stage bl br G a A c.
Proof.
  intros bl br G a A c OK OP H.
  assert (K3 : forall d, pre_dom G Cell A3 d -> bvals_grav ext3 bl br G A d = stage bl br G A3 A d).
  { intros d P. unfold bvals_grav, stage. apply gphys_active; auto; [apply pre_step; auto|apply pre_act; auto]. }
  assert (K2 : forall d, pre_dom G Cell A2 d -> bvals_grav ext3 bl br G A d = stage bl br G A2 A d).
  { intros d P. rewrite K3 by (apply s23, pre_step; auto). unfold stage. apply gphys_active; auto; [apply pre_step; auto|apply pre_act; auto]. }
  destruct a; auto. rewrite K2 by (apply s12, pre_step; auto). unfold stage. apply gphys_active; auto; [apply pre_step; auto|apply pre_act; auto].
Qed.
Lemma stage_step : forall bl br G a A c, geom_ok G -> open_ok bl br G -> step_dom G Cell a c ->
  bvals_grav ext3 bl br G A c = gphys_axis ext3 bl br G a (stage bl br G a A) c.
Proof.
  intros bl br G a A c OK OP S. destruct a.
  - rewrite (stage_pre bl br G A2) by (auto; apply s12; auto). reflexivity.
  - rewrite (stage_pre bl br G A3) by (auto; apply s23; auto). reflexivity.
  - reflexivity.
Qed.
(** The result is a fixed point of every axis on its domain. *)
Lemma fix_eq : forall bl br G a A c, geom_ok G -> open_ok bl br G -> step_dom G Cell a c ->
  bvals_grav ext3 bl br G A c = axisv ext3 bl br G a (bvals_grav ext3 bl br G A) c.
Proof.
  intros bl br G a A c OK OP S. rewrite (stage_step bl br G a A c) by auto. rewrite gaxis_step by auto.
  apply axisv_ext; auto. intros d P. symmetry. apply stage_pre; auto.
Qed.
Lemma last_step : forall G a c, last_ghost G a c -> step_dom G Cell a c.
Proof.
  intros G a c (E & N & A & L) b. specialize (E b). destruct (axis_eqb b a) eqn:Q; [exact E|]. cbn [orb].
  destruct (before b a) eqn:B; [exact E|]. apply L. destruct a, b; cbn in *; congruence.
Qed.
Lemma step_exists : forall G a c, geom_ok G -> step_dom G Cell a c -> exists_ G Cell c.
Proof. intros G a c (O & _) S b. specialize (S b). destruct (_ || _); auto. apply act_ext; auto. Qed.
Lemma upd_step : forall G a c y, geom_ok G -> 1 < g_N G a -> step_dom G Cell a c -> fst_ G a - g_ng G <= y <= lst_ G a + g_ng G -> step_dom G Cell a (upd a c y).
Proof. intros G a c y OK N S Y. apply step_upd; auto. apply ext_cell; auto. Qed.

(** C97: bvals_grav leaves the active cells alone ... *)
Theorem C97_active_unchanged : forall bl br G A c, geom_ok G -> open_ok bl br G -> active G Cell c -> bvals_grav ext3 bl br G A c = A c.
Proof.
  intros bl br G A c OK OP H. rewrite (stage_pre bl br G A1) by (auto; intros a; specialize (H a); destruct a; exact H). reflexivity.
Qed.
(** ... and gives every ghost zone the value its boundary condition prescribes. *)
Theorem C97_ghost_zones : forall bl br G A, geom_ok G -> open_ok bl br G -> filled ext3 bl br G (bvals_grav ext3 bl br G A).
Proof.
  intros bl br G A OK OP a c LG. assert (S := last_step _ _ _ LG). destruct LG as (E & N & NA & L).
  assert (NG := ng_le _ _ OK N). assert (EQ := lst_fst G a N). assert (X := step_ext _ _ _ S). apply ext_cell in X; auto.
  set (R := bvals_grav ext3 bl br G A).
  assert (FX : forall y, fst_ G a - g_ng G <= y <= lst_ G a + g_ng G -> R (upd a c y) = axisv ext3 bl br G a R (upd a c y)).
  { intros y Y. apply fix_eq; auto. apply upd_step; auto. }
  split; intros Q.
  - assert (VL : forall y, fst_ G a - g_ng G <= y < fst_ G a -> R (upd a c y) = rowv ext3 (bl a) false G a (fun z => R (upd a c z)) y).
    { intros y Y. rewrite FX by lia. unfold axisv. rewrite (gt1 _ N), co_upd. destruct (Z.ltb_spec y (fst_ G a)); [|lia]. apply rowv_ext. intros z. rewrite upd_upd. reflexivity. }
    assert (VC := VL (co a c) ltac:(lia)). rewrite upd_same in VC.
    unfold left_cond. destruct (bl a) eqn:B; cbn [rowv] in VC; [exact VC|exact VC|].
    assert (O3 : 3 <= g_N G a) by (destruct (OP a (or_introl B)); lia). cbn [rowv] in VL.
    set (u := fun k => R (upd a c (fst_ G a + Z.of_nat k))) in *.
    assert (U : forall n, (n <= Z.to_nat (g_ng G))%nat -> openv ext3 u n = R (upd a c (fst_ G a - Z.of_nat n))).
    { intros [|n] Hn; [unfold openv, u; cbn [oiter fst]; f_equal; f_equal; lia|]. rewrite VL by lia. f_equal. lia. }
    destruct (Z.to_nat (fst_ G a - co a c)) as [|n] eqn:En; [lia|]. rewrite VC, openv_S. f_equal.
    + rewrite U by lia. f_equal. f_equal. lia.
    + destruct n as [|n]; [unfold u; f_equal; f_equal; lia|rewrite U by lia; f_equal; f_equal; lia].
    + destruct n as [|[|n]]; [unfold u; f_equal; f_equal; lia|unfold u; f_equal; f_equal; lia|rewrite U by lia; f_equal; f_equal; lia].
  - assert (VL : forall y, lst_ G a < y <= lst_ G a + g_ng G -> R (upd a c y) = rowv ext3 (br a) true G a (fun z => R (upd a c z)) y).
    { intros y Y. rewrite FX by lia. unfold axisv. rewrite (gt1 _ N), co_upd. destruct (Z.ltb_spec y (fst_ G a)); [lia|]. destruct (Z.ltb_spec (lst_ G a) y); [|lia]. apply rowv_ext. intros z. rewrite upd_upd. reflexivity. }
    assert (VC := VL (co a c) ltac:(lia)). rewrite upd_same in VC.
    unfold right_cond. destruct (br a) eqn:B; cbn [rowv] in VC; [exact VC|exact VC|].
    assert (O3 : 3 <= g_N G a) by (destruct (OP a (or_intror B)); lia). cbn [rowv] in VL.
    set (u := fun k => R (upd a c (lst_ G a - Z.of_nat k))) in *.
    assert (U : forall n, (n <= Z.to_nat (g_ng G))%nat -> openv ext3 u n = R (upd a c (lst_ G a + Z.of_nat n))).
    { intros [|n] Hn; [unfold openv, u; cbn [oiter fst]; f_equal; f_equal; lia|]. rewrite VL by lia. f_equal. lia. }
    destruct (Z.to_nat (co a c - lst_ G a)) as [|n] eqn:En; [lia|]. rewrite VC, openv_S. f_equal.
    + rewrite U by lia. f_equal. f_equal. lia.
    + destruct n as [|n]; [unfold u; f_equal; f_equal; lia|rewrite U by lia; f_equal; f_equal; lia].
    + destruct n as [|[|n]]; [unfold u; f_equal; f_equal; lia|unfold u; f_equal; f_equal; lia|rewrite U by lia; f_equal; f_equal; lia].
Qed.
(** The conditions leave no freedom: the active cells determine the ghost zones. *)
Theorem C97_determined : forall bl br G (R R' : arr F), geom_ok G -> open_ok bl br G -> filled ext3 bl br G R -> filled ext3 bl br G R' ->
  (forall c, active G Cell c -> R c = R' c) -> forall c, exists_ G Cell c -> R c = R' c.
Proof.
  intros bl br G R R' OK OP H H' A.
  assert (K : forall a, (forall c, pre_dom G Cell a c -> R c = R' c) -> forall c, step_dom G Cell a c -> R c = R' c).
  { intros a P c S. destruct (Z_le_gt_dec (g_N G a) 1) as [N|N]; [apply P, step_pre; auto; apply ext_act1; auto; apply step_ext; auto|].
    assert (N' : 1 < g_N G a) by lia. assert (NG := ng_le _ _ OK N'). assert (EQ := lst_fst G a N').
    assert (IN : forall y, fst_ G a <= y <= lst_ G a -> R (upd a c y) = R' (upd a c y)) by (intros y Y; apply P, step_upd'; auto; apply act_cell; auto).
    assert (LG : forall y, fst_ G a - g_ng G <= y <= lst_ G a + g_ng G -> (y < fst_ G a \/ lst_ G a < y) -> last_ghost G a (upd a c y)).
    { intros y Y Q. assert (S' := upd_step G a c y OK N' S Y). split; [apply (step_exists G a); auto|]. split; auto. rewrite co_upd. split.
      - destruct (act G Cell a y) eqn:E; auto. apply act_cell in E. lia.
      - intros b B. specialize (S' b). replace (axis_eqb b a || before b a) with false in S' by (destruct a, b; cbn in *; congruence). exact S'. }
    assert (IL : forall n y, (Z.to_nat (fst_ G a - y) <= n)%nat -> fst_ G a - g_ng G <= y <= lst_ G a -> R (upd a c y) = R' (upd a c y)).
    { induction n as [|n IH]; intros y Hn Y; [apply IN; lia|]. destruct (Z_lt_ge_dec y (fst_ G a)) as [Q|Q]; [|apply IN; lia].
      assert (C := proj1 (H a _ (LG y ltac:(lia) ltac:(lia)))). assert (C' := proj1 (H' a _ (LG y ltac:(lia) ltac:(lia)))). rewrite co_upd in C, C'. specialize (C Q). specialize (C' Q).
      unfold left_cond in C, C'. rewrite co_upd, ?upd_upd in C, C'. destruct (bl a) eqn:B; rewrite C, C'.
      - apply IN. lia.
      - apply IN. lia.
      - assert (3 <= g_N G a) by (destruct (OP a (or_introl B)); lia). f_equal; apply IH; lia. }
    assert (IR : forall n y, (Z.to_nat (y - lst_ G a) <= n)%nat -> fst_ G a <= y <= lst_ G a + g_ng G -> R (upd a c y) = R' (upd a c y)).
    { induction n as [|n IH]; intros y Hn Y; [apply IN; lia|]. destruct (Z_lt_ge_dec (lst_ G a) y) as [Q|Q]; [|apply IN; lia].
      assert (C := proj2 (H a _ (LG y ltac:(lia) ltac:(lia)))). assert (C' := proj2 (H' a _ (LG y ltac:(lia) ltac:(lia)))). rewrite co_upd in C, C'. specialize (C Q). specialize (C' Q).
      unfold right_cond in C, C'. rewrite co_upd, ?upd_upd in C, C'. destruct (br a) eqn:B; rewrite C, C'.
      - apply IN. lia.
      - apply IN. lia.
      - assert (3 <= g_N G a) by (destruct (OP a (or_intror B)); lia). f_equal; apply IH; lia. }
    assert (X := step_ext _ _ _ S). apply ext_cell in X; auto. rewrite <- (upd_same a c).
    destruct (Z_le_gt_dec (co a c) (lst_ G a)); [apply (IL _ _ (le_n _)); lia|apply (IR _ _ (le_n _)); lia]. }
  intros c E. apply (K A3); [|apply dom3; auto]. intros d P. apply (K A2); [|apply dom2; auto]. intros d2 P2. apply (K A1); [|apply dom1; auto].
  intros d1 P1. apply A, dom0, P1.
Qed.

(** ** Several Grids *)
Lemma unpack_recv : forall a right G, unpack_Phi a right G = vU (recv right a G).
Proof. intros [] [] G; reflexivity. Qed.
Lemma pack_send : forall a right G, pack_Phi a right G = vU (if right then send_r a G else send_l a G).
Proof. intros [] [] G; reflexivity. Qed.
Lemma unpackP_ok : forall (B : arr F) sh L A, unpackP L (map B (map sh L)) A = Some (run (writes B sh L) A).
Proof. intros B sh L A. unfold unpackP. rewrite <- (app_nil_r (map B (map sh L))), rd_words_ok. reflexivity. Qed.
Lemma recvP_l : forall a G H (h A : arr F), geom_ok G -> beside a G H ->
  exists A', unpackP (unpack_Phi a false G) (map h (pack_Phi a true H)) A = Some A' /\
  forall c, A' c = if gbox false G a c then h (upd a c (co a c + g_N H a)) else A c.
Proof.
  intros a G H h A OK B. rewrite unpack_recv, pack_send. assert (M := match_r a G H Cell B). unfold vget in M. rewrite M. change (recv_l a G) with (recv false a G).
  eexists. split; [apply unpackP_ok|]. intros c. apply (run_writes _ h (fun c => upd a c (co a c + g_N H a)) (vU (recv false a G)) A (gbox false G a)).
  apply (recv_box (F := unit) (fun x => x) tt false a G Cell OK). apply B.
Qed.
Lemma recvP_r : forall a G H (h A : arr F), geom_ok G -> beside a G H ->
  exists A', unpackP (unpack_Phi a true G) (map h (pack_Phi a false H)) A = Some A' /\
  forall c, A' c = if gbox true G a c then h (upd a c (co a c - g_N G a)) else A c.
Proof.
  intros a G H h A OK B. rewrite unpack_recv, pack_send. assert (M := match_l a G H Cell B). unfold vget in M. rewrite M. change (recv_r a G) with (recv true a G).
  eexists. split; [apply unpackP_ok|]. intros c. apply (run_writes _ h (fun c => upd a c (co a c - g_N G a)) (vU (recv true a G)) A (gbox true G a)).
  apply (recv_box (F := unit) (fun x => x) tt true a G Cell OK). apply B.
Qed.
Definition gnbr : Type := (geom * arr F)%type.
Definition gnbr_ok (a : axis) (G : geom) (o : option gnbr) : Prop := match o with None => True | Some p => beside a G (fst p) end.
Definition gval (bl br : axis -> gbc) (G : geom) (a : axis) (L R : option gnbr) (A : arr F) (c : idx) : F :=
  let x := co a c in let p y := A (upd a c y) in
  if g_N G a >? 1 then
    if x <? fst_ G a then match L with Some q => snd q (upd a c (x + g_N (fst q) a)) | None => rowv ext3 (bl a) false G a p x end
    else if lst_ G a <? x then match R with Some q => snd q (upd a c (x - g_N G a)) | None => rowv ext3 (br a) true G a p x end
    else A c
  else A c.
Lemma gmpi_spec : forall bl br G a swap L R A, geom_ok G -> gnbr_ok a G L -> gnbr_ok a G R ->
  (L = None -> bl a = GOpen -> g_N G a <= 1 \/ 3 <= g_N G a) -> (R = None -> br a = GOpen -> g_N G a <= 1 \/ 3 <= g_N G a) ->
  exists A', gmpi_axis ext3 bl br G a swap (option_map (fun q => map (snd q) (pack_Phi a true (fst q))) L) (option_map (fun q => map (snd q) (pack_Phi a false (fst q))) R) A = Some A' /\
    forall c, step_dom G Cell a c -> A' c = gval bl br G a L R A c.
Proof.
  intros bl br G a swap L R A OK HL HR OL OR. unfold gmpi_axis, gval. destruct (Z.gtb_spec (g_N G a) 1) as [N|N]; [|eexists; split; [reflexivity|auto]].
  assert (NG := ng_le _ _ OK N). assert (EQ := lst_fst G a N).
  assert (BX : forall right c, step_dom G Cell a c -> gbox right G a c = (if right then lst_ G a <? co a c else co a c <? fst_ G a)) by (intros; apply gbox_iff; auto).
  assert (INL : forall c y, fst_ G a <= y <= lst_ G a -> gbox false G a (upd a c y) = false) by (intros c y Y; apply out_row; rewrite bx_aa; apply rng_false; lia).
  assert (INR : forall c y, fst_ G a <= y <= lst_ G a -> gbox true G a (upd a c y) = false) by (intros c y Y; apply out_row; rewrite bx_aa; apply rng_false; lia).
  assert (EX : forall c, step_dom G Cell a c -> fst_ G a - g_ng G <= co a c <= lst_ G a + g_ng G) by (intros c S; apply ext_cell; auto; apply step_ext; auto).
  destruct L as [[H h]|], R as [[J j]|]; cbn [option_map fst snd] in *.
  - destruct swap.
    + destruct (recvP_r a G J j A OK HR) as (A1 & E1 & V1). destruct (recvP_l a G H h A1 OK HL) as (A2 & E2 & V2). rewrite E1. cbn [obind]. exists A2. split; auto.
      intros c S. rewrite V2, V1, !BX by auto. destruct (co a c <? fst_ G a); auto.
    + destruct (recvP_l a G H h A OK HL) as (A1 & E1 & V1). destruct (recvP_r a G J j A1 OK HR) as (A2 & E2 & V2). rewrite E1. cbn [obind]. exists A2. split; auto.
      intros c S. rewrite V2, V1, !BX by auto. destruct (Z.ltb_spec (lst_ G a) (co a c)), (Z.ltb_spec (co a c) (fst_ G a)); auto; lia.
  - assert (O3 : br a = GOpen -> 3 <= g_N G a) by (intros B; destruct (OR eq_refl B); lia).
    destruct (recvP_l a G H h (grun ext3 (gbc_fun (br a) a true G) A) OK HL) as (A1 & E1 & V1). exists A1. split; auto.
    intros c S. rewrite V1, side_val, !BX by auto. reflexivity.
  - assert (O3 : bl a = GOpen -> 3 <= g_N G a) by (intros B; destruct (OL eq_refl B); lia).
    destruct (recvP_r a G J j (grun ext3 (gbc_fun (bl a) a false G) A) OK HR) as (A1 & E1 & V1). exists A1. split; auto.
    intros c S. rewrite V1, side_val, !BX by auto. destruct (Z.ltb_spec (lst_ G a) (co a c)), (Z.ltb_spec (co a c) (fst_ G a)); auto; lia.
  - assert (O3 : br a = GOpen -> 3 <= g_N G a) by (intros B; destruct (OR eq_refl B); lia).
    assert (O3' : bl a = GOpen -> 3 <= g_N G a) by (intros B; destruct (OL eq_refl B); lia).
    eexists. split; [reflexivity|]. intros c S. specialize (EX c S).
    rewrite side_val by auto. rewrite (BX true) by auto. destruct (Z.ltb_spec (lst_ G a) (co a c)) as [Q|Q].
    + destruct (Z.ltb_spec (co a c) (fst_ G a)); [lia|]. apply rowv_ext2; auto; try lia. intros y Y. rewrite side_val by auto. rewrite INL by auto. reflexivity.
    + rewrite side_val by auto. rewrite (BX false) by auto. reflexivity.
Qed.
(** Open sides need three cells in every Grid. *)
Definition open_dec (bl br : axis -> gbc) (D : decomp) : Prop :=
  forall a, bl a = GOpen \/ br a = GOpen -> total D a = 1 \/ forall l, (l < d_NG D a)%nat -> 3 <= d_size D a l.
Lemma gexchange_step : forall bl br D a swap (st : gpos -> arr F) W, dec_ok D -> same_bc D (fun a => nb_of (bl a)) (fun a => nb_of (br a)) -> open_dec bl br D ->
  (forall g, on_domain D g -> forall c, pre_dom (geo D g) Cell a c -> st g c = W (glob D g c)) ->
  forall g, on_domain D g -> exists f', gexchange ext3 bl br D a swap st g = Some f' /\
    forall c, step_dom (geo D g) Cell a c -> f' c = gphys_axis ext3 bl br (dgeo D) a W (glob D g c).
Proof.
  intros bl br D a swap st W OK BC OP AG g V.
  set (nl := left_nb (fun a => nb_of (bl a)) D a g). set (nr := right_nb (fun a => nb_of (br a)) D a g).
  set (nb h := (geo D h, st h)). set (L := option_map nb nl). set (R := option_map nb nr).
  assert (GOK := geo_ok D OK g V). assert (DOK := dgeo_ok D OK).
  assert (LV : forall h, nl = Some h -> exists l, h = gupd a g l /\ (l < d_NG D a)%nat).
  { intros h H. unfold nl, left_nb in H. assert (Q := V a). destruct (Nat.ltb_spec 0 (gco a g)); [exists (Nat.pred (gco a g)); split; [congruence|lia]|].
    destruct (_ && _); [|discriminate]. exists (Nat.pred (d_NG D a)). split; [congruence|lia]. }
  assert (RV : forall h, nr = Some h -> exists l, h = gupd a g l /\ (l < d_NG D a)%nat).
  { intros h H. unfold nr, right_nb in H. assert (Q := V a). destruct (Nat.ltb_spec (S (gco a g)) (d_NG D a)); [exists (S (gco a g)); split; [congruence|lia]|].
    destruct (_ && _); [|discriminate]. exists 0%nat. split; [congruence|lia]. }
  assert (DN : forall h, (nl = Some h \/ nr = Some h) -> 1 < total D a).
  { intros h H. destruct (Z.le_gt_cases (total D a) 1) as [T|T]; [|lia]. destruct (one_facts D OK a (gco a g) T (V a)) as (Q1 & Q2 & _).
    exfalso. unfold nl, nr, left_nb, right_nb in H. rewrite Q1, Q2 in H. rewrite !andb_false_r in H. cbn in H. destruct H; discriminate. }
  assert (NL : gnbr_ok a (geo D g) L).
  { unfold L, gnbr_ok. destruct nl as [h|] eqn:E; cbn [option_map]; auto. destruct (LV h eq_refl) as (l & -> & Hl). apply beside_gupd; eauto. }
  assert (NR : gnbr_ok a (geo D g) R).
  { unfold R, gnbr_ok. destruct nr as [h|] eqn:E; cbn [option_map]; auto. destruct (RV h eq_refl) as (l & -> & Hl). apply beside_gupd; eauto. }
  assert (O3 : bl a = GOpen \/ br a = GOpen -> g_N (geo D g) a <= 1 \/ 3 <= g_N (geo D g) a).
  { intros Q. rewrite g_N_geo. destruct (OP a Q) as [T|T]; [|right; apply T; apply V]. left. destruct (one_facts D OK a (gco a g) ltac:(lia) (V a)) as (_ & _ & Z & _). lia. }
  destruct (gmpi_spec bl br (geo D g) a (swap g) L R (st g) GOK NL NR ltac:(auto) ltac:(auto)) as (f' & E & M).
  exists f'. split.
  { unfold gexchange. rewrite (inbox_l _ _ D a g (fun h => map (st h) (pack_Phi a true (geo D h))) BC V), (inbox_r _ _ D a g (fun h => map (st h) (pack_Phi a false (geo D h))) BC V). cbn [obind].
    rewrite <- E. fold nl nr. f_equal; unfold L, R, nb; [destruct nl|destruct nr]; reflexivity. }
  intros c SD. rewrite M by auto. clear M E f'.
  assert (XA := step_ext _ _ _ SD). assert (OT := fun a' => step_others _ _ _ _ a' SD).
  assert (SG : step_dom (dgeo D) Cell a (glob D g c)).
  { intros a'. specialize (SD a'). rewrite co_glob. destruct (_ || _); [apply ext_glob|apply act_glob]; auto. }
  assert (OPG : open_ok bl br (dgeo D)).
  { intros b Q. rewrite g_N_dgeo. destruct (OP b Q) as [T|T]; [lia|]. right. destruct (Z.le_gt_cases (total D b) 1) as [T1|T1].
    - destruct (one_facts D OK b (gco b g) T1 (V b)) as (_ & _ & Z & _). specialize (T _ (V b)). lia.
    - assert (E0 : (0 < d_NG D b)%nat) by (assert (Vb := V b); lia). specialize (T 0%nat E0). destruct (pos_facts D OK b 0%nat ltac:(lia) E0) as (_ & _ & P0 & _ & P5 & P6 & _).
      specialize (P0 eq_refl). assert (G := proj1 OK). destruct (Nat.eq_dec 1 (d_NG D b)) as [e|e]; [specialize (P5 e)|specialize (P6 ltac:(lia))]; lia. }
  rewrite gaxis_step by auto. unfold axisv, gval. rewrite co_glob. set (x := co a c) in *. set (o := disp D a (gco a g)).
  destruct (Z.le_gt_cases (total D a) 1) as [T|T].
  { destruct (ends1 D OK a g T V) as (E1 & E2 & E3 & E4 & E5 & E6 & E7). rewrite E1, E2. apply AG; auto. apply step_pre; auto. apply ext_act1; auto.
    rewrite g_N_geo. destruct (one_facts D OK a (gco a g) T (V a)) as (_ & _ & Z & _). lia. }
  assert (T' : 1 < total D a) by lia. clear T.
  destruct (ends D OK a g T' V) as (E1 & E2 & E3 & E4 & E5 & E6).
  destruct (pos_facts D OK a (gco a g) T' (V a)) as (P1 & P2 & P3 & P4 & P5 & P6 & P7). fold o in P3, P4, P5, P6, P7.
  assert (G1 := proj1 OK).
  assert (NB : 1 < g_N (geo D g) a) by (rewrite g_N_geo; auto). apply ext_cell in XA; auto. change (g_ng (geo D g)) with (d_ng D) in XA. rewrite E3, E5 in XA. rewrite E1, E2.
  assert (NGv : g_N (geo D g) a = d_size D a (gco a g)) by apply g_N_geo. assert (NDv : g_N (dgeo D) a = total D a) by apply g_N_dgeo.
  set (N := d_size D a (gco a g)) in *. set (ng := d_ng D) in *. set (T := total D a) in *. assert (Vl := V a).
  assert (OWN : forall y, ng <= y <= N + ng - 1 -> st g (upd a c y) = W (upd a (glob D g c) (y + o))).
  { intros y Y. rewrite (AG g V). { rewrite glob_upd. reflexivity. } apply pre_upd; auto. apply act_cell. rewrite E3, E5. lia. }
  assert (OTH : forall l y, (l < d_NG D a)%nat -> ng <= y <= d_size D a l + ng - 1 -> st (gupd a g l) (upd a c y) = W (upd a (glob D g c) (y + disp D a l))).
  { intros l y Hl Y. assert (V' := on_gupd D g a l V Hl). rewrite (AG _ V'). { rewrite glob_gupd. reflexivity. }
    apply pre_upd.
    - destruct (ends D OK a (gupd a g l) T' V') as (F1 & _ & F3 & _ & F5 & _). apply act_cell. rewrite F3, F5, gco_gupd. fold ng. lia.
    - intros a' Na. rewrite geo_gupd_ext, geo_gupd_act by auto. auto. }
  assert (NoffR : (S (gco a g) < d_NG D a)%nat \/ S (gco a g) = d_NG D a) by lia.
  assert (ON : o + N <= T) by (destruct NoffR; [specialize (P6 ltac:(auto))|specialize (P5 ltac:(auto))]; lia).
  assert (SELF : ng <= x <= N + ng - 1 -> st g c = W (glob D g c)).
  { intros Y. rewrite <- (upd_same a c) at 1. rewrite OWN by auto. f_equal. unfold x, o. rewrite <- co_glob. apply upd_same. }
  rewrite E3, E4, E5, E6. fold ng N T.
  destruct (Z.ltb_spec x ng) as [XL|XL].
  - unfold L, nl, left_nb. destruct (Nat.ltb_spec 0 (gco a g)) as [Lg|Lg]; cbn [option_map nb fst snd].
    + specialize (P4 Lg). set (l := Nat.pred (gco a g)). assert (Hl : gco a g = S l) by (unfold l; lia).
      rewrite g_N_geo, gco_gupd. destruct (pos_facts D OK a l T' ltac:(lia)) as (Q1 & Q2 & _). fold ng in Q2.
      assert (Eo : o = disp D a l + d_size D a l) by (unfold o; rewrite Hl; reflexivity).
      rewrite OTH by lia. destruct (Z.ltb_spec (x + o) ng); [lia|]. destruct (Z.ltb_spec (T + ng - 1) (x + o)); [lia|].
      f_equal. rewrite <- (upd_same a (glob D g c)) at 2. f_equal. rewrite co_glob. fold x o. lia.
    + specialize (P3 ltac:(lia)). destruct (Z.ltb_spec (x + o) ng) as [_|]; [|lia].
      destruct (is_peri (nb_of (bl a)) && (1 <? d_NG D a)%nat) eqn:Q; cbn [option_map nb fst snd].
      * apply andb_true_iff in Q. destruct Q as [Qp Qn]. apply Nat.ltb_lt in Qn. destruct (bl a); cbn in Qp; try discriminate. cbn [rowv].
        set (l := Nat.pred (d_NG D a)). rewrite g_N_geo, gco_gupd. destruct (pos_facts D OK a l T' ltac:(lia)) as (Q1 & Q2 & _ & _ & Q5 & _). fold ng in Q2. fold T in Q5.
        specialize (Q5 ltac:(unfold l; lia)). rewrite OTH by (unfold l in *; lia). rewrite NDv. f_equal. f_equal. lia.
      * unfold rowv. rewrite ?E3, ?E4, ?E5, ?E6, ?NGv, ?NDv. fold T.
        destruct (bl a) eqn:B.
        -- rewrite OWN by lia. f_equal. f_equal. lia.
        -- cbn [nb_of is_peri andb] in Q. apply Nat.ltb_ge in Q. specialize (P5 ltac:(lia)). rewrite OWN by lia. f_equal. f_equal. lia.
        -- assert (3 <= N) by (destruct (O3 (or_introl eq_refl)); lia). replace (ng - (x + o)) with (ng - x) by lia. apply openv_ext. intros k Hk. rewrite OWN by lia. f_equal. f_equal. lia.
  - destruct (Z.ltb_spec (N + ng - 1) x) as [XR|XR].
    + unfold R, nr, right_nb. destruct (Nat.ltb_spec (S (gco a g)) (d_NG D a)) as [Rg|Rg]; cbn [option_map nb fst snd].
      * specialize (P6 Rg). destruct (pos_facts D OK a (S (gco a g)) T' Rg) as (Q1 & Q2 & _). fold ng in Q2.
        rewrite NGv. rewrite OTH by lia. cbn [disp]. fold o N. destruct (Z.ltb_spec (x + o) ng); [lia|]. destruct (Z.ltb_spec (T + ng - 1) (x + o)); [lia|].
        f_equal. rewrite <- (upd_same a (glob D g c)) at 2. f_equal. rewrite co_glob. fold x o. lia.
      * specialize (P5 ltac:(lia)). destruct (Z.ltb_spec (x + o) ng); [lia|]. destruct (Z.ltb_spec (T + ng - 1) (x + o)); [|lia].
        destruct (is_peri (nb_of (br a)) && (1 <? d_NG D a)%nat) eqn:Q; cbn [option_map nb fst snd].
        -- apply andb_true_iff in Q. destruct Q as [Qp Qn]. apply Nat.ltb_lt in Qn. destruct (br a); cbn in Qp; try discriminate. cbn [rowv].
           destruct (pos_facts D OK a 0%nat T' ltac:(lia)) as (Q1 & Q2 & _). fold ng in Q2.
           rewrite NGv, OTH by lia. cbn [disp]. rewrite NDv. f_equal. f_equal. lia.
        -- unfold rowv. rewrite ?E3, ?E4, ?E5, ?E6, ?NGv, ?NDv. fold T. destruct (br a) eqn:B.
           ++ rewrite OWN by lia. f_equal. f_equal. lia.
           ++ cbn [nb_of is_peri andb] in Q. apply Nat.ltb_ge in Q. specialize (P3 ltac:(lia)). rewrite OWN by lia. f_equal. f_equal. lia.
           ++ assert (3 <= N) by (destruct (O3 (or_intror eq_refl)); lia). replace (x + o - (T + ng - 1)) with (x - (N + ng - 1)) by lia. apply openv_ext. intros k Hk. rewrite OWN by lia. f_equal. f_equal. lia.
    + destruct (Z.ltb_spec (x + o) ng); [lia|]. destruct (Z.ltb_spec (T + ng - 1) (x + o)); [lia|]. apply SELF. lia.
Qed.

Lemma gexchange_ok : forall bl br D a swap (st : gpos -> arr F), dec_ok D -> same_bc D (fun a => nb_of (bl a)) (fun a => nb_of (br a)) -> open_dec bl br D ->
  forall g, on_domain D g -> exists f', gexchange ext3 bl br D a swap st g = Some f' /\ True.
Proof.
  intros bl br D a swap st OK BC OP g V.
  set (nl := left_nb (fun a => nb_of (bl a)) D a g). set (nr := right_nb (fun a => nb_of (br a)) D a g).
  set (nb h := (geo D h, st h)).
  assert (DN : forall h, (nl = Some h \/ nr = Some h) -> 1 < total D a).
  { intros h H. destruct (Z.le_gt_cases (total D a) 1) as [T|T]; [|lia]. destruct (one_facts D OK a (gco a g) T (V a)) as (Q1 & Q2 & _).
    exfalso. unfold nl, nr, left_nb, right_nb in H. rewrite Q1, Q2 in H. rewrite !andb_false_r in H. cbn in H. destruct H; discriminate. }
  assert (NL : gnbr_ok a (geo D g) (option_map nb nl)).
  { unfold gnbr_ok. destruct nl as [h|] eqn:E; cbn [option_map]; auto. assert (T := DN h (or_introl eq_refl)). unfold nl, left_nb in E. specialize (V a) as Va.
    destruct (Nat.ltb_spec 0 (gco a g)); [|destruct (_ && _); [|discriminate]]; injection E as <-; apply beside_gupd; auto; lia. }
  assert (NR : gnbr_ok a (geo D g) (option_map nb nr)).
  { unfold gnbr_ok. destruct nr as [h|] eqn:E; cbn [option_map]; auto. assert (T := DN h (or_intror eq_refl)). unfold nr, right_nb in E. specialize (V a) as Va.
    destruct (Nat.ltb_spec (S (gco a g)) (d_NG D a)); [|destruct (_ && _); [|discriminate]]; injection E as <-; apply beside_gupd; auto; lia. }
  assert (O3 : bl a = GOpen \/ br a = GOpen -> g_N (geo D g) a <= 1 \/ 3 <= g_N (geo D g) a).
  { intros Q. rewrite g_N_geo. destruct (OP a Q) as [T|T]; [|right; apply T; apply V]. left. destruct (one_facts D OK a (gco a g) ltac:(lia) (V a)) as (_ & _ & Z & _). lia. }
  destruct (gmpi_spec bl br (geo D g) a (swap g) _ _ (st g) (geo_ok D OK g V) NL NR ltac:(auto) ltac:(auto)) as (f' & E & _).
  exists f'. split; [|exact I]. unfold gexchange. rewrite (inbox_l _ _ D a g (fun h => map (st h) (pack_Phi a true (geo D h))) BC V), (inbox_r _ _ D a g (fun h => map (st h) (pack_Phi a false (geo D h))) BC V). cbn [obind].
  rewrite <- E. fold nl nr. f_equal; unfold nb; [destruct nl|destruct nr]; reflexivity.
Qed.
Lemma gchoose : forall (P : gpos -> Prop) (Q : gpos -> arr F -> Prop) (o : gpos -> option (arr F)) (dflt : arr F),
  (forall g, P g -> exists f, o g = Some f /\ Q g f) -> exists st, forall g, P g -> o g = Some (st g) /\ Q g (st g).
Proof.
  intros P Q o dflt H. exists (fun g => match o g with Some f => f | None => dflt end). intros g V.
  destruct (H g V) as (f & E & K). rewrite E. auto.
Qed.
(** No Grid waits for ever ... *)
Theorem C97_completes : forall bl br D swap (st : gpos -> arr F), dec_ok D -> same_bc D (fun a => nb_of (bl a)) (fun a => nb_of (br a)) -> open_dec bl br D ->
  exists st', bvals_grav_all ext3 bl br D swap st st'.
Proof.
  intros bl br D swap st OK BC OP.
  assert (K : forall a s, exists s', gexchanged ext3 bl br D a (swap a) s s').
  { intros a s. destruct (gchoose (on_domain D) (fun _ _ => True) _ (s (0, 0, 0)%nat) (gexchange_ok bl br D a (swap a) s OK BC OP)) as (s' & H). exists s'. intros g V. apply H. exact V. }
  destruct (K A1 st) as (s1 & H1). destruct (K A2 s1) as (s2 & H2). destruct (K A3 s2) as (s3 & H3). exists s3, s1, s2. auto.
Qed.
(** ... and the potential of every Grid, ghost zones included, is that of the undivided Domain,
    whatever the order in which the messages arrive. *)
Theorem C97_decomposition : forall bl br D swap (st st' : gpos -> arr F) W, dec_ok D -> same_bc D (fun a => nb_of (bl a)) (fun a => nb_of (br a)) -> open_dec bl br D ->
  (forall g c, on_domain D g -> active (geo D g) Cell c -> st g c = W (glob D g c)) ->
  bvals_grav_all ext3 bl br D swap st st' ->
  forall g c, on_domain D g -> exists_ (geo D g) Cell c -> st' g c = bvals_grav ext3 bl br (dgeo D) W (glob D g c).
Proof.
  intros bl br D swap st st' W OK BC OP AC (s1 & s2 & H1 & H2 & H3) g c V EX.
  assert (K : forall a s s' U, (forall g, on_domain D g -> forall c, pre_dom (geo D g) Cell a c -> s g c = U (glob D g c)) -> gexchanged ext3 bl br D a (swap a) s s' ->
    forall g, on_domain D g -> forall c, step_dom (geo D g) Cell a c -> s' g c = gphys_axis ext3 bl br (dgeo D) a U (glob D g c)).
  { intros a s s' U AG HE h Vh d S. destruct (gexchange_step bl br D a (swap a) s U OK BC OP AG h Vh) as (f & E & M). rewrite (HE h Vh) in E. injection E as <-. apply M. exact S. }
  unfold bvals_grav. apply (K A3 s2); auto; [|apply dom3; auto]. intros g2 V2 c2 P2. apply (K A2 s1); auto; [|apply dom2; auto].
  intros g1 V1 c1 P1. apply (K A1 st); auto; [|apply dom1; auto]. intros g0 V0 c0 P0. apply AC; auto. apply dom0; auto.
Qed.
End Phi.
Print Assumptions C97_active_unchanged.
Print Assumptions C97_ghost_zones.
Print Assumptions C97_determined.
Print Assumptions C97_completes.
Print Assumptions C97_decomposition.

(** Messages have the length announced to MPI and fit in the buffers. *)
Theorem C97_message_length : forall right a G, geom_ok G -> dims_ordered G -> 1 < g_N G a ->
  Z.of_nat (length (pack_Phi a right G)) = cnt_Phi a G /\ Z.of_nat (length (unpack_Phi a right G)) = cnt_Phi a G.
Proof.
  intros right a G (Hng & HN1 & HN) DO N. assert (N2 := HN A2). assert (N3 := HN A3). unfold dims_ordered in DO. cbn [g_N] in *.
  assert (E1 : (g_N1 G >? 1) = true) by (apply gt1; lia).
  assert (C : (g_N2 G = 1 /\ g_N3 G = 1 /\ (g_N2 G >? 1) = false /\ (g_N3 G >? 1) = false) \/ (1 < g_N2 G /\ g_N3 G = 1 /\ (g_N2 G >? 1) = true /\ (g_N3 G >? 1) = false) \/
    (1 < g_N2 G /\ 1 < g_N3 G /\ (g_N2 G >? 1) = true /\ (g_N3 G >? 1) = true)).
  { rewrite !Z.gtb_ltb. destruct (Z.ltb_spec 1 (g_N2 G)), (Z.ltb_spec 1 (g_N3 G)); lia. }
  unfold pack_Phi, unpack_Phi, cnt_Phi.
  destruct right, a; cbn [g_N] in N; unfold g_is, g_ie, g_js, g_je, g_ks, g_ke;
    destruct C as [(Q2 & Q3 & K2 & K3)|[(Q2 & Q3 & K2 & K3)|(Q2 & Q3 & K2 & K3)]]; rewrite ?E1, ?K2, ?K3; try lia;
    rewrite !len3 by lia; rewrite ?Q2, ?Q3; split; ring.
Qed.
Theorem C97_buffer_size : forall gs G axes a, In (G, axes) gs -> In a axes -> geom_ok G -> dims_ordered G -> 1 < g_N G a ->
  cnt_Phi a G <= buf_size_Phi (g_ng G) gs.
Proof.
  intros gs G axes a I J (Hng & HN1 & HN) DO N. unfold buf_size_Phi.
  assert (M := maxs_in gs 0 (G, axes) a I J). cbn [fst] in M. set (big := fold_left _ gs 0) in *.
  assert (K : cnt_Phi a G <= area G a * g_ng G).
  { assert (N2 := HN A2). assert (N3 := HN A3). unfold dims_ordered in DO. cbn [g_N] in *. unfold cnt_Phi, area. rewrite (gt1 (g_N1 G)) by lia.
    rewrite !Z.gtb_ltb. destruct a; cbn [g_N] in N; destruct (Z.ltb_spec 1 (g_N2 G)), (Z.ltb_spec 1 (g_N3 G)); try lia;
    repeat match goal with H : _ \/ _ |- _ => destruct H; try lia end; nia. }
  nia.
Qed.
Print Assumptions C97_message_length.
Print Assumptions C97_buffer_size.

(** Periodic on one side only, with several Grids: some process waits for ever. *)
Theorem C97_one_sided_periodic_refuted : forall F (ext3 : F -> F -> F -> F) bl br D swap st st' a, dec_ok D -> (1 < d_NG D a)%nat ->
  is_peri (nb_of (bl a)) <> is_peri (nb_of (br a)) -> ~ bvals_grav_all ext3 bl br D swap st st'.
Proof.
  intros F ext3 bl br D swap st st' a OK N NE (s1 & s2 & H1 & H2 & H3).
  assert (P : forall b, (0 < d_NG D b)%nat) by (intros b; apply (proj2 (proj2 OK) b)).
  assert (K : forall s s', ~ gexchanged ext3 bl br D a (swap a) s s').
  { intros s s' H.
    set (g0 := ((0, 0, 0)%nat : gpos)). set (g1 := gupd a g0 (Nat.pred (d_NG D a))).
    assert (V0 : on_domain D g0) by (intros b; destruct b; cbn; apply P).
    assert (V1 : on_domain D g1) by (apply on_gupd; auto; lia).
    assert (E0 : gco a g0 = 0%nat) by (destruct a; reflexivity).
    assert (E1 : gco a g1 = Nat.pred (d_NG D a)) by (apply gco_gupd).
    assert (LT : (1 <? d_NG D a)%nat = true) by (apply Nat.ltb_lt; auto).
    destruct (is_peri (nb_of (bl a))) eqn:PL, (is_peri (nb_of (br a))) eqn:PR; try congruence.
    - specialize (H g0 V0). unfold gexchange in H. unfold left_nb at 1 in H. rewrite E0, PL, LT in H. cbn [Nat.ltb Nat.leb andb inbox] in H.
      fold g1 in H. unfold right_nb at 1 in H. rewrite E1, Nat.succ_pred in H by lia. rewrite Nat.ltb_irrefl, PR in H. discriminate H.
    - specialize (H g1 V1). unfold gexchange in H. cbv zeta in H.
      destruct (inbox (left_nb (fun a => nb_of (bl a)) D a g1) _ _ g1); [|discriminate]. cbn [obind] in H.
      unfold right_nb at 1 in H. rewrite E1, Nat.succ_pred in H by lia. rewrite Nat.ltb_irrefl, PR, LT in H. cbn [andb inbox] in H.
      assert (Q : gupd a g1 0 = g0) by (unfold g1; rewrite gupd_gupd; destruct a; reflexivity). rewrite Q in H.
      unfold left_nb in H. rewrite E0, PL in H. discriminate H. }
  destruct a; eapply K; eauto.
Qed.
Print Assumptions C97_one_sided_periodic_refuted.

(** Over the reals, open sides continue every potential that is at most quadratic along each axis exactly. *)
Definition quad3 (a b c : R) : R := (3 * a - 3 * b + c)%R.
Theorem C97_open_exact : forall G (A q : arr R), geom_ok G -> (forall a, g_N G a <= 1 \/ 3 <= g_N G a) ->
  (forall a c, q (upd a c (co a c + 3)) - 3 * q (upd a c (co a c + 2)) + 3 * q (upd a c (co a c + 1)) - q c = 0)%R ->
  (forall c, active G Cell c -> A c = q c) ->
  forall c, exists_ G Cell c -> bvals_grav quad3 (fun _ => GOpen) (fun _ => GOpen) G A c = q c.
Proof.
  intros G A q OK N3 Q AC. assert (OP : open_ok (fun _ => GOpen) (fun _ => GOpen) G) by (intros a _; apply N3).
  apply (C97_determined quad3 (fun _ => GOpen) (fun _ => GOpen) G); auto.
  - apply C97_ghost_zones; auto.
  - intros a c _. split; intros _; unfold left_cond, right_cond, quad3.
    + specialize (Q a c). lra.
    + specialize (Q a (upd a c (co a c - 3))). rewrite co_upd, !upd_upd in Q.
      replace (co a c - 3 + 3) with (co a c) in Q by lia. replace (co a c - 3 + 2) with (co a c - 1) in Q by lia. replace (co a c - 3 + 1) with (co a c - 2) in Q by lia.
      rewrite upd_same in Q. lra.
  - intros c H. rewrite C97_active_unchanged; auto.
Qed.
Print Assumptions C97_open_exact.
(** With two cells the extrapolation reads a ghost zone of the other side that has not been set yet. *)
Theorem C97_open_two_cells_refuted : exists G (A A' : arr R), geom_ok G /\ (forall c, active G Cell c -> A c = A' c) /\
  exists c, exists_ G Cell c /\ bvals_grav quad3 (fun _ => GOpen) (fun _ => GOpen) G A c <> bvals_grav quad3 (fun _ => GOpen) (fun _ => GOpen) G A' c.
Proof.
  exists (Geom 2 2 1 1), (fun _ => 0%R), (fun c => if idx_eqb c (0, 0, 4) then 1%R else 0%R). split; [|split].
  - repeat split; cbn; try lia. intros []; cbn; lia.
  - intros [[k j] i] H. assert (X := H A1). apply act_cell in X. cbn in X. unfold idx_eqb. destruct (Z.eqb_spec i 4); [lia|]. rewrite andb_false_r. reflexivity.
  - exists (0, 0, 1). split; [intros []; reflexivity|]. 
    assert (E : forall A : arr R, bvals_grav quad3 (fun _ => GOpen) (fun _ => GOpen) (Geom 2 2 1 1) A (0, 0, 1) = quad3 (A (0, 0, 2)) (A (0, 0, 3)) (A (0, 0, 4))) by (intros A; reflexivity).
    rewrite !E. cbn. unfold quad3. lra.
Qed.
Print Assumptions C97_open_two_cells_refuted.
(** Outflow (flag 2) is refused unless the solver is the open one, so the flags of the gas determine those of the potential. *)
Theorem C97_flags : forall o f b, gbc_of_flag o f = Some b <->
  (o = true /\ b = GOpen) \/ (o = false /\ ((b = GRefl /\ (f = 1 \/ f = 5)) \/ (b = GPeri /\ f = 4))).
Proof.
  intros [] f b; unfold gbc_of_flag.
  - split; [intros H; injection H as <-; auto|intros [[_ ->]|[H _]]; [reflexivity|discriminate]].
  - split.
    + intros H. right. split; auto. destruct f as [|[[p|[p|p|]|]|[p|[p|p|]|]|]|p]; try discriminate H; injection H as <-; auto.
    + intros [[H _]|[_ [[-> [->| ->]]|[-> ->]]]]; [discriminate|reflexivity|reflexivity|reflexivity].
Qed.
Print Assumptions C97_flags.

(** ** Examples *)
Definition pbl (a : axis) : gbc := match a with A1 => GPeri | A2 => GOpen | A3 => GRefl end.
Definition pbr (a : axis) : gbc := match a with A1 => GPeri | A2 => GRefl | A3 => GOpen end.
Definition pD : decomp := Dec 2 (fun a => match a with A3 => 1 | _ => 2 end)%nat (fun a l => match a, l with A3, _ => 1 | A2, _ => 3 | _, O => 3 | _, _ => 2 end).
Definition pW : arr Z := fun c => match c with (k, j, i) => 100 * j * j + i end.
Example pD_ok : dec_ok pD /\ same_bc pD (fun a => nb_of (pbl a)) (fun a => nb_of (pbr a)) /\ open_dec pbl pbr pD /\
  geom_ok (dgeo pD) /\ open_ok pbl pbr (dgeo pD) /\ exists_ (dgeo pD) Cell (0, 0, 0) /\ last_ghost (dgeo pD) A2 (0, 0, 0).
Proof.
  split; [|split; [|split; [|split; [|split; [|split]]]]].
  - split; [cbn; lia|]. split; [cbn; lia|]. intros []; (split; [cbn; lia|]); cbn.
    + right. intros [|[|l]] H; lia.
    + right. intros [|[|l]] H; lia.
    + left. auto.
  - intros [] H; reflexivity.
  - intros [] H; cbn in *; try (destruct H; discriminate); [right|left; reflexivity]. intros [|[|l]] Hl; lia.
  - repeat split; cbn; try lia. intros []; cbn; lia.
  - intros [] H; cbn in *; try (destruct H; discriminate); lia.
  - intros []; reflexivity.
  - split; [intros []; reflexivity|]. split; [reflexivity|]. split; [reflexivity|]. intros []; cbn; congruence.
Qed.
Example p_values : let R := bvals_grav (fun a b c => 3 * a - 3 * b + c) pbl pbr (dgeo pD) pW in
  R (0, 0, 3) = 3 /\ R (0, 1, 3) = 103 /\ R (0, 8, 3) = 4903 /\ R (0, 9, 3) = 3603 /\ R (0, 0, 0) = 5 /\ R (0, 3, 7) = 902.
Proof. vm_compute. auto 10. Qed.
Example p_exact : exists q : arr R, (forall a c, q (upd a c (co a c + 3)) - 3 * q (upd a c (co a c + 2)) + 3 * q (upd a c (co a c + 1)) - q c = 0)%R /\
  q (0, 1, 2) = 4%R /\ q (0, 1, 1) <> q (0, 1, 0).
Proof.
  exists (fun c => match c with (k, j, i) => IZR (i * i * j + j * i - j - 1 + k * k) end). split.
  - intros a [[k j] i]. destruct a; cbn [upd co]; rewrite <- !mult_IZR, <- !minus_IZR, <- !plus_IZR, <- !minus_IZR; f_equal; ring.
  - split; cbn; [reflexivity|]. intros E. apply eq_IZR in E. discriminate.
Qed.
