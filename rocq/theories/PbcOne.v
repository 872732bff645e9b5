(** One particle through the three sweeps and the final clean-up. *)
From Coq Require Import ZArith Bool Reals Lra Lia ZifyBool List Permutation.
From Verif Require Import CStr MeshModel PosModel PosProps GasModel PartModel PartSort PbcModel PbcFacts PbcList PbcPerm PbcSpec PbcMove.
Import ListNotations.
Open Scope R_scope.

Lemma comp_coord : forall ax x, comp ax x = coord ax x.
Proof. intros [| |] x; reflexivity. Qed.

Section World.
Variables (W : pworld) (HW : world W) (H3 : x3_works W).
Notation ins := (ins W).

Lemma limits_eq : forall r ax, l_xlo (limits W r) ax = glo W r ax /\ l_xup (limits W r) ax = gup W r ax.
Proof.
  intros r ax. unfold limits, grid_limit. cbn [l_xlo l_xup p_MinX p_dx p_s]. change (4 - 1)%Z with 3%Z. pose proof (cells W HW ax) as C. unfold glo, gup, open_lo, open_up.
  unfold x3_works, multi in H3.
  destruct ax.
  - rewrite Z.gtb_ltb. destruct (Z.ltb_spec 1 (w_Nx W X1)), (Z.eqb_spec (w_Nx W X1) 1); try lia; cbn [andb]; change (3 * 1)%Z with 3%Z; change (3 * 0)%Z with 0%Z;
      destruct (is_out (w_bci W X1) && _), (is_out (w_bco W X1) && _); split; lra.
  - rewrite Z.gtb_ltb. destruct (Z.ltb_spec 1 (w_Nx W X2)), (Z.eqb_spec (w_Nx W X2) 1); try lia; cbn [andb]; change (3 * 1)%Z with 3%Z; change (3 * 0)%Z with 0%Z;
      destruct (is_out (w_bci W X2) && _), (is_out (w_bco W X2) && _); split; lra.
  - rewrite !Z.gtb_ltb. destruct H3 as [Q1 Q2].
    assert (E2 : is_out (w_bco W X3) = true -> (1 <? w_Nx W X2)%Z = (1 <? w_Nx W X3)%Z). { intros O. destruct (w_bco W X3); try discriminate. specialize (Q2 eq_refl). lia. }
    assert (E1 : (1 <? w_Nx W X3)%Z = true -> is_out (w_bci W X3) = false). { intros O. destruct (w_bci W X3); auto. destruct Q1 as [Q1 _]; [lia|congruence]. }
    destruct (is_out (w_bco W X3)); [rewrite (E2 eq_refl)|]; cbn [andb]; destruct (Z.ltb_spec 1 (w_Nx W X3)), (Z.eqb_spec (w_Nx W X3) 1); try lia; cbn [andb];
      rewrite ?E1 by auto; cbn [andb]; change (3 * 1)%Z with 3%Z; change (3 * 0)%Z with 0%Z; destruct (is_out (w_bci W X3)), (ridx X3 r =? 0)%Z, (ridx X3 r =? w_N W X3 - 1)%Z; cbn [andb]; split; lra.
Qed.

(** ** The final clean-up *)
Definition here (it : rank * grain) : Prop := forall ax, ins ax it.
Lemma fin_here : forall it, (10 <= g_pos (snd it))%Z -> here it -> fin W it = [(fst it, set_pos (snd it) 1)].
Proof.
  intros [r g] HP H. unfold fin. cbn [fst snd] in *. unfold new_status. cbv zeta. replace (g_pos g >=? 10)%Z with true by lia.
  pose proof (H X1) as I1. pose proof (H X2) as I2. pose proof (H X3) as I3. unfold PbcMove.ins, inside in *. cbn [fst snd comp] in *.
  rewrite !(proj1 (limits_eq r _)), !(proj2 (limits_eq r _)). rewrite !ge_f, !lt_f by lra. reflexivity.
Qed.
Lemma fin_dead : forall it ax, (10 <= g_pos (snd it))%Z -> ~ ins ax it -> fin W it = [].
Proof.
  intros [r g] ax HP H. unfold fin. cbn [fst snd] in *. unfold new_status. cbv zeta. replace (g_pos g >=? 10)%Z with true by lia.
  rewrite !(proj1 (limits_eq r _)), !(proj2 (limits_eq r _)). unfold PbcMove.ins, inside in H. cbn [fst snd] in H.
  assert (O : ge (comp ax (g_x g)) (gup W r ax) || lt (comp ax (g_x g)) (glo W r ax) = true).
  { unfold ge, lt. destruct (Rle_dec (gup W r ax) (comp ax (g_x g))), (Rlt_dec (comp ax (g_x g)) (glo W r ax)); auto. exfalso. apply H. lra. }
  assert (E : ge (q1 (g_x g)) (gup W r X1) || lt (q1 (g_x g)) (glo W r X1) || ge (q2 (g_x g)) (gup W r X2) || lt (q2 (g_x g)) (glo W r X2) || ge (q3 (g_x g)) (gup W r X3) || lt (q3 (g_x g)) (glo W r X3) = true).
  { destruct ax; cbn [comp] in O; apply orb_true_iff in O as [O|O]; rewrite O; rewrite ?orb_true_r; auto. }
  rewrite E. reflexivity.
Qed.

(** ** The copies *)
Definition spr (ax : axis) (it : rank * grain) : list (rank * grain) := if (w_Nx W ax >? 1)%Z then spread W ax it else [it].
Lemma spread_same : forall ax it it2, (10 <= g_pos (snd it))%Z -> In it2 (spread W ax it) -> same_but ax it it2 /\ (10 <= g_pos (snd it2))%Z.
Proof.
  intros ax [r g] it2 HP H. pose proof (axnum_range ax) as AR. unfold spread in H. cbn [In] in H. destruct H as [<-|H]; [split; [apply same_refl|auto]|]. apply in_app_iff in H as [H|H]; cbn [cpR cpL] in H.
  - rewrite sox_eq in H. destruct (_ && _); [|contradiction H]. destruct (has_r W r ax).
    + unfold shR in H. destruct (_ && _); cbn [In] in H; destruct H as [<-|[]]; (split; [|cbn [snd shiftx set_pos g_pos]; lia]).
      * apply same_shift. intros. apply ridx_right; auto.
      * apply same_pos. intros. apply ridx_right; auto.
    + destruct (w_bco W ax); cbn [In] in H; try contradiction H; destruct H as [<-|[]]; (split; [|cbn [snd shiftx mirror set_pos g_pos]; lia]).
      * apply same_mirror.
      * apply same_shift. auto.
  - rewrite six_eq in H. destruct (_ && _); [|contradiction H]. destruct (has_l W r ax).
    + unfold shL in H. destruct (_ && _); cbn [In] in H; destruct H as [<-|[]]; (split; [|cbn [snd shiftx set_pos g_pos]; lia]).
      * apply same_shift. intros. apply ridx_left; auto.
      * apply same_pos. intros. apply ridx_left; auto.
    + destruct (w_bci W ax); cbn [In] in H; try contradiction H; destruct H as [<-|[]]; (split; [|cbn [snd shiftx mirror set_pos g_pos]; lia]).
      * apply same_mirror.
      * apply same_shift. auto.
Qed.
Lemma ins_same : forall ax b it it2, same_but ax it it2 -> b <> ax -> (ins b it2 <-> ins b it).
Proof.
  intros ax b it it2 (H & _) N. destruct (H b N) as (E1 & E2 & _). unfold PbcMove.ins, inside, glo, gup, gMin, gMax. rewrite E1, E2. tauto.
Qed.
Definition F3 (it : rank * grain) := flat_map (fin W) (spr X3 it).
Definition F2 (it : rank * grain) := flat_map F3 (spr X2 it).
Definition F1 (it : rank * grain) := flat_map F2 (spr X1 it).
Lemma flat_none : forall A B (f : A -> list B) l, (forall x, In x l -> f x = []) -> flat_map f l = [].
Proof. intros A B f l H. induction l; cbn; auto. rewrite H, IHl; cbn; auto. intros; apply H; cbn; auto. Qed.
Lemma F3_dead : forall it ax, (10 <= g_pos (snd it))%Z -> ax <> X3 -> ~ ins ax it -> F3 it = [].
Proof.
  intros it ax HP N H. apply flat_none. intros it2 Hi. unfold spr in Hi. destruct (_ >? _)%Z; [|destruct Hi as [<-|[]]; apply fin_dead with (ax := ax); auto].
  destruct (spread_same X3 it it2 HP Hi) as [S P]. apply fin_dead with (ax := ax); auto. rewrite (ins_same X3 ax it it2 S N). auto.
Qed.
Lemma F2_dead : forall it, (10 <= g_pos (snd it))%Z -> ~ ins X1 it -> F2 it = [].
Proof.
  intros it HP H. apply flat_none. intros it2 Hi. unfold spr in Hi. destruct (_ >? _)%Z; [|destruct Hi as [<-|[]]; apply F3_dead with (ax := X1); auto; congruence].
  destruct (spread_same X2 it it2 HP Hi) as [S P]. apply F3_dead with (ax := X1); auto; try congruence. rewrite (ins_same X2 X1 it it2 S); auto. congruence.
Qed.

(** ** One axis, with or without several cells *)
Definition shut (ax : axis) : Prop := multi W ax -> closed W ax.
Definition result' (ax : axis) (it it' : rank * grain) : Prop :=
  in_box W (fst it') /\ same_but ax it it' /\ (10 <= g_pos (snd it') < 24)%Z /\
  (g_pos (snd it') = g_pos (snd it) \/ g_pos (snd it') = (10 + axnum ax)%Z \/ g_pos (snd it') = (20 + axnum ax)%Z) /\
  (comp ax (g_x (snd it')), comp ax (g_v (snd it'))) = placed W ax (comp ax (g_x (snd it))) (comp ax (g_v (snd it))) /\
  ((ins ax it' <-> within (dlo W ax) (dup W ax) (comp ax (g_x (snd it'))) = true) /\ (shut ax -> ins ax it')) /\
  (spr ax it = [it'] \/ spr ax it = [it; it'] /\ ~ ins ax it).
Definition near (ax : axis) (it : rank * grain) : Prop :=
  if (1 <? w_Nx W ax)%Z then reach W (fst it) ax (comp ax (g_x (snd it))) else inside W (fst it) (snd it) ax.
Lemma step_any : forall it ax, in_box W (fst it) -> (10 <= g_pos (snd it) < 24)%Z -> g_pos (snd it) <> (10 + axnum ax)%Z -> g_pos (snd it) <> (20 + axnum ax)%Z ->
  near ax it -> exists it', result' ax it it'.
Proof.
  intros [r g] ax HB HP N1 N2 H. cbn [fst snd] in *. unfold near in H. cbn [fst snd] in H. destruct (Z.ltb_spec 1 (w_Nx W ax)) as [M|M].
  - destruct (step_axis W HW H3 r g ax HB M HP N1 N2 H) as (it' & A & B & C & D & E & (F & F') & G). exists it'. unfold result', placed, spr, shut. rewrite Z.gtb_ltb. replace (1 <? w_Nx W ax)%Z with true by lia.
    repeat (split; [assumption|]). split; [split; [assumption|]|assumption]. intros Q. apply F', Q, M.
  - exists (r, g). unfold result', placed, spr. rewrite Z.gtb_ltb. replace (1 <? w_Nx W ax)%Z with false by lia. cbn [fst snd].
    split; [auto|]. split; [apply same_refl|]. split; [lia|]. split; [auto|]. split; [auto|]. split; [|auto].
    assert (I : ins ax (r, g)) by exact H. split; [|auto].
    pose proof (cells W HW ax) as C. pose proof (single W HW ax ltac:(lia)) as S1. pose proof (HB ax) as B.
    rewrite within_true. unfold PbcMove.ins, inside, glo, gup, dlo, dup, open_lo, open_up, gMin, gMax, Dmin, Dmax. cbn [fst snd]. replace (1 <? w_Nx W ax)%Z with false by lia. cbn [andb].
    replace (ridx ax r) with 0%Z by lia. rewrite S1. change (0 + 1)%Z with 1%Z. lra.
Qed.
Lemma near_same : forall ax b it it', same_but ax it it' -> b <> ax -> near b it -> near b it'.
Proof.
  intros ax b [r g] [r' g'] (H & _) N HN. destruct (H b N) as (E1 & E2 & _). cbn [fst snd] in *. unfold near in *. cbn [fst snd] in *.
  assert (E3 : has_l W r' b = has_l W r b) by (unfold has_l; rewrite E1; auto). assert (E4 : has_r W r' b = has_r W r b) by (unfold has_r; rewrite E1; auto).
  assert (E5 : gMin W r' b = gMin W r b) by (unfold gMin; rewrite E1; auto). assert (E6 : gMax W r' b = gMax W r b) by (unfold gMax; rewrite E1; auto).
  assert (E7 : width_l W r' b = width_l W r b).
  { unfold width_l, width. rewrite E3. destruct (has_l W r b); [|rewrite E5, E6; auto]. unfold gMin, gMax, left_of. rewrite !ridx_rset, !Z.eqb_refl, E1. auto. }
  assert (E8 : width_r W r' b = width_r W r b).
  { unfold width_r, width. rewrite E4. destruct (has_r W r b); [|rewrite E5, E6; auto]. unfold gMin, gMax, right_of. rewrite !ridx_rset, !Z.eqb_refl, E1. auto. }
  destruct (_ <? _)%Z.
  - unfold reach in *. rewrite E2, E3, E4, E5, E6, E7, E8. auto.
  - unfold inside, glo, gup in *. rewrite E1, E2, E5, E6. auto.
Qed.

(** ** All three axes *)
Lemma grain_eta : forall g x v t p i, comp X1 (g_x g) = q1 x -> comp X2 (g_x g) = q2 x -> comp X3 (g_x g) = q3 x ->
  comp X1 (g_v g) = q1 v -> comp X2 (g_v g) = q2 v -> comp X3 (g_v g) = q3 v -> g_type g = t -> g_id g = i -> set_pos g p = Grain x v t p i.
Proof. intros [[x1 x2 x3] [v1 v2 v3] ty po id] [] [] t p i; cbn; intros; subst; reflexivity. Qed.
Lemma ne12 : X2 <> X1. Proof. discriminate. Qed.
Lemma ne13 : X3 <> X1. Proof. discriminate. Qed.
Lemma ne23 : X3 <> X2. Proof. discriminate. Qed.

Lemma one_marked : forall r g, in_box W r -> g_pos g = 10%Z -> (forall ax, near ax (r, g)) ->
  exists l, F1 (r, g) = l /\ map snd l = fate W g /\ (forall it, In it l -> in_box W (fst it) /\ g_pos (snd it) = 1%Z /\ here it) /\ ((forall ax, shut ax) -> fate W g = [image W g]).
Proof.
  intros r g HB HP HN. set (it0 := (r, g)) in *.
  destruct (step_any it0 X1) as (it1 & A1 & B1 & C1 & D1 & E1 & (I1 & J1) & G1); auto; try (cbn; lia).
  destruct (step_any it1 X2) as (it2 & A2 & B2 & C2 & D2 & E2 & (I2 & J2) & G2); auto; try (cbn [axnum it0 snd] in *; lia). { apply (near_same X1 X2 it0); auto. apply ne12. }
  destruct (step_any it2 X3) as (it3 & A3 & B3 & C3 & D3 & E3 & (I3 & J3) & G3); auto; try (cbn [axnum it0 snd] in *; lia).
  { apply (near_same X2 X3 it1); auto; [apply ne23|]. apply (near_same X1 X3 it0); auto. apply ne13. }
  assert (Q1 : F1 it0 = F2 it1). { unfold F1. destruct G1 as [->|[-> N]]; cbn [flat_map]; rewrite ?app_nil_r; auto. rewrite F2_dead; auto. cbn; lia. }
  assert (Q2 : F2 it1 = F3 it2). { unfold F2. destruct G2 as [->|[-> N]]; cbn [flat_map]; rewrite ?app_nil_r; auto. rewrite (F3_dead it1 X2); auto; [lia|discriminate]. }
  assert (Q3 : F3 it2 = fin W it3). { unfold F3. destruct G3 as [->|[-> N]]; cbn [flat_map]; rewrite ?app_nil_r; auto. rewrite (fin_dead it2 X3); auto; lia. }
  exists (fin W it3). rewrite Q1, Q2, Q3. split; auto.
  destruct (proj1 B1 X2 ne12) as (_ & X12 & V12). destruct (proj1 B1 X3 ne13) as (_ & X13 & V13). destruct (proj1 B2 X3 ne23) as (_ & X23 & V23).
  destruct (proj1 B2 X1 (not_eq_sym ne12)) as (_ & X21 & V21). destruct (proj1 B3 X1 (not_eq_sym ne13)) as (_ & X31 & V31). destruct (proj1 B3 X2 (not_eq_sym ne23)) as (_ & X32 & V32).
  assert (K1 : ins X1 it3 <-> ins X1 it1). { rewrite (ins_same X3 X1 it2 it3 B3), (ins_same X2 X1 it1 it2 B2); [tauto|discriminate|discriminate]. }
  assert (K2 : ins X2 it3 <-> ins X2 it2). { rewrite (ins_same X3 X2 it2 it3 B3); [tauto|discriminate]. }
  destruct B1 as (B1 & T1 & D1'), B2 as (B2 & T2 & D2'), B3 as (B3 & T3 & D3').
  rewrite X12, V12 in E2. rewrite X23, X13, V23, V13 in E3.
  assert (IM : set_pos (snd it3) 1 = image W g).
  { unfold image. cbv zeta. cbn [it0 snd] in *. rewrite <- E1, <- E2, <- E3. cbn [fst snd]. apply grain_eta; cbn [q1 q2 q3]; congruence. }
  assert (P1 : comp X1 (g_x (snd it1)) = q1 (g_x (image W g))) by (rewrite <- IM; cbn [set_pos g_x comp] in *; congruence).
  assert (P2 : comp X2 (g_x (snd it2)) = q2 (g_x (image W g))) by (rewrite <- IM; cbn [set_pos g_x comp] in *; congruence).
  assert (P3 : comp X3 (g_x (snd it3)) = q3 (g_x (image W g))) by (rewrite <- IM; cbn [set_pos g_x comp] in *; congruence).
  rewrite P1 in I1. rewrite P2 in I2. rewrite P3 in I3. unfold fate.
  split; [|split].
  - destruct (within (dlo W X1) (dup W X1) (q1 (g_x (image W g)))) eqn:W1; cbn [andb].
    2:{ rewrite (fin_dead it3 X1); auto; [lia|]. rewrite K1, I1. congruence. }
    destruct (within (dlo W X2) (dup W X2) (q2 (g_x (image W g)))) eqn:W2; cbn [andb].
    2:{ rewrite (fin_dead it3 X2); auto; [lia|]. rewrite K2, I2. congruence. }
    destruct (within (dlo W X3) (dup W X3) (q3 (g_x (image W g)))) eqn:W3; cbn [andb].
    2:{ rewrite (fin_dead it3 X3); auto; [lia|]. rewrite I3. congruence. }
    rewrite fin_here; [cbn [map snd]; rewrite IM; auto|lia|]. intros [| |]; [apply K1, I1|apply K2, I2|apply I3]; auto.
  - intros it Hit. assert (HH : here it3).
    { intros ax. unfold PbcMove.ins. destruct (Rle_dec (glo W (fst it3) ax) (comp ax (g_x (snd it3)))), (Rlt_dec (comp ax (g_x (snd it3))) (gup W (fst it3) ax)); try (split; assumption);
      exfalso; rewrite (fin_dead it3 ax) in Hit; try (exact Hit); try lia; unfold PbcMove.ins, inside; tauto. }
    rewrite fin_here in Hit; auto; [|lia]. destruct Hit as [<-|[]]. cbn [fst snd set_pos g_pos]. split; auto.
  - intros Q. rewrite (proj1 I1), (proj1 I2), (proj1 I3); auto.
Qed.
Lemma cp_none : forall ax r g, g_pos g = 1%Z -> spread W ax (r, g) = [(r, g)].
Proof. intros ax r g H. unfold spread. cbn [cpR cpL]. rewrite sox_eq, six_eq, H. reflexivity. Qed.
Lemma one_inside : forall r g, in_box W r -> g_pos g = 1%Z -> here (r, g) -> F1 (r, g) = [(r, g)] /\ fate W g = [g] /\ image W g = g.
Proof.
  intros r g HB HP H. assert (S : forall ax, spr ax (r, g) = [(r, g)]). { intros ax. unfold spr. destruct (_ >? _)%Z; auto. apply cp_none; auto. }
  split.
  { unfold F1, F2, F3. rewrite !S. cbn [flat_map]. rewrite !S. cbn [flat_map]. rewrite S. cbn [flat_map]. rewrite !app_nil_r. unfold fin, new_status. cbn [fst snd]. rewrite HP. cbn [Z.geb Z.compare Pos.compare Pos.compare_cont].
    unfold ghost. rewrite HP. reflexivity. }
  assert (P : forall ax v, placed W ax (comp ax (g_x g)) v = (comp ax (g_x g), v) /\ within (dlo W ax) (dup W ax) (comp ax (g_x g)) = true).
  { intros ax v. specialize (H ax). unfold PbcMove.ins, inside in H. cbn [fst snd] in H. pose proof (HB ax) as B. pose proof (sizes W HW ax) as DX.
    pose proof (gmin_lt W HW r ax HB). pose proof (dmin_le W HW r ax HB). pose proof (dmax_ge W HW r ax HB). pose proof (dlo_le W HW ax). pose proof (dup_ge W HW ax). rewrite within_true.
    unfold glo, gup, dlo, dup, placed, place, open_lo, open_up in *. pose proof (cells W HW ax) as C. 
    destruct (Z.ltb_spec 1 (w_Nx W ax)) as [M|M]; cbn [andb] in *.
    - assert (L : is_out (w_bci W ax) && (ridx ax r =? 0)%Z = true -> gMin W r ax = Dmin W ax). { intros Q. unfold gMin, Dmin. f_equal. lia. }
      assert (U : is_out (w_bco W ax) && (ridx ax r =? w_N W ax - 1)%Z = true -> gMax W r ax = Dmax W ax). { intros Q. unfold gMax, Dmax. f_equal. lia. }
      destruct (Rle_dec (Dmax W ax) (comp ax (g_x g))).
      + destruct (w_bco W ax); cbn [is_out andb] in *; try lra. destruct (ridx ax r =? w_N W ax - 1)%Z; [|lra]. specialize (U eq_refl).
        split; auto. destruct (is_out (w_bci W ax)), (ridx ax r =? 0)%Z; cbn [andb] in *; lra.
      + destruct (Rlt_dec (comp ax (g_x g)) (Dmin W ax)).
        * destruct (w_bci W ax); cbn [is_out andb] in *; try lra. destruct (ridx ax r =? 0)%Z; [|lra]. specialize (L eq_refl).
          split; auto. destruct (is_out (w_bco W ax)), (ridx ax r =? w_N W ax - 1)%Z; cbn [andb] in *; lra.
        * split; auto. destruct (is_out (w_bco W ax)), (is_out (w_bci W ax)); cbn [andb] in *; lra.
    - split; auto. pose proof (single W HW ax ltac:(lia)) as S1.
      assert (E1 : gMin W r ax = Dmin W ax) by (unfold gMin, Dmin; f_equal; lia). assert (E2 : gMax W r ax = Dmax W ax) by (unfold gMax, Dmax; f_equal; lia). lra. }
  assert (IM : image W g = g).
  { unfold image. cbv zeta. rewrite (proj1 (P X1 _)), (proj1 (P X2 _)), (proj1 (P X3 _)). cbn [fst snd]. rewrite <- HP. destruct g as [[] [] ? ? ?]; reflexivity. }
  split; auto. unfold fate. rewrite IM. pose proof (proj2 (P X1 0)) as W1. pose proof (proj2 (P X2 0)) as W2. pose proof (proj2 (P X3 0)) as W3. cbn [comp] in *. rewrite W1, W2, W3. reflexivity.
Qed.
Lemma one : forall r g, in_box W r -> moved W r g ->
  map snd (F1 (r, g)) = fate W g /\ (forall it, In it (F1 (r, g)) -> in_box W (fst it) /\ g_pos (snd it) = 1%Z /\ here it) /\ ((forall ax, shut ax) -> fate W g = [image W g]).
Proof.
  intros r g HB [[HP H]|[HP H]].
  - destruct (one_inside r g HB HP H) as (-> & E & E'). split; [auto|]. split; [|congruence]. intros it [<-|[]]. auto.
  - destruct (one_marked r g HB HP) as (l & -> & A & B & C); auto.
Qed.
End World.
