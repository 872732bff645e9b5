(** What becomes of one particle. *)
From Coq Require Import ZArith Bool Reals Lra Lia ZifyBool List Permutation.
From Verif Require Import CStr MeshModel PosModel PosProps GasModel PartModel PartSort PbcModel PbcFacts PbcList PbcPerm PbcSpec.
Import ListNotations.
Open Scope R_scope.

Section World.
Variables (W : pworld) (HW : world W) (H3 : x3_works W).

Lemma edge_mono : forall ax m l, (0 <= l)%Z -> (l + Z.of_nat m <= w_N W ax)%Z -> w_edge W ax l <= w_edge W ax (l + Z.of_nat m)%Z.
Proof.
  intros ax m. induction m as [|m IH]; intros l H0 HL. { rewrite Z.add_0_r. lra. }
  specialize (IH l H0). pose proof (tiles W HW ax (l + Z.of_nat m)%Z). replace (l + Z.of_nat (S m))%Z with (l + Z.of_nat m + 1)%Z by lia.
  assert (A : w_edge W ax l <= w_edge W ax (l + Z.of_nat m)%Z) by (apply IH; lia). assert (B : w_edge W ax (l + Z.of_nat m)%Z < w_edge W ax (l + Z.of_nat m + 1)%Z) by (apply H; lia). lra.
Qed.
Lemma edge_le : forall ax l l', (0 <= l <= l')%Z -> (l' <= w_N W ax)%Z -> w_edge W ax l <= w_edge W ax l'.
Proof. intros ax l l' A B. replace l' with (l + Z.of_nat (Z.to_nat (l' - l)))%Z by lia. apply edge_mono; lia. Qed.
Lemma gmin_lt : forall r ax, in_box W r -> gMin W r ax < gMax W r ax.
Proof. intros r ax HB. unfold gMin, gMax. apply (tiles W HW). apply HB. Qed.
Lemma dmin_le : forall r ax, in_box W r -> Dmin W ax <= gMin W r ax.
Proof. intros r ax HB. specialize (HB ax). unfold Dmin, gMin. apply edge_le; lia. Qed.
Lemma dmax_ge : forall r ax, in_box W r -> gMax W r ax <= Dmax W ax.
Proof. intros r ax HB. specialize (HB ax). unfold Dmax, gMax. apply edge_le; lia. Qed.

Definition closed (ax : axis) : Prop := w_bci W ax <> Outflow /\ w_bco W ax <> Outflow.
(** Properties of an item along one axis *)
Definition ins (ax : axis) (it : rank * grain) : Prop := inside W (fst it) (snd it) ax.
Definition same_but (ax : axis) (it it' : rank * grain) : Prop :=
  (forall b, b <> ax -> ridx b (fst it') = ridx b (fst it) /\ comp b (g_x (snd it')) = comp b (g_x (snd it)) /\ comp b (g_v (snd it')) = comp b (g_v (snd it))) /\
  g_type (snd it') = g_type (snd it) /\ g_id (snd it') = g_id (snd it).

Lemma comp_set : forall ax b x r, comp b (set_comp ax x r) = if (axnum b =? axnum ax)%Z then r else comp b x.
Proof. intros [| |] [| |] x r; reflexivity. Qed.
Lemma axnum_ne : forall a b, a <> b -> (axnum a =? axnum b)%Z = false.
Proof. intros [| |] [| |] H; cbn; congruence. Qed.
Lemma same_refl : forall ax it, same_but ax it it.
Proof. intros. repeat split; auto. Qed.
Lemma same_shift : forall ax r r' d g p, (forall b, b <> ax -> ridx b r' = ridx b r) -> same_but ax (r, g) (r', shiftx ax d (set_pos g p)).
Proof. intros ax r r' d g p H. repeat split; cbn [fst snd shiftx set_pos g_x g_v g_type g_id]; auto. rewrite comp_set, axnum_ne by auto. auto. Qed.
Lemma same_mirror : forall ax r d g p, same_but ax (r, g) (r, mirror ax d (set_pos g p)).
Proof. intros ax r d g p. repeat split; cbn [fst snd mirror set_pos g_x g_v g_type g_id]; auto; rewrite comp_set, axnum_ne by auto; auto. Qed.
Lemma same_pos : forall ax r r' g p, (forall b, b <> ax -> ridx b r' = ridx b r) -> same_but ax (r, g) (r', set_pos g p).
Proof. intros ax r r' g p H. repeat split; cbn [fst snd set_pos g_x g_v g_type g_id]; auto. Qed.
Lemma ridx_right : forall ax r b, b <> ax -> ridx b (right_of W ax r) = ridx b r.
Proof. intros. unfold right_of. rewrite ridx_rset, axnum_ne; auto. Qed.
Lemma ridx_left : forall ax r b, b <> ax -> ridx b (left_of W ax r) = ridx b r.
Proof. intros. unfold left_of. rewrite ridx_rset, axnum_ne; auto. Qed.

Definition result (ax : axis) (it it' : rank * grain) : Prop :=
  in_box W (fst it') /\ same_but ax it it' /\ (10 <= g_pos (snd it') < 24)%Z /\
  (g_pos (snd it') = g_pos (snd it) \/ g_pos (snd it') = (10 + axnum ax)%Z \/ g_pos (snd it') = (20 + axnum ax)%Z) /\
  (comp ax (g_x (snd it')), comp ax (g_v (snd it'))) = place W ax (comp ax (g_x (snd it))) (comp ax (g_v (snd it))) /\
  ((ins ax it' <-> within (dlo W ax) (dup W ax) (comp ax (g_x (snd it'))) = true) /\ (closed ax -> ins ax it')) /\
  (spread W ax it = [it'] \/ spread W ax it = [it; it'] /\ ~ ins ax it).

Lemma within_true : forall lo up x, within lo up x = true <-> lo <= x < up.
Proof. intros. unfold within. destruct (Rle_dec lo x), (Rlt_dec x up); cbn; split; intros; try discriminate; try tauto; auto. Qed.
Lemma ge_t : forall x y, y <= x -> ge x y = true.
Proof. intros. unfold ge. destruct (Rle_dec y x); tauto. Qed.
Lemma ge_f : forall x y, x < y -> ge x y = false.
Proof. intros. unfold ge. destruct (Rle_dec y x); auto. lra. Qed.
Lemma lt_t : forall x y, x < y -> lt x y = true.
Proof. intros. unfold lt. destruct (Rlt_dec x y); tauto. Qed.
Lemma lt_f : forall x y, y <= x -> lt x y = false.
Proof. intros. unfold lt. destruct (Rlt_dec x y); auto. lra. Qed.
Lemma glo_le : forall r ax, glo W r ax <= gMin W r ax.
Proof. intros. unfold glo. pose proof (sizes W HW ax). destruct (_ && _); lra. Qed.
Lemma gup_ge : forall r ax, gMax W r ax <= gup W r ax.
Proof. intros. unfold gup. pose proof (sizes W HW ax). destruct (_ && _), (1 <? _)%Z; lra. Qed.
Lemma dlo_le : forall ax, dlo W ax <= Dmin W ax.
Proof. intros. unfold dlo. pose proof (sizes W HW ax). destruct (open_lo W ax); lra. Qed.
Lemma dup_ge : forall ax, Dmax W ax <= dup W ax.
Proof. intros. unfold dup. pose proof (sizes W HW ax). destruct (open_up W ax), (1 <? _)%Z; lra. Qed.
(** A position in the Grid proper is inside, for the Grid and for the Domain. *)
Lemma proper : forall r g ax, in_box W r -> gMin W r ax <= comp ax (g_x g) < gMax W r ax ->
  (ins ax (r, g) <-> within (dlo W ax) (dup W ax) (comp ax (g_x g)) = true) /\ (closed ax -> ins ax (r, g)).
Proof.
  intros r g ax HB H. rewrite within_true. unfold ins, inside. cbn [fst snd].
  pose proof (glo_le r ax). pose proof (gup_ge r ax). pose proof (dlo_le ax). pose proof (dup_ge ax). pose proof (dmin_le r ax HB). pose proof (dmax_ge r ax HB). lra.
Qed.
Lemma paired_W : paired W.
Proof. intros ax. apply (pairs W HW). Qed.

(** No Grid to the right: the last one, and not periodic with several Grids *)
Lemma no_right : forall r ax, in_box W r -> has_r W r ax = false -> ridx ax r = (w_N W ax - 1)%Z /\ gMax W r ax = Dmax W ax.
Proof.
  intros r ax HB H. specialize (HB ax). unfold has_r in H. apply orb_false_iff in H as [H _]. assert (E : ridx ax r = (w_N W ax - 1)%Z) by lia.
  split; auto. unfold gMax, Dmax. f_equal. lia.
Qed.
Lemma no_left : forall r ax, in_box W r -> has_l W r ax = false -> ridx ax r = 0%Z /\ gMin W r ax = Dmin W ax.
Proof.
  intros r ax HB H. specialize (HB ax). unfold has_l in H. apply orb_false_iff in H as [H _]. assert (E : ridx ax r = 0%Z) by lia.
  split; auto. unfold gMin, Dmin. f_equal. lia.
Qed.
Lemma gup_right : forall r ax, multi W ax -> has_r W r ax = true -> gup W r ax = gMax W r ax.
Proof.
  intros r ax HM H. unfold gup, open_up. unfold multi in HM. replace (1 <? w_Nx W ax)%Z with true by lia. cbn [andb].
  destruct (is_out (w_bco W ax)) eqn:O; cbn [andb]; [|lra]. destruct (Z.eqb_spec (ridx ax r) (w_N W ax - 1)) as [E|E]; [|lra].
  exfalso. unfold has_r in H. destruct (w_bco W ax); cbn in O, H; try discriminate. rewrite orb_false_r in H. lia.
Qed.
Lemma glo_left : forall r ax, has_l W r ax = true -> glo W r ax = gMin W r ax.
Proof.
  intros r ax H. unfold glo, open_lo. destruct (is_out (w_bci W ax)) eqn:O; rewrite ?andb_false_r; cbn [andb]; [|lra]. destruct (Z.eqb_spec (ridx ax r) 0) as [E|E]; [|rewrite andb_false_r; lra].
  exfalso. unfold has_l in H. destruct (w_bci W ax); cbn in O, H; try discriminate. rewrite orb_false_r in H. lia.
Qed.
Lemma gup_out : forall r ax, multi W ax -> w_bco W ax <> Outflow -> gup W r ax = gMax W r ax.
Proof. intros r ax HM H. unfold gup, open_up. unfold multi in HM. replace (1 <? w_Nx W ax)%Z with true by lia. destruct (w_bco W ax); try congruence; cbn; lra. Qed.
Lemma glo_out : forall r ax, w_bci W ax <> Outflow -> glo W r ax = gMin W r ax.
Proof. intros r ax H. unfold glo, open_lo. destruct (w_bci W ax); try congruence; cbn; rewrite andb_false_r; cbn; lra. Qed.

Lemma step_axis : forall r g ax, in_box W r -> multi W ax -> (10 <= g_pos g < 24)%Z -> g_pos g <> (10 + axnum ax)%Z -> g_pos g <> (20 + axnum ax)%Z ->
  reach W r ax (comp ax (g_x g)) -> exists it', result ax (r, g) it'.
Proof.
  intros r g ax HB HM HPos N1 N2 (RL & RR & RE). set (x := comp ax (g_x g)) in *.
  pose proof (gmin_lt r ax HB) as ML. pose proof (dmin_le r ax HB) as DL. pose proof (dmax_ge r ax HB) as DG. pose proof (axnum_range ax) as AR.
  pose proof (sizes W HW ax) as DX. pose proof paired_W as HP.
  assert (P0 : negb (g_pos g =? 0)%Z && negb (g_pos g =? 1)%Z && negb (g_pos g =? 20 + axnum ax)%Z = true) by lia.
  assert (P1 : negb (g_pos g =? 0)%Z && negb (g_pos g =? 1)%Z && negb (g_pos g =? 10 + axnum ax)%Z = true) by lia.
  assert (SP : spread W ax (r, g) = (r, g) :: cpR W ax (r, g) ++ cpL W ax (r, g)) by reflexivity. cbn [cpR cpL] in SP. rewrite sox_eq, six_eq in SP. fold x in SP. rewrite P0, P1 in SP. cbn [andb] in SP.
  destruct (Rlt_le_dec x (gMin W r ax)) as [CL|CL]; [|destruct (Rle_lt_dec (gMax W r ax) x) as [CR|CR]].
  - (* to the left *)
    rewrite lt_t in SP by auto. rewrite ge_f in SP by lra. cbn [app] in SP. clear RR RE. specialize (RL CL). unfold width_l, width in RL.
    destruct (has_l W r ax) eqn:HL.
    + destruct RL as [[Q _]|RL]; [discriminate|]. pose proof (left_box W ax r HB) as HB'. pose proof (HB ax) as B. set (r' := left_of W ax r) in *.
      assert (NI : ~ ins ax (r, g)). { unfold ins, inside. cbn [fst snd]. rewrite glo_left by auto. fold x. lra. }
      unfold shL in SP. destruct (Z.eqb_spec (ridx ax r) 0) as [Z0|Z0].
      * assert (BP : w_bci W ax = Periodic). { unfold has_l in HL. destruct (w_bci W ax); cbn [is_per andb] in HL; rewrite ?orb_false_r in HL; auto; lia. }
        assert (BO : w_bco W ax = Periodic) by (apply (per_pair W ax HP); auto).
        rewrite <- (per_sides W ax r HP HB BO), HL in SP. cbn [andb] in SP.
        assert (ER : ridx ax r' = (w_N W ax - 1)%Z). { unfold r', left_of. rewrite ridx_rset, Z.eqb_refl. destruct (Z.ltb_spec 0 (ridx ax r)); lia. }
        assert (E1 : gMax W r' ax = Dmax W ax) by (unfold gMax, Dmax; rewrite ER; f_equal; lia).
        assert (E2 : gMin W r ax = Dmin W ax) by (unfold gMin, Dmin; rewrite Z0; auto).
        unfold Lx in SP. fold (Dmin W ax) in SP. fold (Dmax W ax) in SP.
        exists (r', shiftx ax (Dmax W ax - Dmin W ax) (set_pos g (10 + axnum ax))). unfold result.
        assert (EX : comp ax (g_x (shiftx ax (Dmax W ax - Dmin W ax) (set_pos g (10 + axnum ax)))) = x + (Dmax W ax - Dmin W ax)).
        { cbn [shiftx set_pos g_x]. rewrite comp_set, Z.eqb_refl. reflexivity. }
        split; [exact HB'|]. split; [apply same_shift; intros; apply ridx_left; auto|]. cbn [fst snd]. split; [cbn [shiftx mirror set_pos g_pos]; lia|]. split; [auto|].
        split. { rewrite EX. unfold place. fold x. destruct (Rle_dec (Dmax W ax) x); [lra|]. destruct (Rlt_dec x (Dmin W ax)); [|lra]. rewrite BP. cbn [shiftx set_pos g_v]. reflexivity. }
        split; [|right; auto]. apply proper; auto. rewrite EX. lra.
      * assert (ER : ridx ax r' = (ridx ax r - 1)%Z). { unfold r', left_of. rewrite ridx_rset, Z.eqb_refl. destruct (Z.ltb_spec 0 (ridx ax r)); lia. }
        assert (E1 : gMax W r' ax = gMin W r ax) by (unfold gMax, gMin; rewrite ER; f_equal; lia).
        rewrite andb_false_r in SP.
        exists (r', set_pos g (10 + axnum ax)). unfold result.
        pose proof (dmin_le r' ax HB') as DL'.
        split; [exact HB'|]. split; [apply same_pos; intros; apply ridx_left; auto|]. cbn [fst snd]. split; [cbn [shiftx mirror set_pos g_pos]; lia|]. split; [auto|].
        split. { unfold place. cbn [set_pos g_x g_v]. fold x. destruct (Rle_dec (Dmax W ax) x); [lra|]. destruct (Rlt_dec x (Dmin W ax)); [lra|]. reflexivity. }
        split; [|right; auto]. apply proper; auto. cbn [set_pos g_x]. fold x. lra.
    + destruct (no_left r ax HB HL) as [Z0 E2]. destruct (w_bci W ax) eqn:BI.
      * destruct RL as [[_ Q]|RL]; [discriminate|].
        assert (NI : ~ ins ax (r, g)). { unfold ins, inside. cbn [fst snd]. rewrite glo_out by congruence. fold x. lra. }
        assert (TM : twice_min W r ax = 2 * Dmin W ax). { unfold twice_min. destruct ax; rewrite ?E2; auto. destruct (proj1 H3 HM) as (_ & Q). rewrite (Q BI). lra. }
        rewrite TM in SP. exists (r, mirror ax (2 * Dmin W ax) (set_pos g (10 + axnum ax))). unfold result.
        assert (EX : comp ax (g_x (mirror ax (2 * Dmin W ax) (set_pos g (10 + axnum ax)))) = 2 * Dmin W ax - x). { cbn [mirror set_pos g_x]. rewrite comp_set, Z.eqb_refl. reflexivity. }
        split; [exact HB|]. split; [apply same_mirror|]. cbn [fst snd]. split; [cbn [shiftx mirror set_pos g_pos]; lia|]. split; [auto|].
        split. { rewrite EX. unfold place. fold x. destruct (Rle_dec (Dmax W ax) x); [lra|]. destruct (Rlt_dec x (Dmin W ax)); [|lra]. rewrite BI. cbn [mirror set_pos g_v g_x]. rewrite comp_set, Z.eqb_refl. reflexivity. }
        split; [|right; auto]. apply proper; auto. rewrite EX. lra.
      * exists (r, g). unfold result. split; [exact HB|]. split; [apply same_refl|]. cbn [fst snd]. split; [lia|]. split; [auto|]. fold x.
        split. { unfold place. fold x. destruct (Rle_dec (Dmax W ax) x); [lra|]. destruct (Rlt_dec x (Dmin W ax)); [|lra]. rewrite BI. reflexivity. }
        split; [|left; auto]. split; [|intros [Q1 Q2]; congruence]. rewrite within_true. unfold ins, inside. cbn [fst snd]. fold x. pose proof (gup_ge r ax). pose proof (dup_ge ax).
        unfold glo, dlo, open_lo. rewrite Z0, BI, E2. unfold multi in HM. replace (1 <? w_Nx W ax)%Z with true by lia. cbn [andb is_out Z.eqb]. lra.
      * assert (BO : w_bco W ax = Periodic) by (apply (per_pair W ax HP); auto).
        destruct RL as [[_ Q]|RL]; [discriminate|].
        assert (NI : ~ ins ax (r, g)). { unfold ins, inside. cbn [fst snd]. rewrite glo_out by congruence. fold x. lra. }
        rewrite (per_sides W ax r HP HB BO) in HL. destruct (no_right r ax HB HL) as [_ E1].
        unfold Lx in SP. fold (Dmin W ax) in SP. fold (Dmax W ax) in SP.
        exists (r, shiftx ax (Dmax W ax - Dmin W ax) (set_pos g (10 + axnum ax))). unfold result.
        assert (EX : comp ax (g_x (shiftx ax (Dmax W ax - Dmin W ax) (set_pos g (10 + axnum ax)))) = x + (Dmax W ax - Dmin W ax)).
        { cbn [shiftx set_pos g_x]. rewrite comp_set, Z.eqb_refl. reflexivity. }
        split; [exact HB|]. split; [apply same_shift; auto|]. cbn [fst snd]. split; [cbn [shiftx mirror set_pos g_pos]; lia|]. split; [auto|].
        split. { rewrite EX. unfold place. fold x. destruct (Rle_dec (Dmax W ax) x); [lra|]. destruct (Rlt_dec x (Dmin W ax)); [|lra]. rewrite BI. cbn [shiftx set_pos g_v]. reflexivity. }
        split; [|right; auto]. apply proper; auto. rewrite EX. lra.
  - (* to the right *)
    rewrite lt_f in SP by auto. rewrite ge_t in SP by lra. rewrite app_nil_r in SP. clear RL. specialize (RR CR). unfold width_r, width in RR.
    destruct (has_r W r ax) eqn:HR.
    + destruct RR as [[Q _]|RR]; [discriminate|]. pose proof (right_box W ax r HB) as HB'. pose proof (HB ax) as B. set (r' := right_of W ax r) in *.
      assert (NI : ~ ins ax (r, g)). { unfold ins, inside. cbn [fst snd]. rewrite gup_right by auto. fold x. lra. }
      unfold shR in SP. destruct (Z.eqb_spec (ridx ax r) (w_N W ax - 1)) as [Z0|Z0].
      * assert (BO : w_bco W ax = Periodic). { unfold has_r in HR. destruct (w_bco W ax); cbn [is_per andb] in HR; rewrite ?orb_false_r in HR; auto; lia. }
        rewrite (per_sides W ax r HP HB BO), HR in SP. cbn [andb] in SP.
        assert (ER : ridx ax r' = 0%Z). { unfold r', right_of. rewrite ridx_rset, Z.eqb_refl. destruct (Z.ltb_spec (ridx ax r) (w_N W ax - 1)); lia. }
        assert (E1 : gMin W r' ax = Dmin W ax) by (unfold gMin, Dmin; rewrite ER; auto).
        assert (E2 : gMax W r ax = Dmax W ax) by (unfold gMax, Dmax; rewrite Z0; f_equal; lia).
        unfold Lx in SP. fold (Dmin W ax) in SP. fold (Dmax W ax) in SP.
        exists (r', shiftx ax (- (Dmax W ax - Dmin W ax)) (set_pos g (20 + axnum ax))). unfold result.
        assert (EX : comp ax (g_x (shiftx ax (- (Dmax W ax - Dmin W ax)) (set_pos g (20 + axnum ax)))) = x - (Dmax W ax - Dmin W ax)).
        { cbn [shiftx set_pos g_x]. rewrite comp_set, Z.eqb_refl. reflexivity. }
        split; [exact HB'|]. split; [apply same_shift; intros; apply ridx_right; auto|]. cbn [fst snd]. split; [cbn [shiftx mirror set_pos g_pos]; lia|]. split; [auto|].
        split. { rewrite EX. unfold place. fold x. destruct (Rle_dec (Dmax W ax) x); [|lra]. rewrite BO. cbn [shiftx set_pos g_v]. reflexivity. }
        split; [|right; auto]. apply proper; auto. rewrite EX. lra.
      * assert (ER : ridx ax r' = (ridx ax r + 1)%Z). { unfold r', right_of. rewrite ridx_rset, Z.eqb_refl. destruct (Z.ltb_spec (ridx ax r) (w_N W ax - 1)); lia. }
        assert (E1 : gMin W r' ax = gMax W r ax) by (unfold gMax, gMin; rewrite ER; f_equal; lia).
        rewrite andb_false_r in SP.
        exists (r', set_pos g (20 + axnum ax)). unfold result.
        pose proof (dmax_ge r' ax HB') as DG'.
        split; [exact HB'|]. split; [apply same_pos; intros; apply ridx_right; auto|]. cbn [fst snd]. split; [cbn [shiftx mirror set_pos g_pos]; lia|]. split; [auto|].
        split. { unfold place. cbn [set_pos g_x g_v]. fold x. destruct (Rle_dec (Dmax W ax) x); [lra|]. destruct (Rlt_dec x (Dmin W ax)); [lra|]. reflexivity. }
        split; [|right; auto]. apply proper; auto. cbn [set_pos g_x]. fold x. lra.
    + destruct (no_right r ax HB HR) as [Z0 E2]. destruct (w_bco W ax) eqn:BO.
      * destruct RR as [[_ Q]|RR]; [discriminate|].
        assert (XN : x <> Dmax W ax) by (intros Q; apply (RE Q eq_refl); reflexivity).
        assert (NI : ~ ins ax (r, g)). { unfold ins, inside. cbn [fst snd]. rewrite gup_out by congruence. fold x. lra. }
        rewrite E2 in SP. exists (r, mirror ax (2 * Dmax W ax) (set_pos g (20 + axnum ax))). unfold result.
        assert (EX : comp ax (g_x (mirror ax (2 * Dmax W ax) (set_pos g (20 + axnum ax)))) = 2 * Dmax W ax - x). { cbn [mirror set_pos g_x]. rewrite comp_set, Z.eqb_refl. reflexivity. }
        split; [exact HB|]. split; [apply same_mirror|]. cbn [fst snd]. split; [cbn [shiftx mirror set_pos g_pos]; lia|]. split; [auto|].
        split. { rewrite EX. unfold place. fold x. destruct (Rle_dec (Dmax W ax) x); [|lra]. rewrite BO. cbn [mirror set_pos g_v g_x]. rewrite comp_set, Z.eqb_refl. reflexivity. }
        split; [|right; auto]. apply proper; auto. rewrite EX. assert (x > Dmax W ax) by (destruct (Rtotal_order x (Dmax W ax)) as [|[|]]; lra). lra.
      * exists (r, g). unfold result. split; [exact HB|]. split; [apply same_refl|]. cbn [fst snd]. split; [lia|]. split; [auto|]. fold x.
        split. { unfold place. fold x. destruct (Rle_dec (Dmax W ax) x); [|lra]. rewrite BO. reflexivity. }
        split; [|left; auto]. split; [|intros [Q1 Q2]; congruence]. rewrite within_true. unfold ins, inside. cbn [fst snd]. fold x. pose proof (glo_le r ax). pose proof (dlo_le ax).
        unfold gup, dup, open_up. rewrite Z0, BO, E2, Z.eqb_refl. unfold multi in HM. replace (1 <? w_Nx W ax)%Z with true by lia. cbn [andb is_out]. lra.
      * destruct RR as [[_ Q]|RR]; [discriminate|].
        assert (NI : ~ ins ax (r, g)). { unfold ins, inside. cbn [fst snd]. rewrite gup_out by congruence. fold x. lra. }
        rewrite <- (per_sides W ax r HP HB BO) in HR. destruct (no_left r ax HB HR) as [_ E1].
        unfold Lx in SP. fold (Dmin W ax) in SP. fold (Dmax W ax) in SP.
        exists (r, shiftx ax (- (Dmax W ax - Dmin W ax)) (set_pos g (20 + axnum ax))). unfold result.
        assert (EX : comp ax (g_x (shiftx ax (- (Dmax W ax - Dmin W ax)) (set_pos g (20 + axnum ax)))) = x - (Dmax W ax - Dmin W ax)).
        { cbn [shiftx set_pos g_x]. rewrite comp_set, Z.eqb_refl. reflexivity. }
        split; [exact HB|]. split; [apply same_shift; auto|]. cbn [fst snd]. split; [cbn [shiftx mirror set_pos g_pos]; lia|]. split; [auto|].
        split. { rewrite EX. unfold place. fold x. destruct (Rle_dec (Dmax W ax) x); [|lra]. rewrite BO. cbn [shiftx set_pos g_v]. reflexivity. }
        split; [|right; auto]. apply proper; auto. rewrite EX. lra.
  - (* stays *)
    rewrite lt_f in SP by auto. rewrite ge_f in SP by auto. cbn [app] in SP. exists (r, g). unfold result.
    split; [exact HB|]. split; [apply same_refl|]. cbn [fst snd]. split; [lia|]. split; [auto|].
    split. { unfold place. fold x. destruct (Rle_dec (Dmax W ax) x); [lra|]. destruct (Rlt_dec x (Dmin W ax)); [lra|]. reflexivity. }
    split; [|left; auto]. apply proper; auto.
Qed.
End World.
