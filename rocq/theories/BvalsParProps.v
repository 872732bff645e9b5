(** C34: dividing a Domain does not change what ends up in the ghost zones. *)
From Coq Require Import ZArith List Bool Lia.
From Verif Require MeshModel MeshProps.
From Verif Require Import CStr Loop BvalsModel BvalsSpec BvalsProofs BvalsMsg BvalsParModel.
Import ListNotations.
Open Scope Z_scope.

(** Every axis either has a single cell in a single Grid, or Grids of more than one and at
    least nghost cells each. *)
Definition dec_ok (D : decomp) : Prop :=
  1 <= d_ng D /\ 1 < total D A1 /\
  forall a, (0 < d_NG D a)%nat /\
    ((total D a = 1 /\ d_NG D a = 1%nat) \/
     (forall l, (l < d_NG D a)%nat -> 1 < d_size D a l /\ d_ng D <= d_size D a l)).
Definition on_domain (D : decomp) (g : gpos) : Prop := forall a, (gco a g < d_NG D a)%nat.
(** Element of the Domain that element [c] of Grid [g] is. *)
Definition glob (D : decomp) (g : gpos) (c : idx) : idx :=
  match c with (k, j, i) => (k + disp D A3 (gco A3 g), j + disp D A2 (gco A2 g), i + disp D A1 (gco A1 g)) end.

Lemma co_glob : forall D g a c, co a (glob D g c) = co a c + disp D a (gco a g).
Proof. intros D g [] [[k j] i]; reflexivity. Qed.
Lemma glob_upd : forall D g a c x, glob D g (upd a c x) = upd a (glob D g c) (x + disp D a (gco a g)).
Proof. intros D g [] [[k j] i] x; reflexivity. Qed.
Lemma gco_gupd : forall a g x, gco a (gupd a g x) = x.
Proof. intros [] [[n m] l] x; reflexivity. Qed.
Lemma gco_gupd_other : forall a b g x, b <> a -> gco b (gupd a g x) = gco b g.
Proof. intros [] [] [[n m] l] x H; try reflexivity; congruence. Qed.
Lemma glob_gupd : forall D g a c x l, glob D (gupd a g l) (upd a c x) = upd a (glob D g c) (x + disp D a l).
Proof. intros D [[n m] l'] [] [[k j] i] x l; reflexivity. Qed.
Lemma g_N_geo : forall D g a, g_N (geo D g) a = d_size D a (gco a g).
Proof. intros D g []; reflexivity. Qed.
Lemma g_N_dgeo : forall D a, g_N (dgeo D) a = total D a.
Proof. intros D []; reflexivity. Qed.

Section Dec.
Variable D : decomp.
Hypothesis OKD : dec_ok D.
Lemma disp_nonneg : forall a l, (l <= d_NG D a)%nat -> 0 <= disp D a l.
Proof.
  intros a l. induction l as [|l IH]; intros H; cbn [disp]; [lia|]. destruct OKD as (_ & _ & K). destruct (K a) as [P [[T N]|S]].
  - assert (l = 0)%nat as -> by lia. unfold total in T. rewrite N in T. cbn [disp] in *. lia.
  - specialize (IH ltac:(lia)). destruct (S l ltac:(lia)). lia.
Qed.
Lemma disp_step : forall a l m, (l <= m <= d_NG D a)%nat -> disp D a l <= disp D a m.
Proof.
  intros a l m. induction m as [|m IH]; intros H; [replace l with 0%nat by lia; lia|].
  destruct (Nat.eq_dec l (S m)) as [->|]; [lia|]. specialize (IH ltac:(lia)). cbn [disp].
  destruct OKD as (_ & _ & K). destruct (K a) as [P [[T N]|S]]; [assert (m = 0)%nat as -> by lia; unfold total in T; rewrite N in T; cbn [disp] in *; lia|].
  destruct (S m ltac:(lia)). lia.
Qed.
(** Position facts of the l-th Grid along an axis with more than one cell. *)
Lemma pos_facts : forall a l, 1 < total D a -> (l < d_NG D a)%nat ->
  1 < d_size D a l /\ d_ng D <= d_size D a l /\
  (l = 0%nat -> disp D a l = 0) /\ ((0 < l)%nat -> d_ng D <= disp D a l) /\
  (S l = d_NG D a -> disp D a l + d_size D a l = total D a) /\ ((S l < d_NG D a)%nat -> disp D a l + d_size D a l + d_ng D <= total D a) /\
  0 <= disp D a l.
Proof.
  intros a l T L. destruct OKD as (G & _ & K). destruct (K a) as [P [[T1 N]|S]]; [lia|].
  destruct (S l L) as [S1 S2]. split; auto. split; auto. split; [intros ->; reflexivity|].
  split. { intros Q. assert (M := disp_step a 1 l ltac:(lia)). cbn [disp] in M. destruct (S 0%nat ltac:(lia)). lia. }
  split. { intros Q. unfold total. rewrite <- Q. reflexivity. }
  split; [|apply disp_nonneg; lia].
  intros Q. unfold total. assert (M := disp_step a (Datatypes.S (Datatypes.S l)) (d_NG D a) ltac:(lia)). cbn [disp] in M. destruct (S (Datatypes.S l) ltac:(lia)). lia.
Qed.
Lemma one_facts : forall a l, total D a <= 1 -> (l < d_NG D a)%nat -> l = 0%nat /\ d_NG D a = 1%nat /\ d_size D a l = 1 /\ total D a = 1.
Proof.
  intros a l T L. destruct OKD as (G & _ & K). destruct (K a) as [P [[T1 N]|S]].
  - unfold total in T1. rewrite N in T1. cbn [disp] in T1. assert (l = 0)%nat as -> by lia. unfold total. rewrite N. cbn [disp]. repeat split; auto; lia.
  - exfalso. assert (M := disp_step a 1 (d_NG D a) ltac:(lia)). cbn [disp] in M. destruct (S 0%nat ltac:(lia)). unfold total in T. lia.
Qed.
Lemma geo_ok : forall g, on_domain D g -> geom_ok (geo D g).
Proof.
  intros g V. assert (G := OKD). destruct G as (G & T1 & _). split; [exact G|]. split.
  - change (g_N1 (geo D g)) with (g_N (geo D g) A1). rewrite g_N_geo. apply (pos_facts A1); auto.
  - intros a. rewrite g_N_geo. destruct (Z.le_gt_cases (total D a) 1).
    + left. apply (one_facts a (gco a g)); auto.
    + right. destruct (pos_facts a (gco a g) ltac:(lia) (V a)) as (A & B & _). auto.
Qed.
Lemma dgeo_ok : geom_ok (dgeo D).
Proof.
  assert (G := OKD). destruct G as (G & T1 & K). split; [exact G|]. split; [exact T1|]. intros a. rewrite g_N_dgeo.
  destruct (K a) as (P & _). destruct (Z.le_gt_cases (total D a) 1).
  - left. apply (one_facts a 0%nat); auto.
  - right. split; [lia|]. destruct (pos_facts a 0%nat ltac:(lia) P) as (A & B & _).
    assert (M := disp_step a 1 (d_NG D a) ltac:(lia)). cbn [disp] in M. unfold total. change (g_ng (dgeo D)) with (d_ng D). lia.
Qed.
(** First and last cells of a Grid and of the Domain. *)
Lemma gt1 : forall x, 1 < x -> (x >? 1) = true.
Proof. intros. rewrite Z.gtb_ltb. apply Z.ltb_lt. auto. Qed.
Lemma gt1' : forall x, x <= 1 -> (x >? 1) = false.
Proof. intros. rewrite Z.gtb_ltb. apply Z.ltb_ge. auto. Qed.
Lemma ends : forall a g, 1 < total D a -> on_domain D g ->
  (g_N (geo D g) a >? 1) = true /\ (g_N (dgeo D) a >? 1) = true /\ fst_ (geo D g) a = d_ng D /\ fst_ (dgeo D) a = d_ng D /\
  lst_ (geo D g) a = d_size D a (gco a g) + d_ng D - 1 /\ lst_ (dgeo D) a = total D a + d_ng D - 1.
Proof.
  intros a g T V. destruct (pos_facts a (gco a g) T (V a)) as (A & _). unfold fst_, lst_. rewrite g_N_geo, g_N_dgeo.
  rewrite !gt1 by auto. repeat split.
Qed.
Lemma ends1 : forall a g, total D a <= 1 -> on_domain D g ->
  (g_N (geo D g) a >? 1) = false /\ (g_N (dgeo D) a >? 1) = false /\ fst_ (geo D g) a = 0 /\ fst_ (dgeo D) a = 0 /\
  lst_ (geo D g) a = 0 /\ lst_ (dgeo D) a = 0 /\ disp D a (gco a g) = 0.
Proof.
  intros a g T V. destruct (one_facts a (gco a g) T (V a)) as (A & B & C & E). unfold fst_, lst_. rewrite g_N_geo, g_N_dgeo.
  rewrite !gt1' by lia. rewrite A. repeat split.
Qed.
Lemma act_glob : forall X a g x, on_domain D g -> act (geo D g) X a x = true -> act (dgeo D) X a (x + disp D a (gco a g)) = true.
Proof.
  intros X a g x V H. unfold act in *. apply rng_spec in H. apply rng_spec. assert (B := btoz_le (normal X a)). destruct (Z.le_gt_cases (total D a) 1).
  - destruct (ends1 a g ltac:(auto) V) as (E1 & E2 & E3 & E4 & E5 & E6 & E7). rewrite E1, E3, E5 in H. rewrite E2, E4, E6, E7. rewrite andb_false_r in *. lia.
  - destruct (ends a g ltac:(lia) V) as (E1 & E2 & E3 & E4 & E5 & E6). rewrite E1, E3, E5 in H. rewrite E2, E4, E6. rewrite andb_true_r in *.
    destruct (pos_facts a (gco a g) ltac:(lia) (V a)) as (P1 & P2 & P3 & P4 & P5 & P6 & P7).
    assert (disp D a (gco a g) + d_size D a (gco a g) <= total D a). { destruct (Nat.eq_dec (S (gco a g)) (d_NG D a)); [rewrite P5 by auto; lia|]. assert (Q := V a). specialize (P6 ltac:(lia)). assert (G := OKD). destruct G as (G & _). lia. }
    lia.
Qed.
Lemma ext_glob : forall X a g x, on_domain D g -> ext (geo D g) X a x = true -> ext (dgeo D) X a (x + disp D a (gco a g)) = true.
Proof.
  intros X a g x V H. unfold ext in *. assert (B := btoz_le (normal X a)). destruct (Z.le_gt_cases (total D a) 1).
  - destruct (ends1 a g ltac:(auto) V) as (E1 & E2 & E3 & E4 & E5 & E6 & E7). rewrite E1 in H. rewrite E2, E7. rewrite Z.add_0_r. auto.
  - destruct (ends a g ltac:(lia) V) as (E1 & E2 & E3 & E4 & E5 & E6). rewrite E1, E3, E5 in H. rewrite E2, E4, E6. apply rng_spec in H. apply rng_spec.
    change (g_ng (geo D g)) with (d_ng D) in H. change (g_ng (dgeo D)) with (d_ng D).
    destruct (pos_facts a (gco a g) ltac:(lia) (V a)) as (P1 & P2 & P3 & P4 & P5 & P6 & P7).
    assert (disp D a (gco a g) + d_size D a (gco a g) <= total D a). { destruct (Nat.eq_dec (S (gco a g)) (d_NG D a)); [rewrite P5 by auto; lia|]. assert (Q := V a). specialize (P6 ltac:(lia)). assert (G := OKD). destruct G as (G & _). lia. }
    lia.
Qed.
End Dec.

Section Main.
Context {F : Type} (neg : F -> F) (zero : F).
(** Elements that hold correct data before the exchange along [a]. *)
Definition pre_dom (G : geom) (X : kind) (a : axis) (c : idx) : Prop :=
  forall a', (if before a' a then ext G X a' (co a' c) else act G X a' (co a' c)) = true.
Definition agree (P : geom -> kind -> idx -> Prop) (D : decomp) (st : gpos -> @fields F) (W : @fields F) : Prop :=
  forall g, on_domain D g -> forall X c, P (geo D g) X c -> get X (st g) c = get X W (glob D g c).
Definition same_bc (D : decomp) (bl br : axis -> bc) : Prop :=
  forall a, (1 < d_NG D a)%nat -> is_peri (bl a) = is_peri (br a).
Lemma peri_eq : forall b, is_peri b = true -> b = Peri.
Proof. intros []; cbn; congruence. Qed.
Lemma on_gupd : forall D g a l, on_domain D g -> (l < d_NG D a)%nat -> on_domain D (gupd a g l).
Proof.
  intros D g a l V L b. destruct (axis_eqb b a) eqn:E.
  - assert (b = a) as -> by (destruct a, b; cbn in E; congruence). rewrite gco_gupd. auto.
  - rewrite gco_gupd_other; [apply V|]. intros ->. rewrite axis_eqb_refl in E. discriminate.
Qed.
Lemma before_refl : forall a, before a a = false. Proof. intros []; reflexivity. Qed.
Lemma pre_upd : forall G X a c y, act G X a y = true -> (forall a', a' <> a -> (if before a' a then ext G X a' (co a' c) else act G X a' (co a' c)) = true) ->
  pre_dom G X a (upd a c y).
Proof.
  intros G X a c y A O a'. destruct (axis_eqb a' a) eqn:E.
  - assert (a' = a) as -> by (destruct a, a'; cbn in E; congruence). rewrite before_refl, co_upd. auto.
  - assert (N : a' <> a) by (intros ->; rewrite axis_eqb_refl in E; discriminate). rewrite co_upd_other by auto. auto.
Qed.
Lemma step_others : forall G X a c a', step_dom G X a c -> a' <> a -> (if before a' a then ext G X a' (co a' c) else act G X a' (co a' c)) = true.
Proof. intros G X a c a' S N. specialize (S a'). replace (axis_eqb a' a) with false in S by (destruct a, a'; cbn; congruence). exact S. Qed.
Lemma geo_gupd_act : forall D g a l X a' y, a' <> a -> act (geo D (gupd a g l)) X a' y = act (geo D g) X a' y.
Proof. intros D g a l X a' y N. unfold act, fst_, lst_. rewrite !g_N_geo, gco_gupd_other by auto. reflexivity. Qed.
Lemma geo_gupd_ext : forall D g a l X a' y, a' <> a -> ext (geo D (gupd a g l)) X a' y = ext (geo D g) X a' y.
Proof. intros D g a l X a' y N. unfold ext, fst_, lst_. rewrite !g_N_geo, gco_gupd_other by auto. reflexivity. Qed.
Lemma beside_gupd : forall D g a l, dec_ok D -> on_domain D g -> (l < d_NG D a)%nat -> 1 < total D a -> beside a (geo D g) (geo D (gupd a g l)).
Proof.
  intros D g a l OK V L T. split; [reflexivity|]. split.
  - intros a' N. rewrite !g_N_geo, gco_gupd_other by auto. reflexivity.
  - rewrite !g_N_geo, gco_gupd. split; [apply (pos_facts D OK a (gco a g) T (V a))|apply (pos_facts D OK a l T L)].
Qed.
Lemma gupd_same : forall a g, gupd a g (gco a g) = g.
Proof. intros [] [[n m] l]; reflexivity. Qed.

(** A Grid is its neighbour's neighbour. *)
Lemma gupd_gupd : forall a g x y, gupd a (gupd a g x) y = gupd a g y.
Proof. intros [] [[n m] l] x y; reflexivity. Qed.
Lemma pos_eqb_refl : forall g, pos_eqb g g = true.
Proof. intros g. unfold pos_eqb. rewrite !Nat.eqb_refl. reflexivity. Qed.
Lemma back_l : forall bl br D a g h, same_bc D bl br -> on_domain D g -> left_nb bl D a g = Some h -> right_nb br D a h = Some g.
Proof.
  intros bl br D a g h BC V H. specialize (V a). unfold left_nb in H. unfold right_nb. destruct (Nat.ltb_spec 0 (gco a g)) as [P|P].
  - injection H as <-. rewrite gco_gupd, !gupd_gupd, Nat.succ_pred by lia. replace (gco a g <? d_NG D a)%nat with true by (symmetry; apply Nat.ltb_lt; auto).
    f_equal. apply gupd_same.
  - destruct (is_peri (bl a) && (1 <? d_NG D a)%nat) eqn:Q; [|discriminate]. injection H as <-. apply andb_true_iff in Q. destruct Q as [Q1 Q2]. apply Nat.ltb_lt in Q2.
    rewrite gco_gupd, !gupd_gupd, Nat.succ_pred by lia. rewrite Nat.ltb_irrefl. rewrite <- (BC a) by auto. rewrite Q1. replace (1 <? d_NG D a)%nat with true by (symmetry; apply Nat.ltb_lt; auto).
    cbn [andb]. f_equal. replace 0%nat with (gco a g) by lia. apply gupd_same.
Qed.
Lemma back_r : forall bl br D a g h, same_bc D bl br -> on_domain D g -> right_nb br D a g = Some h -> left_nb bl D a h = Some g.
Proof.
  intros bl br D a g h BC V H. specialize (V a). unfold right_nb in H. unfold left_nb. destruct (Nat.ltb_spec (S (gco a g)) (d_NG D a)) as [P|P].
  - injection H as <-. rewrite gco_gupd, !gupd_gupd. cbn [Nat.ltb Nat.leb Nat.pred]. f_equal. apply gupd_same.
  - destruct (is_peri (br a) && (1 <? d_NG D a)%nat) eqn:Q; [|discriminate]. injection H as <-. apply andb_true_iff in Q. destruct Q as [Q1 Q2]. apply Nat.ltb_lt in Q2.
    rewrite gco_gupd, !gupd_gupd. rewrite Nat.ltb_irrefl. rewrite (BC a) by auto. rewrite Q1. replace (1 <? d_NG D a)%nat with true by (symmetry; apply Nat.ltb_lt; auto).
    cbn [andb]. f_equal. replace (Nat.pred (d_NG D a)) with (gco a g) by lia. apply gupd_same.
Qed.
Lemma inbox_l : forall bl br D a g (msg : gpos -> list F), same_bc D bl br -> on_domain D g ->
  inbox (left_nb bl D a g) (right_nb br D a) msg g = Some (option_map msg (left_nb bl D a g)).
Proof. intros bl br D a g msg BC V. unfold inbox. destruct (left_nb bl D a g) as [h|] eqn:E; [|reflexivity]. rewrite (back_l bl br D a g h BC V E), pos_eqb_refl. reflexivity. Qed.
Lemma inbox_r : forall bl br D a g (msg : gpos -> list F), same_bc D bl br -> on_domain D g ->
  inbox (right_nb br D a g) (left_nb bl D a) msg g = Some (option_map msg (right_nb br D a g)).
Proof. intros bl br D a g msg BC V. unfold inbox. destruct (right_nb br D a g) as [h|] eqn:E; [|reflexivity]. rewrite (back_r bl br D a g h BC V E), pos_eqb_refl. reflexivity. Qed.

(** One exchange of all Grids against one step of the undivided Domain. *)
Lemma exchange_step : forall n bl br D a swap st W, dec_ok D -> same_bc D bl br ->
  (forall g, on_domain D g -> wellformed n (st g)) -> agree (fun G X c => pre_dom G X a c) D st W ->
  forall g, on_domain D g -> exists f', exchange neg zero n bl br D a swap st g = Some f' /\ wellformed n f' /\
    forall X c, step_dom (geo D g) X a c -> get X f' c = get X (phys_axis neg zero bl br (dgeo D) a W) (glob D g c).
Proof.
  intros n bl br D a swap st W OK BC WF AG g V.
  set (nb h := (geo D h, st h)).
  set (L := option_map nb (left_nb bl D a g)). set (R := option_map nb (right_nb br D a g)).
  assert (GOK := geo_ok D OK g V). assert (DOK := dgeo_ok D OK).
  assert (LV : forall h, left_nb bl D a g = Some h -> exists l, h = gupd a g l /\ (l < d_NG D a)%nat).
  { intros h H. unfold left_nb in H. assert (Q := V a). destruct (Nat.ltb_spec 0 (gco a g)); [exists (Nat.pred (gco a g)); split; [congruence|lia]|].
    destruct (_ && _); [|discriminate]. exists (Nat.pred (d_NG D a)). split; [congruence|lia]. }
  assert (RV : forall h, right_nb br D a g = Some h -> exists l, h = gupd a g l /\ (l < d_NG D a)%nat).
  { intros h H. unfold right_nb in H. assert (Q := V a). destruct (Nat.ltb_spec (S (gco a g)) (d_NG D a)); [exists (S (gco a g)); split; [congruence|lia]|].
    destruct (_ && _); [|discriminate]. exists 0%nat. split; [congruence|lia]. }
  assert (DN : forall h, (left_nb bl D a g = Some h \/ right_nb br D a g = Some h) -> 1 < total D a).
  { intros h H. destruct (Z.le_gt_cases (total D a) 1) as [T|T]; [|lia]. destruct (one_facts D OK a (gco a g) T (V a)) as (Q1 & Q2 & _).
    exfalso. unfold left_nb, right_nb in H. rewrite Q1, Q2 in H. rewrite !andb_false_r in H. cbn in H. destruct H; discriminate. }
  assert (NL : nbr_ok n a (geo D g) L).
  { unfold L, nbr_ok. destruct (left_nb bl D a g) as [h|] eqn:E; cbn [option_map]; auto. destruct (LV h eq_refl) as (l & -> & Hl).
    split; [apply beside_gupd; eauto|apply WF, on_gupd; auto]. }
  assert (NR : nbr_ok n a (geo D g) R).
  { unfold R, nbr_ok. destruct (right_nb br D a g) as [h|] eqn:E; cbn [option_map]; auto. destruct (RV h eq_refl) as (l & -> & Hl).
    split; [apply beside_gupd; eauto|apply WF, on_gupd; auto]. }
  destruct (mpi_axis_spec neg zero n bl br (geo D g) a (swap g) L R (st g) GOK (WF g V) NL NR) as (f' & E & W' & M).
  exists f'. split.
  { unfold exchange. rewrite (inbox_l bl br D a g (fun h => pack (send_r a (geo D h)) (st h)) BC V), (inbox_r bl br D a g (fun h => pack (send_l a (geo D h)) (st h)) BC V). cbn [obind].
    rewrite <- E. f_equal; unfold msg_r, msg_l, L, R, nb; [destruct (left_nb bl D a g)|destruct (right_nb br D a g)]; reflexivity. }
  split; auto. intros X c SD. rewrite M by auto. clear M E W' f'.
  assert (XA : ext (geo D g) X a (co a c) = true) by (specialize (SD a); rewrite axis_eqb_refl in SD; exact SD).
  assert (OT := fun a' => step_others _ _ _ _ a' SD).
  assert (SG : step_dom (dgeo D) X a (glob D g c)).
  { intros a'. specialize (SD a'). rewrite co_glob. destruct (_ || _); [apply ext_glob|apply act_glob]; auto. }
  rewrite axis_step by auto. rewrite co_glob. set (x := co a c) in *. set (o := disp D a (gco a g)).
  destruct (Z.le_gt_cases (total D a) 1) as [T|T].
  { destruct (ends1 D OK a g T V) as (E1 & E2 & E3 & E4 & E5 & E6 & E7). unfold mval, tr_row, src_row. rewrite E1, E2.
    replace (upd a (glob D g c) (x + o)) with (glob D g c) by (unfold x, o; rewrite <- co_glob; symmetry; apply upd_same).
    apply (AG g V). unfold ext in XA. rewrite E1 in XA. apply Z.eqb_eq in XA. rewrite <- (upd_same a c). apply pre_upd; auto.
    unfold act. rewrite E1, E3, E5, andb_false_r. cbn [btoz]. apply rng_spec. fold x. lia. }
  assert (T' : 1 < total D a) by lia. clear T.
  destruct (ends D OK a g T' V) as (E1 & E2 & E3 & E4 & E5 & E6).
  destruct (pos_facts D OK a (gco a g) T' (V a)) as (P1 & P2 & P3 & P4 & P5 & P6 & P7). fold o in P3, P4, P5, P6, P7.
  assert (OK' := OK). destruct OK' as (G1 & _ & _).
  unfold ext in XA. rewrite E1, E3, E5 in XA. change (g_ng (geo D g)) with (d_ng D) in XA. apply rng_spec in XA.
  set (N := d_size D a (gco a g)) in *. set (ng := d_ng D) in *. set (T := total D a) in *.
  assert (Bn := btoz_le (normal X a)). 
  assert (Vl := V a).
  (* reading own element *)
  assert (OWN : forall y, ng <= y <= N + ng - 1 + btoz (normal X a) -> get X (st g) (upd a c y) = get X W (upd a (glob D g c) (y + o))).
  { intros y Y. rewrite (AG g V). { rewrite glob_upd. reflexivity. } apply pre_upd; auto. unfold act. rewrite E1, E3, E5, andb_true_r. apply rng_spec. lia. }
  assert (OTH : forall l y, (l < d_NG D a)%nat -> ng <= y <= d_size D a l + ng - 1 + btoz (normal X a) ->
     get X (st (gupd a g l)) (upd a c y) = get X W (upd a (glob D g c) (y + disp D a l))).
  { intros l y Hl Y. assert (V' := on_gupd D g a l V Hl). rewrite (AG _ V'). { rewrite glob_gupd. reflexivity. }
    apply pre_upd.
    - destruct (ends D OK a (gupd a g l) T' V') as (F1 & _ & F3 & _ & F5 & _). unfold act. rewrite F1, F3, F5, andb_true_r, gco_gupd. apply rng_spec. fold ng. lia.
    - intros a' Na. rewrite geo_gupd_ext, geo_gupd_act by auto. auto. }
  unfold mval, tr_row, src_row. fold x. rewrite E1, E2, E3, E4, E5, E6. fold N T ng.
  rewrite !Z.gtb_ltb.
  assert (NoffR : (S (gco a g) < d_NG D a)%nat \/ S (gco a g) = d_NG D a) by lia.
  assert (ON : o + N <= T) by (destruct NoffR; [specialize (P6 ltac:(auto))|specialize (P5 ltac:(auto))]; lia).
  destruct (Z.ltb_spec x ng) as [XL|XL].
  - unfold L, left_nb. destruct (Nat.ltb_spec 0 (gco a g)) as [Lg|Lg]; cbn [option_map nb].
    + (* interior left edge *)
      specialize (P4 Lg). set (l := Nat.pred (gco a g)). assert (Hl : gco a g = Datatypes.S l) by (unfold l; lia).
      rewrite g_N_geo, gco_gupd. destruct (pos_facts D OK a l T' ltac:(lia)) as (Q1 & Q2 & _). fold ng in Q2.
      assert (Eo : o = disp D a l + d_size D a l) by (unfold o; rewrite Hl; reflexivity).
      rewrite OTH by lia.
      replace (x + o <? ng) with false by (symmetry; apply Z.ltb_ge; lia).
      replace (T + ng - 1 + btoz (normal X a) <? x + o) with false by (symmetry; apply Z.ltb_ge; lia).
      replace (x + o =? T + ng - 1 + 1) with false by (symmetry; apply Z.eqb_neq; lia). rewrite andb_false_r.
      replace (x + d_size D a l + disp D a l) with (x + o) by lia.
      destruct (normal X a && (x + o =? ng)) eqn:Q; [|reflexivity].
      apply andb_true_iff in Q. destruct Q as [Qn Qx]. apply Z.eqb_eq in Qx. exfalso. rewrite Qn in XA. cbn [btoz] in XA. lia.
    + specialize (P3 ltac:(lia)). rewrite P3, !Z.add_0_r. destruct (Z.ltb_spec x ng) as [_|]; [|lia].
      destruct (is_peri (bl a) && (1 <? d_NG D a)%nat) eqn:Q; cbn [option_map nb].
      * apply andb_true_iff in Q. destruct Q as [Qp Qn]. apply Nat.ltb_lt in Qn. apply peri_eq in Qp. rewrite Qp. cbn [source].
        set (l := Nat.pred (d_NG D a)). rewrite g_N_geo, gco_gupd. destruct (pos_facts D OK a l T' ltac:(lia)) as (Q1 & Q2 & _ & _ & Q5 & _). fold ng in Q2. fold T in Q5.
        specialize (Q5 ltac:(unfold l; lia)). rewrite OTH by (unfold l in *; lia).
        replace (x + d_size D a l + disp D a l) with (x + (T + ng - 1 - ng + 1)) by lia. destruct X as [|[]]; reflexivity.
      * destruct (Nat.ltb_spec (S (gco a g)) (d_NG D a)).
        -- (* several Grids, so not periodic *)
           replace (1 <? d_NG D a)%nat with true in Q by (symmetry; apply Nat.ltb_lt; lia). rewrite andb_true_r in Q.
           f_equal. rewrite OWN.
           ++ f_equal. f_equal. rewrite P3. destruct (bl a); cbn [source mirror] in *; try discriminate; lia.
           ++ destruct (bl a); cbn [source mirror is_peri] in *; try discriminate; lia.
        -- specialize (P5 ltac:(lia)). f_equal. rewrite OWN.
           ++ f_equal. f_equal. rewrite P3. destruct (bl a); cbn [source mirror] in *; lia.
           ++ destruct (bl a); cbn [source mirror] in *; lia.
  - destruct (Z.ltb_spec (N + ng - 1 + btoz (normal X a)) x) as [XR|XR].
    + unfold R, right_nb. destruct (Nat.ltb_spec (S (gco a g)) (d_NG D a)) as [Rg|Rg]; cbn [option_map nb].
      * specialize (P6 Rg). destruct (pos_facts D OK a (S (gco a g)) T' Rg) as (Q1 & Q2 & _). fold ng in Q2.
        rewrite g_N_geo. fold N. rewrite OTH by lia. cbn [disp]. fold o N.
        replace (x + o <? ng) with false by (symmetry; apply Z.ltb_ge; lia).
        replace (T + ng - 1 + btoz (normal X a) <? x + o) with false by (symmetry; apply Z.ltb_ge; lia).
        replace (x + o =? ng) with false by (symmetry; apply Z.eqb_neq; lia). rewrite andb_false_r.
        replace (x - N + (o + N)) with (x + o) by lia.
        destruct (normal X a && (x + o =? T + ng - 1 + 1)) eqn:Q; [|reflexivity].
        apply andb_true_iff in Q. destruct Q as [Qn Qx]. apply Z.eqb_eq in Qx. exfalso. lia.
      * specialize (P5 ltac:(lia)).
        replace (x + o <? ng) with false by (symmetry; apply Z.ltb_ge; lia).
        replace (T + ng - 1 + btoz (normal X a) <? x + o) with true by (symmetry; apply Z.ltb_lt; lia).
        destruct (is_peri (br a) && (1 <? d_NG D a)%nat) eqn:Q; cbn [option_map nb].
        -- apply andb_true_iff in Q. destruct Q as [Qp Qn]. apply Nat.ltb_lt in Qn. apply peri_eq in Qp. rewrite Qp. cbn [source].
           destruct (pos_facts D OK a 0%nat T' ltac:(lia)) as (Q1 & Q2 & _). fold ng in Q2.
           rewrite g_N_geo. fold N. rewrite OTH by lia. cbn [disp].
           replace (x - N + 0) with (x + o - (T + ng - 1 - ng + 1)) by lia. destruct X as [|[]]; reflexivity.
        -- f_equal. destruct (Nat.ltb_spec 0 (gco a g)).
           ++ replace (1 <? d_NG D a)%nat with true in Q by (symmetry; apply Nat.ltb_lt; lia). rewrite andb_true_r in Q.
              rewrite OWN.
              ** f_equal. f_equal. destruct (br a); cbn [source mirror] in *; try discriminate; lia.
              ** destruct (br a); cbn [source mirror is_peri] in *; try discriminate; lia.
           ++ specialize (P3 ltac:(lia)). rewrite OWN.
              ** f_equal. f_equal. destruct (br a); cbn [source mirror] in *; lia.
              ** destruct (br a); cbn [source mirror] in *; lia.
    + (* own active elements *)
      replace (x + o <? ng) with false by (symmetry; apply Z.ltb_ge; lia).
      replace (T + ng - 1 + btoz (normal X a) <? x + o) with false by (symmetry; apply Z.ltb_ge; lia).
      assert (SELF : get X (st g) c = get X W (upd a (glob D g c) (x + o))) by (rewrite <- OWN by lia; unfold x; rewrite upd_same; reflexivity).
      destruct (normal X a && (x =? ng)) eqn:Q1.
      * apply andb_true_iff in Q1. destruct Q1 as [Qn Qx]. apply Z.eqb_eq in Qx. rewrite Qn in *. cbn [andb btoz] in *.
        unfold L, left_nb. destruct (Nat.ltb_spec 0 (gco a g)) as [Lg|Lg]; cbn [option_map nb].
        -- specialize (P4 Lg). replace (x + o =? ng) with false by (symmetry; apply Z.eqb_neq; lia).
           replace (x + o =? T + ng - 1 + 1) with false by (symmetry; apply Z.eqb_neq; lia). exact SELF.
        -- specialize (P3 ltac:(lia)). replace (x + o =? ng) with true by (symmetry; apply Z.eqb_eq; lia).
           destruct (is_peri (bl a) && (1 <? d_NG D a)%nat) eqn:Q; cbn [option_map nb].
           ++ apply andb_true_iff in Q. destruct Q as [Qp _]. apply peri_eq in Qp. rewrite Qp. rewrite SELF. destruct X as [|[]]; reflexivity.
           ++ f_equal. exact SELF.
      * destruct (normal X a && (x =? N + ng - 1 + 1)) eqn:Q2.
        -- apply andb_true_iff in Q2. destruct Q2 as [Qn Qx]. apply Z.eqb_eq in Qx. rewrite Qn in *. cbn [andb btoz] in *.
           replace (x + o =? ng) with false by (symmetry; apply Z.eqb_neq; lia).
           unfold R, right_nb. destruct (Nat.ltb_spec (S (gco a g)) (d_NG D a)) as [Rg|Rg]; cbn [option_map nb].
           ++ specialize (P6 Rg). replace (x + o =? T + ng - 1 + 1) with false by (symmetry; apply Z.eqb_neq; lia). exact SELF.
           ++ specialize (P5 ltac:(lia)). replace (x + o =? T + ng - 1 + 1) with true by (symmetry; apply Z.eqb_eq; lia).
              destruct (is_peri (br a) && (1 <? d_NG D a)%nat) eqn:Q; cbn [option_map nb].
              ** apply andb_true_iff in Q. destruct Q as [Qp _]. apply peri_eq in Qp. rewrite Qp. rewrite SELF. destruct X as [|[]]; reflexivity.
              ** f_equal. exact SELF.
        -- destruct (normal X a); cbn [andb] in *; [|exact SELF]. apply Z.eqb_neq in Q1. apply Z.eqb_neq in Q2.
           replace (x + o =? ng) with false by (symmetry; apply Z.eqb_neq; lia).
           replace (x + o =? T + ng - 1 + 1) with false. 2: { symmetry. apply Z.eqb_neq. cbn [btoz] in *. lia. } exact SELF.
Qed.

Lemma choose : forall (P : gpos -> Prop) (Q : gpos -> @fields F -> Prop) (o : gpos -> option (@fields F)) (dflt : @fields F),
  (forall g, P g -> exists f, o g = Some f /\ Q g f) -> exists st, forall g, P g -> o g = Some (st g) /\ Q g (st g).
Proof.
  intros P Q o dflt H. exists (fun g => match o g with Some f => f | None => dflt end). intros g V.
  destruct (H g V) as (f & E & K). rewrite E. auto.
Qed.
Lemma exchange_all : forall n bl br D a swap st W, dec_ok D -> same_bc D bl br ->
  (forall g, on_domain D g -> wellformed n (st g)) -> agree (fun G X c => pre_dom G X a c) D st W ->
  exists st', exchanged neg zero n bl br D a swap st st' /\ (forall g, on_domain D g -> wellformed n (st' g)) /\
    agree (fun G X c => step_dom G X a c) D st' (phys_axis neg zero bl br (dgeo D) a W).
Proof.
  intros n bl br D a swap st W OK BC WF AG.
  destruct (choose (on_domain D) (fun g f' => wellformed n f' /\ forall X c, step_dom (geo D g) X a c -> get X f' c = get X (phys_axis neg zero bl br (dgeo D) a W) (glob D g c))
     (exchange neg zero n bl br D a swap st) W (exchange_step n bl br D a swap st W OK BC WF AG)) as (st' & H).
  exists st'. split; [intros g V; exact (proj1 (H g V))|]. split; intros g V; [exact (proj1 (proj2 (H g V)))|exact (proj2 (proj2 (H g V)))].
Qed.
Lemma exchanged_det : forall n bl br D a swap st st' st'', (forall g, on_domain D g -> st g = st' g) ->
  forall s s', dec_ok D -> same_bc D bl br -> exchanged neg zero n bl br D a swap st s -> exchanged neg zero n bl br D a swap st' s' ->
  forall g, on_domain D g -> st'' g = s g -> st'' g = s' g.
Proof.
  intros n bl br D a swap st st' st'' E s s' OK BC H H' g V Q. rewrite Q. specialize (H g V). specialize (H' g V).
  unfold exchange in H, H'. rewrite (inbox_l bl br D a g _ BC V), (inbox_r bl br D a g _ BC V) in H. rewrite (inbox_l bl br D a g _ BC V), (inbox_r bl br D a g _ BC V) in H'. cbn [obind] in H, H'.
  rewrite <- (E g V) in H'. 
  replace (option_map (fun h => pack (send_r a (geo D h)) (st' h)) (left_nb bl D a g)) with (option_map (fun h => pack (send_r a (geo D h)) (st h)) (left_nb bl D a g)) in H'.
  2: { destruct (left_nb bl D a g) as [h|] eqn:Eh; cbn [option_map]; [|reflexivity]. rewrite E; auto. unfold left_nb in Eh. specialize (V a) as Va.
       destruct (Nat.ltb_spec 0 (gco a g)); [injection Eh as <-; apply on_gupd; auto; lia|]. destruct (_ && _); [|discriminate]. injection Eh as <-. apply on_gupd; auto; lia. }
  replace (option_map (fun h => pack (send_l a (geo D h)) (st' h)) (right_nb br D a g)) with (option_map (fun h => pack (send_l a (geo D h)) (st h)) (right_nb br D a g)) in H'.
  2: { destruct (right_nb br D a g) as [h|] eqn:Eh; cbn [option_map]; [|reflexivity]. rewrite E; auto. unfold right_nb in Eh. specialize (V a) as Va.
       destruct (Nat.ltb_spec (S (gco a g)) (d_NG D a)); [injection Eh as <-; apply on_gupd; auto; lia|]. destruct (_ && _); [|discriminate]. injection Eh as <-. apply on_gupd; auto; lia. }
  rewrite H in H'. congruence.
Qed.

Lemma agree_weaken : forall (P P' : geom -> kind -> idx -> Prop) D st W, (forall G X c, P' G X c -> P G X c) -> agree P D st W -> agree P' D st W.
Proof. intros P P' D st W I A g V X c H. apply A; auto. Qed.
Lemma dom0 : forall G X c, pre_dom G X A1 c -> active G X c.
Proof. intros G X c H a. specialize (H a). destruct a; exact H. Qed.
Lemma dom1 : forall G X c, pre_dom G X A2 c -> step_dom G X A1 c.
Proof. intros G X c H a. specialize (H a). destruct a; exact H. Qed.
Lemma dom2 : forall G X c, pre_dom G X A3 c -> step_dom G X A2 c.
Proof. intros G X c H a. specialize (H a). destruct a; exact H. Qed.
Lemma dom3 : forall G X c, exists_ G X c -> step_dom G X A3 c.
Proof. intros G X c H a. specialize (H a). destruct a; exact H. Qed.

Lemma bvals_all_det : forall n bl br D swap st s s', dec_ok D -> same_bc D bl br ->
  bvals_all neg zero n bl br D swap st s -> bvals_all neg zero n bl br D swap st s' -> forall g, on_domain D g -> s g = s' g.
Proof.
  intros n bl br D swap st s s' OK BC (s1 & s2 & H1 & H2 & H3) (t1 & t2 & K1 & K2 & K3).
  assert (E1 : forall g, on_domain D g -> s1 g = t1 g) by (intros g V; apply (exchanged_det n bl br D A1 (swap A1) st st s1 (fun _ _ => eq_refl) s1 t1 OK BC H1 K1 g V eq_refl)).
  assert (E2 : forall g, on_domain D g -> s2 g = t2 g) by (intros g V; apply (exchanged_det n bl br D A2 (swap A2) s1 t1 s2 E1 s2 t2 OK BC H2 K2 g V eq_refl)).
  intros g V; apply (exchanged_det n bl br D A3 (swap A3) s2 t2 s E2 s s' OK BC H3 K3 g V eq_refl).
Qed.

(** C34: a Domain divided into Grids in any way ends up, ghost zones included, with the values
    the undivided Domain would have; no Grid waits for ever; the order in which messages
    arrive does not matter. *)
Theorem C34_completes : forall n bl br D swap st, dec_ok D -> same_bc D bl br ->
  (forall g, on_domain D g -> wellformed n (st g)) ->
  exists st', bvals_all neg zero n bl br D swap st st'.
Proof.
  intros n bl br D swap st OK BC WF. assert (W := st (0, 0, 0)%nat).
  assert (K : forall a s, (forall g, on_domain D g -> wellformed n (s g)) -> exists s', exchanged neg zero n bl br D a (swap a) s s' /\ (forall g, on_domain D g -> wellformed n (s' g))).
  { intros a s Ws. 
    (* only success and wellformedness are used here *)
    assert (X : forall g, on_domain D g -> exists f', exchange neg zero n bl br D a (swap a) s g = Some f' /\ wellformed n f').
    { intros g V. unfold exchange. rewrite (inbox_l bl br D a g _ BC V), (inbox_r bl br D a g _ BC V). cbn [obind].
      set (nb h := (geo D h, s h)).
      assert (DN : forall h, (left_nb bl D a g = Some h \/ right_nb br D a g = Some h) -> 1 < total D a).
      { intros h H. destruct (Z.le_gt_cases (total D a) 1) as [T|T]; [|lia]. destruct (one_facts D OK a (gco a g) T (V a)) as (Q1 & Q2 & _).
        exfalso. unfold left_nb, right_nb in H. rewrite Q1, Q2 in H. rewrite !andb_false_r in H. cbn in H. destruct H; discriminate. }
      destruct (mpi_axis_spec neg zero n bl br (geo D g) a (swap a g) (option_map nb (left_nb bl D a g)) (option_map nb (right_nb br D a g)) (s g) (geo_ok D OK g V) (Ws g V)) as (f' & E & W' & _).
      - unfold nbr_ok. destruct (left_nb bl D a g) as [h|] eqn:Eh; cbn [option_map]; auto. assert (T := DN h (or_introl eq_refl)). unfold left_nb in Eh. specialize (V a) as Va.
        destruct (Nat.ltb_spec 0 (gco a g)); [|destruct (_ && _); [|discriminate]]; injection Eh as <-; (split; [apply beside_gupd; auto; lia|apply Ws, on_gupd; auto; lia]).
      - unfold nbr_ok. destruct (right_nb br D a g) as [h|] eqn:Eh; cbn [option_map]; auto. assert (T := DN h (or_intror eq_refl)). unfold right_nb in Eh. specialize (V a) as Va.
        destruct (Nat.ltb_spec (S (gco a g)) (d_NG D a)); [|destruct (_ && _); [|discriminate]]; injection Eh as <-; (split; [apply beside_gupd; auto; lia|apply Ws, on_gupd; auto; lia]).
      - exists f'. split; auto. rewrite <- E. f_equal; unfold msg_r, msg_l; [destruct (left_nb bl D a g)|destruct (right_nb br D a g)]; reflexivity. }
    destruct (choose (on_domain D) (fun _ f' => wellformed n f') (exchange neg zero n bl br D a (swap a) s) W X) as (s' & H). exists s'. split; intros g V; [exact (proj1 (H g V))|exact (proj2 (H g V))]. }
  destruct (K A1 st WF) as (s1 & H1 & W1). destruct (K A2 s1 W1) as (s2 & H2 & W2). destruct (K A3 s2 W2) as (s3 & H3 & _).
  exists s3, s1, s2. auto.
Qed.
Theorem C34_decomposition_invisible : forall n bl br D swap st st' W, dec_ok D -> same_bc D bl br ->
  (forall g, on_domain D g -> wellformed n (st g)) ->
  (forall g X c, on_domain D g -> active (geo D g) X c -> get X (st g) c = get X W (glob D g c)) ->
  bvals_all neg zero n bl br D swap st st' ->
  forall g X c, on_domain D g -> exists_ (geo D g) X c ->
    get X (st' g) c = get X (bvals_mhd neg zero bl br (dgeo D) W) (glob D g c).
Proof.
  intros n bl br D swap st st' W OK BC WF AC RUN g X c V EX.
  assert (AG : agree (fun G X c => pre_dom G X A1 c) D st W) by (intros h Vh Y d P; apply AC; auto; apply dom0; auto).
  destruct (exchange_all n bl br D A1 (swap A1) st W OK BC WF AG) as (s1 & H1 & W1 & G1).
  destruct (exchange_all n bl br D A2 (swap A2) s1 _ OK BC W1 (agree_weaken _ _ _ _ _ dom1 G1)) as (s2 & H2 & W2 & G2).
  destruct (exchange_all n bl br D A3 (swap A3) s2 _ OK BC W2 (agree_weaken _ _ _ _ _ dom2 G2)) as (s3 & H3 & W3 & G3).
  rewrite (bvals_all_det n bl br D swap st st' s3 OK BC RUN) by (auto; exists s1, s2; auto).
  unfold bvals_mhd. apply G3; auto. apply dom3. auto.
Qed.

(** With several Grids along an axis and a periodic boundary at one end only, some process
    waits for a message nobody sends. *)
Theorem C34_one_sided_periodic : forall n bl br D swap st st' a, dec_ok D ->
  (1 < d_NG D a)%nat -> is_peri (bl a) <> is_peri (br a) -> ~ bvals_all neg zero n bl br D swap st st'.
Proof.
  intros n bl br D swap st st' a OK N NE (s1 & s2 & H1 & H2 & H3).
  assert (P : forall b, (0 < d_NG D b)%nat) by (intros b; apply (proj2 (proj2 OK) b)).
  assert (K : forall s s', ~ exchanged neg zero n bl br D a (swap a) s s').
  { intros s s' H.
    set (g0 := ((0, 0, 0)%nat : gpos)). set (g1 := gupd a g0 (Nat.pred (d_NG D a))).
    assert (V0 : on_domain D g0) by (intros b; destruct b; cbn; apply P).
    assert (V1 : on_domain D g1) by (apply on_gupd; auto; lia).
    assert (E0 : gco a g0 = 0%nat) by (destruct a; reflexivity).
    assert (E1 : gco a g1 = Nat.pred (d_NG D a)) by (apply gco_gupd).
    assert (LT : (1 <? d_NG D a)%nat = true) by (apply Nat.ltb_lt; auto).
    destruct (is_peri (bl a)) eqn:PL, (is_peri (br a)) eqn:PR; try congruence.
    - specialize (H g0 V0). unfold exchange in H. unfold left_nb at 1 in H. rewrite E0, PL, LT in H. cbn [Nat.ltb Nat.leb andb inbox] in H.
      fold g1 in H. unfold right_nb at 1 in H. rewrite E1, Nat.succ_pred in H by lia. rewrite Nat.ltb_irrefl, PR in H. discriminate H.
    - specialize (H g1 V1). unfold exchange in H.
      destruct (inbox (left_nb bl D a g1) _ _ g1); [|discriminate]. cbn [obind] in H.
      unfold right_nb at 1 in H. rewrite E1, Nat.succ_pred in H by lia. rewrite Nat.ltb_irrefl, PR, LT in H. cbn [andb inbox] in H.
      assert (Q : gupd a g1 0 = g0) by (unfold g1; rewrite gupd_gupd; destruct a; reflexivity). rewrite Q in H.
      unfold left_nb in H. rewrite E0, PL in H. discriminate H. }
  destruct a; eapply K; eauto.
Qed.
End Main.
Print Assumptions C34_completes.
Print Assumptions C34_decomposition_invisible.
Print Assumptions C34_one_sided_periodic.

(** ** The division chosen by init_mesh *)
Definition mx (a : axis) : MeshModel.axis := match a with A1 => MeshModel.X1 | A2 => MeshModel.X2 | A3 => MeshModel.X3 end.
Definition dec_of (ng : Z) (d : MeshModel.domain) : decomp :=
  Dec ng (fun a => Z.to_nat (MeshModel.dm_NG d (mx a))) (fun a l => MeshModel.gNx d (mx a) l).
Lemma disp_of : forall ng d a l, disp (dec_of ng d) a l = MeshModel.gDisp d (mx a) l - MeshModel.dm_Disp d (mx a).
Proof.
  intros ng d a l. induction l as [|l IH]; [cbn; lia|]. cbn [disp MeshModel.gDisp]. rewrite IH. cbn [dec_of d_size]. lia.
Qed.
(** Enough cells per Grid: more than one and at least nghost, unless the Domain itself has
    only one cell along the axis. *)
Definition enough_cells (ng : Z) (d : MeshModel.domain) : Prop :=
  forall a, MeshModel.dm_Nx d a = 1 \/
    (2 * MeshModel.dm_NG d a <= MeshModel.dm_Nx d a /\ ng * MeshModel.dm_NG d a <= MeshModel.dm_Nx d a).
Theorem C34_mesh_divisions : forall ng ideal P bs M d, 1 <= ng -> 0 < P ->
  MeshModel.init_mesh ng ideal P bs = Ok M -> In d (MeshProps.domains M) ->
  1 < MeshModel.dm_Nx d MeshModel.X1 -> enough_cells ng d ->
  dec_ok (dec_of ng d) /\ (forall a, g_N (dgeo (dec_of ng d)) a = MeshModel.dm_Nx d (mx a)) /\
  (forall g a, g_N (geo (dec_of ng d) g) a = MeshModel.gNx d (mx a) (gco a g)).
Proof.
  intros ng ideal P bs M d Hng HP H I N1 EC.
  assert (T : forall a, total (dec_of ng d) a = MeshModel.dm_Nx d (mx a)).
  { intros a. unfold total. rewrite disp_of. apply MeshProps.init_mesh_facts in H; try lia. destruct (MeshProps.accepted_good _ _ _ _ H d I) as (N & K & _).
    cbn [dec_of d_NG]. assert (E := MeshProps.gDisp_end d (mx a) ltac:(specialize (N (mx a)); lia) (K (mx a))). lia. }
  split; [|split]; [|intros a; rewrite g_N_dgeo; apply T|intros g a; rewrite g_N_geo; reflexivity].
  apply MeshProps.init_mesh_facts in H; try lia. destruct (MeshProps.accepted_good _ _ _ _ H d I) as (N & K & Q).
  split; [exact Hng|]. split; [rewrite T; exact N1|]. intros a. specialize (K (mx a)). cbn [dec_of d_NG d_size d_ng]. split; [lia|].
  destruct (EC (mx a)) as [E|[E1 E2]].
  - left. rewrite T. split; auto. destruct Q as (_ & Q & _). specialize (Q (mx a)). lia.
  - right. intros l L. unfold MeshModel.gNx.
    assert (2 <= Z.quot (MeshModel.dm_Nx d (mx a)) (MeshModel.dm_NG d (mx a))) by (apply Z.quot_le_lower_bound; lia).
    assert (ng <= Z.quot (MeshModel.dm_Nx d (mx a)) (MeshModel.dm_NG d (mx a))) by (apply Z.quot_le_lower_bound; lia).
    destruct (_ <? _); lia.
Qed.
Print Assumptions C34_mesh_divisions.

(** ** Examples *)
(* 2 x 2 Grids of unequal size, periodic along x1, reflecting along x2 *)
Definition exD : decomp := Dec 2 (fun a => match a with A3 => 1 | _ => 2 end)%nat (fun a l => match a, l with A3, _ => 1 | _, O => 3 | _, _ => 2 end).
Definition exW : @fields Z := Flds (fun c => match c with (k, j, i) => Cons (100 * k + 10 * j + i) i j k 5 1 2 3 [7; j] end)
  (fun c => match c with (k, j, i) => 1000 + 10 * j + i end) (fun c => match c with (k, j, i) => 2000 + 10 * j + i end) (fun c => match c with (k, j, i) => 3000 + 10 * j + i end).
Definition exst (g : gpos) : @fields Z :=
  let sh c := glob exD g c in Flds (fun c => fU exW (sh c)) (fun c => fB1 exW (sh c)) (fun c => fB2 exW (sh c)) (fun c => fB3 exW (sh c)).
Definition ex_bc (a : axis) : bc := match a with A1 => Peri | _ => Refl end.
Example exD_ok : dec_ok exD /\ same_bc exD ex_bc ex_bc /\ (forall g, on_domain exD g -> wellformed 2 (exst g)) /\
  (forall g X c, on_domain exD g -> active (geo exD g) X c -> get X (exst g) c = get X exW (glob exD g c)).
Proof.
  split; [|split; [|split]].
  - split; [cbn; lia|]. split; [cbn; lia|]. intros []; (split; [cbn; lia|]); cbn.
    + right. intros [|[|l]] H; lia.
    + right. intros [|[|l]] H; lia.
    + left. auto.
  - intros a H. destruct a; reflexivity.
  - intros g V [[k j] i]. reflexivity.
  - intros g X c _ _. destruct X as [|[]]; reflexivity.
Qed.
Example ex_exchange : exists f, exchange Z.opp 0 2 ex_bc ex_bc exD A1 (fun _ => true) exst (0, 0, 0)%nat = Some f /\
  fU f (0, 2, 0) = fU exW (0, 2, 5) /\ fU f (0, 2, 5) = fU exW (0, 2, 5) /\ fU f (0, 2, 6) = fU exW (0, 2, 6).
Proof. eexists. split; [vm_compute; reflexivity|]. vm_compute. auto. Qed.
Example ex_mesh_division : exists M d, MeshModel.init_mesh 4 (fun _ _ _ => 1) 6 [MeshModel.Blk 0 (MeshModel.mk_vec 14 9 1) (MeshModel.mk_vec 0 0 0) (MeshModel.mk_vec 3 2 1) 0] = Ok M /\
  In d (MeshProps.domains M) /\ enough_cells 4 d /\ 1 < MeshModel.dm_Nx d MeshModel.X1.
Proof.
  eexists. eexists. split; [vm_compute; reflexivity|]. split; [left; reflexivity|]. split; [|reflexivity].
  intros []; [right|right|left]; vm_compute; intuition discriminate.
Qed.

(** Without enough cells per Grid the claim is false, and init_mesh accepts such divisions:
    four cells in two Grids of two cells, with four ghost zones. *)
Definition smD : decomp := Dec 4 (fun a => match a with A1 => 2 | _ => 1 end)%nat (fun a _ => match a with A1 => 2 | _ => 1 end).
Definition smst (g : gpos) : @fields Z :=
  Flds (fun c => match c with (k, j, i) => if (4 <=? i) && (i <=? 5) then fU exW (glob smD g c) else Cons 0 0 0 0 0 0 0 0 [0; 0] end) (fun _ => 0) (fun _ => 0) (fun _ => 0).
Theorem C34_small_grids_refuted :
  (exists M, MeshModel.init_mesh 4 (fun _ _ _ => 1) 2 [MeshModel.Blk 0 (MeshModel.mk_vec 4 1 1) (MeshModel.mk_vec 0 0 0) (MeshModel.mk_vec 2 1 1) 0] = Ok M) /\
  let b := fun _ : axis => Peri in
  exists st', bvals_all Z.opp 0 2 b b smD (fun _ _ => false) smst st' /\
  (forall g c, on_domain smD g -> active (geo smD g) Cell c -> fU (smst g) c = fU exW (glob smD g c)) /\
  exists g c, on_domain smD g /\ exists_ (geo smD g) Cell c /\ fU (st' g) c <> fU (bvals_mhd Z.opp 0 b b (dgeo smD) exW) (glob smD g c).
Proof.
  split; [eexists; vm_compute; reflexivity|]. intros b.
  set (nx a st g := match exchange Z.opp 0 2 b b smD a (fun _ => false) st g with Some f => f | None => st g end).
  assert (V : forall g, (forall c, (gco c g < d_NG smD c)%nat) -> g = (0, 0, 0)%nat \/ g = (0, 0, 1)%nat).
  { intros [[n m] l] H. assert (H1 := H A1). assert (H2 := H A2). assert (H3 := H A3). cbn in *. destruct n; [|lia]. destruct m; [|lia]. destruct l as [|[|l]]; [auto|auto|lia]. }
  exists (nx A3 (nx A2 (nx A1 smst))). split; [|split].
  - exists (nx A1 smst), (nx A2 (nx A1 smst)). split; [|split]; intros g Vg; destruct (V g Vg) as [-> | ->]; vm_compute; reflexivity.
  - intros g c Vg A. assert (B := A A1). destruct c as [[k j] i]. unfold act in B. apply rng_spec in B. cbn in B. unfold smst. cbn [fU].
    replace (4 <=? i) with true by (symmetry; apply Z.leb_le; lia). replace (i <=? 5) with true by (symmetry; apply Z.leb_le; lia). reflexivity.
  - exists (0, 0, 0)%nat, (0, 0, 9). split; [intros []; cbn; lia|]. split; [intros []; reflexivity|]. vm_compute. discriminate.
Qed.
Print Assumptions C34_small_grids_refuted.
