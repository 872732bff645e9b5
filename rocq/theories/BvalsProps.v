(** C31, C32, C33: what the ghost zones hold after bvals_mhd on a Grid without neighbours. *)
From Coq Require Import ZArith List Bool Lia.
From Verif Require Import Loop BvalsModel BvalsSpec BvalsProofs.
Import ListNotations.
Open Scope Z_scope.

Section Props.
Context {F : Type} (neg : F -> F) (zero : F).

(** The boundary condition on a side leaves active elements alone, except that a reflecting
    one writes the face on the boundary. *)
Definition boundary_face (bl br : axis -> bc) (G : geom) (X : kind) (c : idx) : Prop :=
  exists a, 1 < g_N G a /\ normal X a = true /\ ((bl a = Refl /\ co a c = fst_ G a) \/ (br a = Refl /\ co a c = lst_ G a + 1)).

Lemma src_row_act : forall bl br G X a x, act G X a x = true -> src_row bl br G X a x = x.
Proof.
  intros bl br G X a x A. unfold act, src_row in *. apply rng_spec in A. destruct (g_N G a >? 1); auto. rewrite andb_true_r in A.
  destruct (Z.ltb_spec x (fst_ G a)); [lia|]. rewrite Z.gtb_ltb. destruct (Z.ltb_spec (lst_ G a + btoz (normal X a)) x); [lia|auto].
Qed.
Lemma tr_row_act : forall bl br G X a x v, act G X a x = true ->
  (normal X a = true -> 1 < g_N G a -> (bl = Refl -> x <> fst_ G a) /\ (br = Refl -> x <> lst_ G a + 1)) ->
  tr_row neg zero bl br G X a x v = v.
Proof.
  intros bl br G X a x v A H. unfold act, tr_row in *. apply rng_spec in A. destruct (g_N G a >? 1) eqn:EN; auto. rewrite andb_true_r in A.
  destruct (Z.ltb_spec x (fst_ G a)); [lia|]. rewrite Z.gtb_ltb. destruct (Z.ltb_spec (lst_ G a + btoz (normal X a)) x); [lia|].
  destruct (normal X a) eqn:Q; auto. cbn [andb]. rewrite Z.gtb_ltb in EN. apply Z.ltb_lt in EN. destruct (H eq_refl EN) as [HL HR].
  destruct (Z.eqb_spec x (fst_ G a)); [apply blank_not; destruct bl; try reflexivity; exfalso; apply HL; auto|].
  destruct (Z.eqb_spec x (lst_ G a + 1)); [apply blank_not; destruct br; try reflexivity; exfalso; apply HR; auto|auto].
Qed.
Theorem C31_active_unchanged : forall bl br G X f c, geom_ok G -> active G X c -> ~ boundary_face bl br G X c ->
  get X (bvals_mhd neg zero bl br G f) c = get X f c.
Proof.
  intros bl br G X f c OK A NB. assert (E : exists_ G X c) by (intros a; apply act_ext; auto; apply OK).
  rewrite ghost_values by auto.
  assert (T : forall a v, tr_row neg zero (bl a) (br a) G X a (co a c) v = v).
  { intros a v. apply tr_row_act; auto. intros Hn HN. split; intros Hb Hx; apply NB; exists a; auto. }
  rewrite !T. destruct c as [[k j] i]. cbn [src_of]. rewrite !src_row_act; auto; [apply (A A1)|apply (A A2)|apply (A A3)].
Qed.

(** *** Relation between elements of one row after the call *)
Lemma exists_upd : forall G X a c x, exists_ G X c -> ext G X a x = true -> exists_ G X (upd a c x).
Proof.
  intros G X a c x E H a'. destruct (axis_eqb a' a) eqn:Q.
  - assert (a' = a) as -> by (destruct a, a'; try reflexivity; discriminate). rewrite co_upd. auto.
  - rewrite co_upd_other by (intros ->; rewrite axis_eqb_refl in Q; discriminate). apply E.
Qed.
Lemma src_of_upd : forall bl br G X a c x, src_row (bl a) (br a) G X a x = src_row (bl a) (br a) G X a (co a c) ->
  src_of bl br G X (upd a c x) = src_of bl br G X c.
Proof. intros bl br G X [] [[k j] i] x H; cbn [src_of upd co] in *; rewrite H; reflexivity. Qed.
Lemma src_of_upd' : forall bl br G X a c x y, src_row (bl a) (br a) G X a x = y ->
  src_of bl br G X (upd a c x) = upd a (src_of bl br G X c) y.
Proof. intros bl br G X [] [[k j] i] x y H; cbn [src_of upd co] in *; rewrite H; reflexivity. Qed.
(** All functions applied by boundary conditions to one cell commute. *)
Definition is_flip (X : kind) (t : @val F X -> @val F X) : Prop :=
  match X return (@val F X -> @val F X) -> Prop with
  | Cell => fun t => exists l : list (@cons F -> @cons F), (forall g, In g l -> exists a, g = flip_M neg a \/ g = flip_B neg a) /\ forall c, t c = fold_right (fun g c => g c) c l
  | Face _ => fun t => (forall v, t v = v) \/ (forall v, t v = neg v)
  end t.
Lemma flips_commute1 : forall g h : @cons F -> @cons F, (exists a, g = flip_M neg a \/ g = flip_B neg a) -> (exists a, h = flip_M neg a \/ h = flip_B neg a) ->
  forall c, g (h c) = h (g c).
Proof. intros g h (a & G) (b & H) c. destruct G as [->| ->], H as [->| ->], a, b, c; reflexivity. Qed.
Lemma flips_commute2 : forall (l : list (@cons F -> @cons F)) g, (forall h, In h l -> exists a, h = flip_M neg a \/ h = flip_B neg a) -> (exists a, g = flip_M neg a \/ g = flip_B neg a) ->
  forall c, g (fold_right (fun g c => g c) c l) = fold_right (fun g c => g c) (g c) l.
Proof.
  intros l g H G c. induction l as [|h l IH]; cbn [fold_right]; auto. rewrite (flips_commute1 g h) by (auto; apply H; left; auto). f_equal. apply IH. intros; apply H; right; auto.
Qed.
Lemma flips_commute : forall X t u, is_flip X t -> is_flip X u -> forall v, t (u v) = u (t v).
Proof.
  intros [|n] t u; cbn [is_flip val].
  - intros (l & L & T) (m & M & U) c. rewrite !T, !U. clear T U.
    induction l as [|g l IH]; cbn [fold_right]; auto. rewrite IH by (intros; apply L; right; auto). apply flips_commute2; auto. apply L. left. auto.
  - intros [T|T] [U|U] v; rewrite !T, !U, ?T, ?U; reflexivity.
Qed.
Lemma trans_flip : forall b a X, is_flip X (trans neg b a X).
Proof.
  intros b a [|n]; cbn [is_flip].
  - assert (I : exists l : list (@cons F -> @cons F), (forall g, In g l -> exists a, g = flip_M neg a \/ g = flip_B neg a) /\ forall c, c = fold_right (fun g c => g c) c l)
      by (exists []; split; [intros g []|reflexivity]).
    destruct b; cbn [trans]; auto.
    + exists [flip_B neg a; flip_M neg a]. split; [|reflexivity]. intros g [<-|[<-|[]]]; exists a; auto.
    + destruct a; cbn [flip_others].
      * exists [flip_B neg A3; flip_B neg A2; flip_M neg A1]. split; [|reflexivity]. intros g [<-|[<-|[<-|[]]]]; eauto.
      * exists [flip_B neg A3; flip_B neg A1; flip_M neg A2]. split; [|reflexivity]. intros g [<-|[<-|[<-|[]]]]; eauto.
      * exists [flip_B neg A2; flip_B neg A1; flip_M neg A3]. split; [|reflexivity]. intros g [<-|[<-|[<-|[]]]]; eauto.
  - destruct b; cbn [trans]; auto; destruct (axis_eqb a n); auto.
Qed.

(** The function applied along another axis commutes with that of axis [a]: always, unless
    a reflecting boundary face of the other axis meets a conducting boundary. *)
Lemma tr_row_commute : forall bl br G X a' x t v, is_flip X t ->
  (normal X a' = false \/ (forall v, t v = v) \/ neg zero = zero) ->
  tr_row neg zero bl br G X a' x (t v) = t (tr_row neg zero bl br G X a' x v).
Proof.
  intros bl br G X a' x t v FT H. unfold tr_row. destruct (g_N G a' >? 1); auto.
  destruct (x <? fst_ G a'); [apply flips_commute; auto; apply trans_flip|].
  destruct (x >? lst_ G a' + btoz (normal X a')); [apply flips_commute; auto; apply trans_flip|].
  assert (B : forall b, normal X a' = true -> blank zero b a' X (t v) = t (blank zero b a' X v)).
  { intros b N. destruct H as [H|[H|H]]; [congruence|rewrite !H; reflexivity|]. destruct X as [|n]; [discriminate|].
    cbn [blank normal is_flip] in *. destruct b; auto. rewrite N. destruct FT as [T|T]; rewrite T; auto. }
  destruct (normal X a') eqn:N; auto. cbn [andb]. destruct (x =? fst_ G a'); auto. destruct (x =? lst_ G a' + 1); auto.
Qed.
(** If in the row along [a] the element [c] takes the value [t] of the element with the same
    source as [upd a c x], and [x] is not itself transformed, then the same holds after the
    call. *)
Lemma row_relation : forall bl br G X a f c x t, geom_ok G -> exists_ G X c -> ext G X a x = true ->
  is_flip X t -> (forall v, tr_row neg zero (bl a) (br a) G X a (co a c) v = t (tr_row neg zero (bl a) (br a) G X a x v)) ->
  src_row (bl a) (br a) G X a x = src_row (bl a) (br a) G X a (co a c) ->
  (forall a', a' <> a -> normal X a' = false \/ (forall v, t v = v) \/ neg zero = zero) ->
  let f' := bvals_mhd neg zero bl br G f in get X f' c = t (get X f' (upd a c x)).
Proof.
  intros bl br G X a f c x t OK E EX FT HT HS HC f'. unfold f'.
  assert (E' := exists_upd G X a c x E EX). rewrite !ghost_values by auto. rewrite src_of_upd by auto.
  assert (CM : forall a' y v, a' <> a -> tr_row neg zero (bl a') (br a') G X a' y (t v) = t (tr_row neg zero (bl a') (br a') G X a' y v))
    by (intros; apply tr_row_commute; auto).
  destruct a; rewrite co_upd, !co_upd_other by discriminate; rewrite HT, ?CM by discriminate; reflexivity.
Qed.

Lemma row_facts : forall G a, geom_ok G -> 1 < g_N G a ->
  (g_N G a >? 1) = true /\ fst_ G a = g_ng G /\ lst_ G a = g_N G a + g_ng G - 1 /\ g_ng G <= g_N G a /\ 1 <= g_ng G.
Proof.
  intros G a (Hng & _ & HN) N. assert (EN : (g_N G a >? 1) = true) by (rewrite Z.gtb_ltb; apply Z.ltb_lt; auto).
  unfold fst_, lst_. rewrite EN. destruct (HN a) as [H|[_ H]]; [lia|]. auto.
Qed.
Lemma id_flip : forall X, is_flip X (fun v => v).
Proof. intros [|n]; cbn [is_flip]; [|left; auto]. exists []. split; [intros g []|reflexivity]. Qed.

Definition copies (b : bc) : Prop := b = Peri \/ b = Outf.
Lemma trans_copies : forall b a X v, copies b -> trans neg b a X v = v.
Proof. intros b a X v [->| ->]; destruct X; reflexivity. Qed.
Lemma blank_copies : forall b a X v, copies b -> blank zero b a X v = v.
Proof. intros b a X v [->| ->]; destruct X; reflexivity. Qed.
Lemma tr_row_id : forall bl br G X a x v, copies bl -> copies br -> tr_row neg zero bl br G X a x v = v.
Proof.
  intros bl br G X a x v L R. unfold tr_row. destruct (g_N G a >? 1); auto. destruct (x <? fst_ G a); [apply trans_copies; auto|].
  destruct (x >? _); [apply trans_copies; auto|]. destruct (normal X a && (x =? fst_ G a)); [apply blank_copies; auto|].
  destruct (_ && _); [apply blank_copies; auto|auto].
Qed.
Lemma left_ghost : forall bl br G X a x, 1 < g_N G a -> x < fst_ G a ->
  src_row bl br G X a x = source bl (normal X a) false (fst_ G a) (lst_ G a) x /\ forall v, tr_row neg zero bl br G X a x v = trans neg bl a X v.
Proof.
  intros bl br G X a x N H. unfold src_row, tr_row. replace (g_N G a >? 1) with true by (symmetry; rewrite Z.gtb_ltb; apply Z.ltb_lt; auto).
  replace (x <? fst_ G a) with true by (symmetry; apply Z.ltb_lt; auto). auto.
Qed.
Lemma right_ghost : forall bl br G X a x, geom_ok G -> 1 < g_N G a -> x > lst_ G a + btoz (normal X a) ->
  src_row bl br G X a x = source br (normal X a) true (fst_ G a) (lst_ G a) x /\ forall v, tr_row neg zero bl br G X a x v = trans neg br a X v.
Proof.
  intros bl br G X a x OK N H. destruct (row_facts G a OK N) as (EN & S & L & H1 & H2). assert (B := btoz_le (normal X a)). unfold src_row, tr_row. rewrite EN.
  replace (x <? fst_ G a) with false by (symmetry; apply Z.ltb_ge; lia). rewrite !Z.gtb_ltb.
  replace (_ <? x) with true by (symmetry; apply Z.ltb_lt; lia). auto.
Qed.

(** ** C31 *)
Definition wrap (G : geom) (a : axis) (x : Z) : Z := fst_ G a + (x - fst_ G a) mod g_N G a.
Lemma wrap_left : forall G a x, 1 < g_N G a -> - g_N G a <= x - fst_ G a < 0 -> wrap G a x = x + g_N G a.
Proof. intros G a x N H. unfold wrap. rewrite <- (Z.mod_add _ 1) by lia. rewrite Z.mod_small by lia. lia. Qed.
Lemma wrap_right : forall G a x, 1 < g_N G a -> g_N G a <= x - fst_ G a < 2 * g_N G a -> wrap G a x = x - g_N G a.
Proof. intros G a x N H. unfold wrap. rewrite <- (Z.mod_add _ (-1)) by lia. rewrite Z.mod_small by lia. lia. Qed.
Lemma wrap_mid : forall G a x, 1 < g_N G a -> 0 <= x - fst_ G a < g_N G a -> wrap G a x = x.
Proof. intros G a x N H. unfold wrap. rewrite Z.mod_small by lia. lia. Qed.

Theorem C31_periodic : forall bl br G X a f c, geom_ok G -> 1 < g_N G a -> bl a = Peri -> br a = Peri ->
  exists_ G X c -> (normal X a = true -> co a c <> lst_ G a + 1) ->
  let f' := bvals_mhd neg zero bl br G f in get X f' c = get X f' (upd a c (wrap G a (co a c))).
Proof.
  intros bl br G X a f c OK N BL BR E NL f'. destruct (row_facts G a OK N) as (EN & S & L & H1 & H2).
  assert (EX := E a). unfold ext in EX. rewrite EN in EX. apply rng_spec in EX. assert (B := btoz_le (normal X a)).
  assert (W : fst_ G a <= wrap G a (co a c) <= lst_ G a).
  { unfold wrap. assert (M := Z.mod_pos_bound (co a c - fst_ G a) (g_N G a)). lia. }
  apply (row_relation bl br G X a f c (wrap G a (co a c)) (fun v => v)); auto.
  - unfold ext. rewrite EN. apply rng_spec. lia.
  - apply id_flip.
  - intros v. rewrite BL, BR, !tr_row_id by (left; auto). reflexivity.
  - unfold src_row. rewrite EN, BL, BR.
    replace (wrap G a (co a c) <? fst_ G a) with false by (symmetry; apply Z.ltb_ge; lia). rewrite !Z.gtb_ltb.
    replace (lst_ G a + btoz (normal X a) <? wrap G a (co a c)) with false by (symmetry; apply Z.ltb_ge; lia). cbn [source].
    destruct (Z.ltb_spec (co a c) (fst_ G a)); [rewrite wrap_left; lia|].
    destruct (Z.ltb_spec (lst_ G a + btoz (normal X a)) (co a c)); [rewrite wrap_right; lia|].
    apply wrap_mid; auto. destruct (normal X a); cbn [btoz] in *; [specialize (NL eq_refl); lia|lia].
Qed.

(** If moreover the boundary face values agree before the call, they do so after it: then the
    whole row is periodic. *)
Theorem C31_last_face : forall bl br G X a f c, geom_ok G -> 1 < g_N G a -> bl a = Peri -> br a = Peri ->
  exists_ G X c -> normal X a = true -> co a c = lst_ G a + 1 ->
  (forall d, active G X d -> co a d = lst_ G a + 1 -> get X f d = get X f (upd a d (fst_ G a))) ->
  let f' := bvals_mhd neg zero bl br G f in get X f' c = get X f' (upd a c (fst_ G a)).
Proof.
  intros bl br G X a f c OK N BL BR E NX HC HF f'. destruct (row_facts G a OK N) as (EN & S & L & H1 & H2). unfold f'.
  assert (EX : ext G X a (fst_ G a) = true) by (unfold ext; rewrite EN; apply rng_spec; rewrite NX; cbn [btoz]; lia).
  assert (AF : act G X a (fst_ G a) = true) by (unfold act; rewrite EN; apply rng_spec; rewrite NX; cbn [btoz andb]; lia).
  assert (AL : act G X a (lst_ G a + 1) = true) by (unfold act; rewrite EN; apply rng_spec; rewrite NX; cbn [btoz andb]; lia).
  assert (E' := exists_upd G X a c _ E EX). rewrite !ghost_values by auto.
  assert (SA : active G X (src_of bl br G X c)).
  { destruct c as [[k j] i]. intros []; cbn [co src_of]; apply src_act; auto; [apply (E A1)|apply (E A2)|apply (E A3)]. }
  rewrite (src_of_upd' bl br G X a c (fst_ G a) (fst_ G a)) by (apply src_row_act; auto).
  rewrite <- HF; auto.
  2: { destruct c as [[k j] i]. destruct a; cbn [co src_of] in *; rewrite HC; apply src_row_act; auto. }
  destruct a; rewrite co_upd, !co_upd_other by discriminate; rewrite BL, BR, !(tr_row_id Peri Peri) by (left; auto); reflexivity.
Qed.
(** Fully periodic Grid: every element is the active element one or more periods away. *)
Theorem C31_fully_periodic : forall bl br G f k j i, geom_ok G -> (forall a, bl a = Peri /\ br a = Peri) -> 1 < g_N G A2 -> 1 < g_N G A3 ->
  exists_ G Cell (k, j, i) ->
  fU (bvals_mhd neg zero bl br G f) (k, j, i) = fU f (wrap G A3 k, wrap G A2 j, wrap G A1 i).
Proof.
  intros bl br G f k j i OK P N2 N3 E.
  change (fU (bvals_mhd neg zero bl br G f)) with (get Cell (bvals_mhd neg zero bl br G f)). rewrite ghost_values by auto.
  assert (S : forall a x, 1 < g_N G a -> ext G Cell a x = true -> src_row (bl a) (br a) G Cell a x = wrap G a x).
  { intros a x N EX. destruct (row_facts G a OK N) as (EN & S & L & H1 & H2). destruct (P a) as [-> ->].
    unfold ext in EX. rewrite EN in EX. apply rng_spec in EX. cbn [normal btoz] in EX. unfold src_row. rewrite EN, Z.gtb_ltb. cbn [normal btoz source].
    destruct (Z.ltb_spec x (fst_ G a)); [rewrite wrap_left; lia|]. destruct (Z.ltb_spec (lst_ G a + 0) x); [rewrite wrap_right; lia|].
    rewrite wrap_mid; lia. }
  assert (T : forall a v x, tr_row neg zero (bl a) (br a) G Cell a x v = v) by (intros a v x; destruct (P a) as [-> ->]; apply tr_row_id; left; auto).
  rewrite !T. cbn [src_of get]. rewrite !S; auto; [apply OK|apply (E A1)|apply (E A2)|apply (E A3)].
Qed.

(** ** C32 *)
(** A reflecting boundary: beyond it every element is the mirror image of an element inside,
    with the normal momentum, the normal cell-centred field and the normal face field
    negated; the normal face field on the boundary is zero. *)
Definition reflected (a : axis) (X : kind) : val X -> val X :=
  match X return @val F X -> @val F X with
  | Cell => fun c => flip_B neg a (flip_M neg a c)
  | Face n => if axis_eqb a n then neg else fun v => v
  end.
Lemma mirror_left : forall bl br G X a f c, geom_ok G -> 1 < g_N G a -> (bl a = Refl \/ bl a = Cond) ->
  exists_ G X c -> co a c < fst_ G a ->
  (forall a', a' <> a -> normal X a' = false \/ (forall v, trans neg (bl a) a X v = v) \/ neg zero = zero) ->
  let f' := bvals_mhd neg zero bl br G f in
  get X f' c = trans neg (bl a) a X (get X f' (upd a c (mirror (normal X a) false (fst_ G a) (lst_ G a) (co a c)))).
Proof.
  intros bl br G X a f c OK N B E H HC f'. destruct (row_facts G a OK N) as (EN & S & L & H1 & H2). assert (Bn := btoz_le (normal X a)).
  assert (EX := E a). unfold ext in EX. rewrite EN in EX. apply rng_spec in EX.
  set (y := mirror (normal X a) false (fst_ G a) (lst_ G a) (co a c)).
  assert (Y : fst_ G a + btoz (normal X a) <= y <= lst_ G a) by (unfold y, mirror; lia).
  assert (AY : act G X a y = true) by (unfold act; rewrite EN; apply rng_spec; rewrite andb_true_r; lia).
  apply (row_relation bl br G X a f c y); auto.
  - apply act_ext; auto.
  - apply trans_flip.
  - intros v. destruct (left_ghost (bl a) (br a) G X a (co a c) N H) as [_ ->]. f_equal. symmetry. apply tr_row_act; auto.
    intros NX _. rewrite NX in *. cbn [btoz] in *. lia.
  - destruct (left_ghost (bl a) (br a) G X a (co a c) N H) as [-> _]. rewrite src_row_act by auto. destruct B as [-> | ->]; reflexivity.
Qed.
Lemma mirror_right : forall bl br G X a f c, geom_ok G -> 1 < g_N G a -> (br a = Refl \/ br a = Cond) ->
  exists_ G X c -> co a c > lst_ G a + btoz (normal X a) ->
  (forall a', a' <> a -> normal X a' = false \/ (forall v, trans neg (br a) a X v = v) \/ neg zero = zero) ->
  let f' := bvals_mhd neg zero bl br G f in
  get X f' c = trans neg (br a) a X (get X f' (upd a c (mirror (normal X a) true (fst_ G a) (lst_ G a) (co a c)))).
Proof.
  intros bl br G X a f c OK N B E H HC f'. destruct (row_facts G a OK N) as (EN & S & L & H1 & H2). assert (Bn := btoz_le (normal X a)).
  assert (EX := E a). unfold ext in EX. rewrite EN in EX. apply rng_spec in EX.
  set (y := mirror (normal X a) true (fst_ G a) (lst_ G a) (co a c)).
  assert (Y : fst_ G a + btoz (normal X a) <= y <= lst_ G a) by (unfold y, mirror; lia).
  assert (AY : act G X a y = true) by (unfold act; rewrite EN; apply rng_spec; rewrite andb_true_r; lia).
  apply (row_relation bl br G X a f c y); auto.
  - apply act_ext; auto.
  - apply trans_flip.
  - intros v. destruct (right_ghost (bl a) (br a) G X a (co a c) OK N H) as [_ ->]. f_equal. symmetry. apply tr_row_act; auto.
    intros NX _. rewrite NX in *. cbn [btoz] in *. lia.
  - destruct (right_ghost (bl a) (br a) G X a (co a c) OK N H) as [-> _]. rewrite src_row_act by auto. destruct B as [-> | ->]; reflexivity.
Qed.
Lemma refl_others : forall a X a', a' <> a -> normal X a' = false \/ (forall v, trans neg Refl a X v = v) \/ neg zero = zero.
Proof.
  intros a [|n] a' NE; [left; reflexivity|]. cbn [normal trans]. destruct (axis_eqb a' n) eqn:Q; [right; left|left; reflexivity].
  assert (axis_eqb a n = false) as -> by (destruct a, a', n; try reflexivity; try discriminate; congruence). reflexivity.
Qed.
Theorem C32_reflecting : forall bl br G X a f c, geom_ok G -> 1 < g_N G a -> exists_ G X c ->
  let f' := bvals_mhd neg zero bl br G f in
  (bl a = Refl -> co a c < fst_ G a ->
     get X f' c = reflected a X (get X f' (upd a c (2 * fst_ G a - 1 + btoz (normal X a) - co a c)))) /\
  (br a = Refl -> co a c > lst_ G a + btoz (normal X a) ->
     get X f' c = reflected a X (get X f' (upd a c (2 * lst_ G a + 1 + btoz (normal X a) - co a c)))).
Proof.
  intros bl br G X a f c OK N E f'. split; intros B H.
  - unfold f'. rewrite (mirror_left bl br G X a f c); auto; rewrite B; [reflexivity|intros a' NE; apply (refl_others a); auto].
  - unfold f'. rewrite (mirror_right bl br G X a f c); auto; rewrite B; [reflexivity|intros a' NE; apply (refl_others a); auto].
Qed.
(** The face on the reflecting boundary is set to zero. *)
Theorem C32_boundary_face : forall bl br G a f c, geom_ok G -> 1 < g_N G a -> active G (Face a) c ->
  let f' := bvals_mhd neg zero bl br G f in
  (bl a = Refl -> co a c = fst_ G a -> get (Face a) f' c = zero) /\
  (br a = Refl -> co a c = lst_ G a + 1 -> get (Face a) f' c = zero).
Proof.
  intros bl br G a f c OK N A f'. destruct (row_facts G a OK N) as (EN & S & L & H1 & H2).
  assert (E : exists_ G (Face a) c) by (intros a'; apply act_ext; auto).
  assert (O : forall a' v, a' <> a -> tr_row neg zero (bl a') (br a') G (Face a) a' (co a' c) v = v).
  { intros a' v NE. apply tr_row_act; auto. intros Q. exfalso. cbn [normal] in Q. destruct a, a'; try discriminate; congruence. }
  assert (M : forall v, (bl a = Refl /\ co a c = fst_ G a) \/ (br a = Refl /\ co a c = lst_ G a + 1) ->
     tr_row neg zero (bl a) (br a) G (Face a) a (co a c) v = zero).
  { intros v C. unfold tr_row. rewrite EN. replace (co a c <? fst_ G a) with false by (symmetry; apply Z.ltb_ge; lia). rewrite Z.gtb_ltb.
    cbn [normal]. rewrite axis_eqb_refl. cbn [btoz andb]. replace (lst_ G a + 1 <? co a c) with false by (symmetry; apply Z.ltb_ge; lia).
    destruct C as [[B C]|[B C]]; rewrite C, B.
    - rewrite Z.eqb_refl. cbn [blank]. rewrite axis_eqb_refl. reflexivity.
    - replace (lst_ G a + 1 =? fst_ G a) with false by (symmetry; apply Z.eqb_neq; lia). rewrite Z.eqb_refl. cbn [blank]. rewrite axis_eqb_refl. reflexivity. }
  unfold f'. rewrite ghost_values by auto. split; intros B C; (destruct a; [rewrite !(O A2), !(O A3), M by (auto; discriminate)|rewrite (O A3), M by (auto; discriminate)|rewrite M by auto]; reflexivity).
Qed.
(** A conducting boundary: mirror image with the normal momentum and the transverse fields
    negated.  [neg zero = zero] is needed only because of a sign of zero where a reflecting
    boundary of another axis meets it. *)
Definition conducted (a : axis) (X : kind) : val X -> val X :=
  match X return @val F X -> @val F X with
  | Cell => fun c => flip_others neg a (flip_M neg a c)
  | Face n => if axis_eqb a n then fun v => v else neg
  end.
Theorem C32_conducting : forall bl br G X a f c, geom_ok G -> 1 < g_N G a -> exists_ G X c ->
  (X = Cell \/ neg zero = zero) ->
  let f' := bvals_mhd neg zero bl br G f in
  (bl a = Cond -> co a c < fst_ G a ->
     get X f' c = conducted a X (get X f' (upd a c (2 * fst_ G a - 1 + btoz (normal X a) - co a c)))) /\
  (br a = Cond -> co a c > lst_ G a + btoz (normal X a) ->
     get X f' c = conducted a X (get X f' (upd a c (2 * lst_ G a + 1 + btoz (normal X a) - co a c)))).
Proof.
  intros bl br G X a f c OK N E HX f'.
  assert (HO : forall b a', a' <> a -> normal X a' = false \/ (forall v, trans neg b a X v = v) \/ neg zero = zero).
  { intros b a' _. destruct HX as [-> | HX]; auto. }
  split; intros B H.
  - unfold f'. rewrite (mirror_left bl br G X a f c); auto; rewrite B; reflexivity.
  - unfold f'. rewrite (mirror_right bl br G X a f c); auto; rewrite B; reflexivity.
Qed.

(** ** C33 *)
Lemma outflow_left : forall bl br G X a f c, geom_ok G -> 1 < g_N G a -> bl a = Outf -> exists_ G X c -> co a c < fst_ G a ->
  let f' := bvals_mhd neg zero bl br G f in get X f' c = get X f' (upd a c (fst_ G a)).
Proof.
  intros bl br G X a f c OK N B E H f'. destruct (row_facts G a OK N) as (EN & S & L & H1 & H2). assert (Bn := btoz_le (normal X a)).
  assert (AY : act G X a (fst_ G a) = true) by (unfold act; rewrite EN; apply rng_spec; rewrite andb_true_r; lia).
  apply (row_relation bl br G X a f c (fst_ G a) (fun v => v)); auto.
  - apply act_ext; auto.
  - apply id_flip.
  - intros v. destruct (left_ghost (bl a) (br a) G X a (co a c) N H) as [_ ->]. rewrite B, trans_copies by (right; auto). symmetry. apply tr_row_act; auto.
    intros NX _. rewrite ?NX in *. cbn [btoz] in *. split; [discriminate|lia].
  - destruct (left_ghost (bl a) (br a) G X a (co a c) N H) as [-> _]. rewrite src_row_act by auto. rewrite B. reflexivity.
Qed.
Lemma outflow_right : forall bl br G X a f c, geom_ok G -> 1 < g_N G a -> br a = Outf -> exists_ G X c -> co a c > lst_ G a + btoz (normal X a) ->
  let f' := bvals_mhd neg zero bl br G f in get X f' c = get X f' (upd a c (lst_ G a)).
Proof.
  intros bl br G X a f c OK N B E H f'. destruct (row_facts G a OK N) as (EN & S & L & H1 & H2). assert (Bn := btoz_le (normal X a)).
  assert (AY : act G X a (lst_ G a) = true) by (unfold act; rewrite EN; apply rng_spec; rewrite andb_true_r; lia).
  apply (row_relation bl br G X a f c (lst_ G a) (fun v => v)); auto.
  - apply act_ext; auto.
  - apply id_flip.
  - intros v. destruct (right_ghost (bl a) (br a) G X a (co a c) OK N H) as [_ ->]. rewrite B, trans_copies by (right; auto). symmetry. apply tr_row_act; auto.
    intros NX _. rewrite ?NX in *. cbn [btoz] in *. split; intros; try discriminate; lia.
  - destruct (right_ghost (bl a) (br a) G X a (co a c) OK N H) as [-> _]. rewrite src_row_act by auto. rewrite B. reflexivity.
Qed.
(** Beyond an outflow boundary every element equals the nearest active cell's element. *)
Theorem C33_outflow : forall bl br G X a f c, geom_ok G -> 1 < g_N G a -> exists_ G X c ->
  let f' := bvals_mhd neg zero bl br G f in
  (bl a = Outf -> co a c < fst_ G a -> get X f' c = get X f' (upd a c (fst_ G a))) /\
  (br a = Outf -> co a c > lst_ G a + btoz (normal X a) -> get X f' c = get X f' (upd a c (lst_ G a))).
Proof. intros. split; intros; [apply outflow_left|apply outflow_right]; auto. Qed.

(** ** C53: no boundary function touches memory outside the arrays *)
Definition in_bounds (G : geom) (c : idx) : Prop := forall a, 0 <= co a c < alloc (g_N G a) (g_ng G).
(** Axes are used in order: a Grid with cells along x3 has cells along x2 (init_mesh.c). *)
Definition dims_ok (G : geom) : Prop := 1 < g_N G A3 -> 1 < g_N G A2.
Theorem C53_in_bounds : forall b right a X G t, geom_ok G -> dims_ok G -> 1 < g_N G a ->
  In t (pget X (bc_fun neg zero b a right G)) ->
  in_bounds G (fst t) /\ forall s g, snd t = Copy s g -> in_bounds G s.
Proof.
  intros b right a X G t OK D N I. destruct (side1 neg zero b right a X G OK N t I) as [B R].
  destruct (row_facts G a OK N) as (EN & S & L & H1 & H2).
  assert (HA : forall a', a' <> a -> 0 <= co a' (fst t) < alloc (g_N G a') (g_ng G)).
  { intros a' NE. assert (Q : bx b right G X a a' (co a' (fst t)) = true) by (apply (box_true (F:=F) neg zero) in B; destruct a'; intuition).
    unfold bx in Q. assert (axis_eqb a a' = false) as E by (destruct a, a'; try reflexivity; congruence). rewrite E in Q.
    assert (Bn := btoz_le (normal X a')). assert (Hq : 0 <= quirk b right X a a' <= 1) by (clear; destruct b, right, X as [|[]], a, a'; cbn; lia).
    assert (Hz : quirk b right X a a' = 1 -> btoz (normal X a') = 1) by (clear; destruct b, right, X as [|[]], a, a'; cbn; try lia; auto).
    unfold alloc. destruct (g_N G a' >? 1) eqn:EN'.
    - assert (S' : fst_ G a' = g_ng G) by (unfold fst_; rewrite EN'; auto). assert (L' : lst_ G a' = g_N G a' + g_ng G - 1) by (unfold lst_; rewrite EN'; auto).
      destruct (before a' a); [apply rng_spec in Q; lia|]. unfold act in Q. apply rng_spec in Q. rewrite EN', andb_true_r in Q. lia.
    - assert (before a' a = false) as E2.
      { destruct OK as (_ & HN1 & _). unfold dims_ok in D. cbn [g_N] in *. rewrite Z.gtb_ltb in EN'. apply Z.ltb_ge in EN'.
        destruct a, a'; try reflexivity; try congruence; cbn [g_N] in *; lia. }
      rewrite E2 in Q. unfold act in Q. apply rng_spec in Q. rewrite EN', andb_false_r in Q. unfold fst_, lst_ in Q. rewrite EN' in Q. cbn [btoz] in Q. lia. }
  assert (Qa : bx b right G X a a (co a (fst t)) = true) by (apply (box_true (F:=F) neg zero) in B; destruct a; intuition).
  unfold bx in Qa. rewrite axis_eqb_refl in Qa. assert (Bn := btoz_le (normal X a)).
  assert (A0 : alloc (g_N G a) (g_ng G) = g_N G a + 2 * g_ng G) by (unfold alloc; rewrite EN; auto).
  assert (Hx : 0 <= co a (fst t) < alloc (g_N G a) (g_ng G)).
  { rewrite A0. destruct right, (normal X a), (is_refl b); cbn [andb negb btoz] in Qa; apply rng_spec in Qa; lia. }
  split.
  - intros a'. destruct (axis_eqb a' a) eqn:Q; [assert (a' = a) as -> by (destruct a, a'; try reflexivity; discriminate); auto|].
    apply HA. intros ->. rewrite axis_eqb_refl in Q. discriminate.
  - intros s g Es. rewrite R in Es.
    assert (Us : s = upd a (fst t) (source b (normal X a) right (fst_ G a) (lst_ G a) (co a (fst t)))).
    { unfold rr in Es. destruct X; [apply cp_inj in Es; auto|]. destruct (_ && _ && _); [discriminate|apply cp_inj in Es; auto]. }
    subst s. intros a'. destruct (axis_eqb a' a) eqn:Q.
    + assert (a' = a) as -> by (destruct a, a'; try reflexivity; discriminate). rewrite co_upd, A0.
      destruct right, (normal X a), b; cbn [andb negb btoz is_refl source mirror] in *; apply rng_spec in Qa; lia.
    + rewrite co_upd_other by (intros ->; rewrite axis_eqb_refl in Q; discriminate). apply HA. intros ->. rewrite axis_eqb_refl in Q. discriminate.
Qed.
End Props.

(** ** Examples and refutations *)
Definition exG : geom := Geom 2 4 3 1.
Definition exf : @fields Z := Flds (fun c => match c with (k, j, i) => Cons (100 * k + 10 * j + i) i j k 5 1 2 3 [7; j] end)
  (fun c => match c with (k, j, i) => 1000 + 100 * k + 10 * j + i end) (fun c => match c with (k, j, i) => 2000 + 100 * k + 10 * j + i end) (fun _ => 9).
Example exG_ok : geom_ok exG /\ dims_ok exG.
Proof. split; [|intros H; cbn in H; lia]. split; [cbn; lia|]. split; [cbn; lia|]. intros []; cbn; lia. Qed.
(** A corner ghost cell and a ghost face exist and are not active. *)
Example ex_corner : exists_ exG Cell (0, 0, 7) /\ ~ active exG Cell (0, 0, 7) /\ exists_ exG (Face A1) (0, 0, 7).
Proof. split; [intros []; reflexivity|]. split; [intros H; specialize (H A1); discriminate|intros []; reflexivity]. Qed.
Example C31_example : let b := fun _ : axis => Peri in
  fU (bvals_mhd Z.opp 0 b b exG exf) (0, 0, 7) = fU exf (0, 3, 3).
Proof. reflexivity. Qed.
Example C32_example : let b := fun _ : axis => Refl in
  fU (bvals_mhd Z.opp 0 b b exG exf) (0, 0, 7) = Cons 34 (-4) (-3) 0 5 (-1) (-2) 3 [7; 3] /\
  fB1 (bvals_mhd Z.opp 0 b b exG exf) (0, 0, 7) = - (1000 + 30 + 5).
Proof. split; reflexivity. Qed.
Example C33_example : let b := fun _ : axis => Outf in
  fU (bvals_mhd Z.opp 0 b b exG exf) (0, 0, 7) = fU exf (0, 2, 5).
Proof. reflexivity. Qed.
(** Beyond the right end the normal face field is not that of the nearest face (the boundary
    face lst+1) but that of the face before it. *)
Theorem C33_normal_face_refuted : exists (G : geom) (f : @fields Z) bl br c, geom_ok G /\ br A1 = Outf /\ exists_ G (Face A1) c /\
  co A1 c > lst_ G A1 + 1 /\ let f' := bvals_mhd Z.opp 0 bl br G f in
  fB1 f' c <> fB1 f' (upd A1 c (lst_ G A1 + 1)).
Proof.
  exists exG, exf, (fun _ => Outf), (fun _ => Outf), (0, 2, 7). split; [apply exG_ok|]. split; [reflexivity|]. split; [intros []; reflexivity|].
  split; [reflexivity|]. discriminate.
Qed.
(** With fewer than nghost cells an outflow or periodic boundary still works, but a
    reflecting one reads ghost cells that do not hold data yet. *)
Theorem C32_few_cells_refuted : exists (G : geom) (f : @fields Z) c, 1 < g_N G A1 /\ exists_ G Cell c /\ co A1 c < fst_ G A1 /\
  let b := fun _ : axis => Refl in let f' := bvals_mhd Z.opp 0 b b G f in
  fU f' c <> reflected Z.opp A1 Cell (fU f' (upd A1 c (2 * fst_ G A1 - 1 - co A1 c))).
Proof.
  exists (Geom 4 2 1 1), exf, (0, 0, 1). split; [reflexivity|]. split; [intros []; reflexivity|]. split; [reflexivity|]. vm_compute. discriminate.
Qed.
Print Assumptions C31_active_unchanged.
Print Assumptions C31_periodic.
Print Assumptions C31_last_face.
Print Assumptions C31_fully_periodic.
Print Assumptions C32_reflecting.
Print Assumptions C32_boundary_face.
Print Assumptions C32_conducting.
Print Assumptions C33_outflow.
Print Assumptions C53_in_bounds.
