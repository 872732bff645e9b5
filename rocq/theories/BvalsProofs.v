(** The loops of BvalsModel.v satisfy the description of BvalsSpec.v. *)
From Coq Require Import ZArith List Bool Lia.
From Verif Require Import Loop BvalsModel BvalsSpec.
Import ListNotations.
Open Scope Z_scope.

(** A list of assignments that writes exactly the elements of a box, each according to a
    function of its index, without reading elements of the box. *)
Lemma run_box : forall V (L : list (asg V)) (A : arr V) (box : idx -> bool) (r : idx -> rhs V),
  (forall a, In a L -> box (fst a) = true /\ snd a = r (fst a)) ->
  (forall c, box c = true -> In (c, r c) L) ->
  (forall c s f, box c = true -> r c = Copy s f -> box s = false) ->
  forall c, run L A c = if box c then eval A (r c) else A c.
Proof.
  intros V L A box r H1 H2 H3 c. destruct (box c) eqn:E.
  - change c with (fst (c, r c)) at 1. rewrite run_hit; [reflexivity| | |apply H2; auto].
    + intros a b s f Ia Ib Es Eb. destruct (H1 a Ia) as [Ba Sa]. destruct (H1 b Ib) as [Bb _].
      assert (box s = false) by (apply (H3 (fst a) s f); congruence). congruence.
    + intros b d Ib Id Eq. destruct (H1 b Ib) as [_ ->]. destruct (H1 d Id) as [_ ->]. rewrite Eq. reflexivity.
  - apply run_miss. intros a Ia Ea. destruct (H1 a Ia) as [B _]. congruence.
Qed.

Lemma rng_spec : forall lo hi x, rng lo hi x = true <-> lo <= x <= hi.
Proof. intros. unfold rng. rewrite andb_true_iff, !Z.leb_le. lia. Qed.
Lemma rng_false : forall lo hi x, rng lo hi x = false <-> (x < lo \/ hi < x).
Proof. intros. unfold rng. rewrite andb_false_iff, !Z.leb_gt. lia. Qed.

Section Proofs.
Context {F : Type} (neg : F -> F) (zero : F).
Notation apply_ := (@apply F).

Definition pget (X : kind) (p : @prog F) : list (asg (val X)) :=
  match X return list (asg (@val F X)) with Cell => pU p | Face A1 => pB1 p | Face A2 => pB2 p | Face A3 => pB3 p end.
Lemma get_apply : forall X p f, get X (apply p f) = run (pget X p) (get X f).
Proof. intros [|[]] p f; reflexivity. Qed.

(** The box written by one boundary function. *)
Definition before (a b : axis) : bool :=
  match a, b with A1, A2 | A1, A3 | A2, A3 => true | _, _ => false end.
(* conduct_ix2 starts its loop over B1i one element further left *)
Definition quirk (b : bc) (right : bool) (X : kind) (a a' : axis) : Z :=
  match b, right, X, a, a' with Cond, false, Face A1, A2, A1 => 1 | _, _, _, _, _ => 0 end.
Definition is_refl (b : bc) : bool := match b with Refl => true | _ => false end.
Definition bx (b : bc) (right : bool) (G : geom) (X : kind) (a a' : axis) (x : Z) : bool :=
  let s := fst_ G a' in let e := lst_ G a' in let n := normal X a' in let ng := g_ng G in
  if axis_eqb a a' then
    if right then rng (e + 1 + btoz (n && negb (is_refl b))) (e + ng) x
    else rng (s - ng + btoz n) (s - 1 + btoz (n && is_refl b)) x
  else if before a' a then rng (s - ng + btoz n - quirk b right X a a') (e + ng) x
  else act G X a' x.
Definition box (b : bc) (right : bool) (G : geom) (X : kind) (a : axis) (c : idx) : bool :=
  bx b right G X a A1 (co A1 c) && bx b right G X a A2 (co A2 c) && bx b right G X a A3 (co A3 c).
Definition rr (b : bc) (right : bool) (G : geom) (X : kind) (a : axis) (c : idx) : rhs (val X) :=
  let s := fst_ G a in let e := lst_ G a in
  let cp := Copy (upd a c (source b (normal X a) right s e (co a c))) (trans neg b a X) in
  match X return rhs (val X) -> rhs (val X) with
  | Cell => fun cp => cp
  | Face n => fun cp => if is_refl b && axis_eqb a n && (co a c =? (if right then e + 1 else s)) then Const zero else cp
  end cp.

Lemma box_true : forall b right G X a c, box b right G X a c = true <->
  bx b right G X a A1 (co A1 c) = true /\ bx b right G X a A2 (co A2 c) = true /\ bx b right G X a A3 (co A3 c) = true.
Proof. intros. unfold box. rewrite !andb_true_iff. tauto. Qed.

Lemma cp_eq : forall V s s' (f g : V -> V), s = s' -> f = g -> Copy s f = Copy s' g.
Proof. intros; subst; reflexivity. Qed.
Lemma tri_eq : forall k j i k' j' i' : Z, k = k' -> j = j' -> i = i' -> (k, j, i) = (k', j', i').
Proof. intros; subst; reflexivity. Qed.

Lemma cp_inj : forall V s s' (f g : V -> V), Copy s f = Copy s' g -> s = s'.
Proof. intros V s s' f g H. congruence. Qed.

Ltac norm :=
  cbn [normal axis_eqb before quirk is_refl andb negb btoz co upd fst snd mirror source trans flip_M flip_B flip_others] in *.
Ltac unf := unfold bx, act, rr, source, mirror, fst_, lst_, g_N in *.
Ltac unfP := unfold pget, bc_fun, pU, pB1, pB2, pB3,
  reflect_ix1, reflect_ox1, reflect_ix2, reflect_ox2, reflect_ix3, reflect_ox3,
  outflow_ix1, outflow_ox1, outflow_ix2, outflow_ox2, outflow_ix3, outflow_ox3,
  periodic_ix1, periodic_ox1, periodic_ix2, periodic_ox2, periodic_ix3, periodic_ox3,
  conduct_ix1, conduct_ox1, conduct_ix2, conduct_ox2, conduct_ix3, conduct_ox3,
  g_is, g_ie, g_js, g_je, g_ks, g_ke, same in *.
Ltac inv_in H :=
  repeat first
    [ rewrite in_app_iff in H; destruct H as [H|H]
    | rewrite in_for in H; let x := fresh "x" in let L := fresh "L" in destruct H as (x & L & H)
    | match type of H with In _ [_] => destruct H as [H|[]]; subst end ].
Ltac eqbs := repeat match goal with |- context [?x =? ?y] => destruct (Z.eqb_spec x y); try lia; cbn [andb] in * end.
Ltac solve_rr := unf; norm; eqbs; first [reflexivity | apply cp_eq; [apply tri_eq; lia | reflexivity]].
Ltac wit x := rewrite in_for; exists x; split; [lia|].
Ltac fin := left; apply f_equal2; [apply tri_eq; lia | solve_rr].

Lemma gtb_dec : forall x, (x >? 1 = true /\ 1 < x) \/ (x >? 1 = false /\ x <= 1).
Proof. intros x. destruct (Z.gtb_spec x 1); [left|right]; auto. Qed.

Ltac setup G := intros OK N; destruct OK as (Hng & HN1 & HN); assert (M2 := HN A2); assert (M3 := HN A3); assert (M1 := HN A1); clear HN;
  cbn [g_N] in M1, M2, M3, N;
  destruct (gtb_dec (g_N1 G)) as [[E1 E1']|[E1 E1']]; [|exfalso; lia];
  destruct (gtb_dec (g_N2 G)) as [[E2 E2']|[E2 E2']]; try (exfalso; lia);
  destruct (gtb_dec (g_N3 G)) as [[E3 E3']|[E3 E3']]; try (exfalso; lia).
Ltac rw := cbn [g_N] in *; repeat match goal with E : (_ >? 1) = _ |- _ => rewrite E in * end; cbn [andb] in *.

(* the written elements are those of the box and get the described value *)
Lemma side1 : forall b right a X G, geom_ok G -> 1 < g_N G a ->
  forall t, In t (pget X (bc_fun neg zero b a right G)) -> box b right G X a (fst t) = true /\ snd t = rr b right G X a (fst t).
Proof.
  intros b right a X G. 
  destruct a; setup G; intros t I;
  destruct b, right, X as [|[]]; unfP; rw; inv_in I;
  (split; [apply box_true; unf; norm; rw; norm; rewrite !rng_spec; lia | unf; norm; rw; solve_rr]).
Qed.

Ltac bxs B := apply box_true in B; unf; norm; rw; norm; rewrite !rng_spec in B; destruct B as (B1 & B2 & B3).

Ltac zcase x b t1 t2 := solve [rewrite in_app_iff; destruct (Z.eq_dec x b) as [->|]; [left; t1 | right; t2]].
Lemma side2_1 : forall b right X G, geom_ok G -> 1 < g_N G A1 ->
  forall c, box b right G X A1 c = true -> In (c, rr b right G X A1 c) (pget X (bc_fun neg zero b A1 right G)).
Proof.
  intros b right X G. setup G; intros [[k j] i] B; destruct b, right, X as [|[]]; bxs B; unfP; rw;
  wit k; wit j;
  first [ solve [wit (g_ng G - i); fin] | solve [wit (i - (g_N1 G + g_ng G - 1)); fin]
        | zcase i (g_ng G) fin ltac:(wit (g_ng G - i); fin)
        | zcase i (g_N1 G + g_ng G - 1 + 1) fin ltac:(wit (i - (g_N1 G + g_ng G - 1)); fin)].
Qed.
Lemma side2_2 : forall b right X G, geom_ok G -> 1 < g_N G A2 ->
  forall c, box b right G X A2 c = true -> In (c, rr b right G X A2 c) (pget X (bc_fun neg zero b A2 right G)).
Proof.
  intros b right X G. setup G; intros [[k j] i] B; destruct b, right, X as [|[]]; bxs B; unfP; rw;
  wit k; 
  first [ solve [wit (g_ng G - j); wit i; fin] | solve [wit (j - (g_N2 G + g_ng G - 1)); wit i; fin]
        | zcase j (g_ng G) ltac:(wit i; fin) ltac:(wit (g_ng G - j); wit i; fin)
        | zcase j (g_N2 G + g_ng G - 1 + 1) ltac:(wit i; fin) ltac:(wit (j - (g_N2 G + g_ng G - 1)); wit i; fin)].
Qed.
Lemma side2_3 : forall b right X G, geom_ok G -> 1 < g_N G A3 ->
  forall c, box b right G X A3 c = true -> In (c, rr b right G X A3 c) (pget X (bc_fun neg zero b A3 right G)).
Proof.
  intros b right X G. setup G; intros [[k j] i] B; destruct b, right, X as [|[]]; bxs B; unfP; rw;
  first [ solve [wit (g_ng G - k); wit j; wit i; fin] | solve [wit (k - (g_N3 G + g_ng G - 1)); wit j; wit i; fin]
        | zcase k (g_ng G) ltac:(wit j; wit i; fin) ltac:(wit (g_ng G - k); wit j; wit i; fin)
        | zcase k (g_N3 G + g_ng G - 1 + 1) ltac:(wit j; wit i; fin) ltac:(wit (k - (g_N3 G + g_ng G - 1)); wit j; wit i; fin)].
Qed.
Ltac eqb_in R := repeat match type of R with context [?x =? ?y] => destruct (Z.eqb_spec x y); cbn [andb] in R; try discriminate R end.
Lemma side3 : forall b right a X G, geom_ok G -> 1 < g_N G a ->
  forall c s f, box b right G X a c = true -> rr b right G X a c = Copy s f -> box b right G X a s = false.
Proof.
  intros b right a X G OK N [[k j] i] s f B R.
  assert (Q : bx b right G X a a (co a s) = false).
  { revert B R. revert OK N. destruct a; setup G; intros B R; destruct b, right, X as [|[]]; bxs B; eqb_in R; apply cp_inj in R; rewrite <- R; norm; apply rng_false; lia. }
  destruct (box b right G X a s) eqn:E; auto. apply box_true in E. destruct a; intuition congruence.
Qed.
Theorem side : forall b right a X G (A : arr (val X)), geom_ok G -> 1 < g_N G a ->
  forall c, run (pget X (bc_fun neg zero b a right G)) A c = if box b right G X a c then eval A (rr b right G X a c) else A c.
Proof.
  intros b right a X G A OK N. apply run_box; [apply side1; auto | | intros; eapply side3; eauto].
  destruct a; [apply side2_1|apply side2_2|apply side2_3]; auto.
Qed.

(** One axis: left function, then right function. *)
Definition step_dom (G : geom) (X : kind) (a : axis) (c : idx) : Prop :=
  forall a', (if axis_eqb a' a || before a' a then ext G X a' (co a' c) else act G X a' (co a' c)) = true.
Lemma side_in : forall b right a X G (A : arr (val X)) c, geom_ok G -> 1 < g_N G a -> box b right G X a c = true ->
  run (pget X (bc_fun neg zero b a right G)) A c = eval A (rr b right G X a c).
Proof. intros. rewrite side by auto. rewrite H1. reflexivity. Qed.
Lemma side_out : forall b right a X G (A : arr (val X)) c, geom_ok G -> 1 < g_N G a -> bx b right G X a a (co a c) = false ->
  run (pget X (bc_fun neg zero b a right G)) A c = A c.
Proof.
  intros b right a X G A c OK N H. rewrite side by auto. destruct (box b right G X a c) eqn:E; auto. apply box_true in E. destruct a; intuition congruence.
Qed.
Lemma co_upd : forall a c x, co a (upd a c x) = x.
Proof. intros [] [[k j] i] x; reflexivity. Qed.
Lemma co_upd_other : forall a b c x, a <> b -> co b (upd a c x) = co b c.
Proof. intros [] [] [[k j] i] x; try reflexivity; congruence. Qed.
Lemma upd_same : forall a c, upd a c (co a c) = c.
Proof. intros [] [[k j] i]; reflexivity. Qed.
Lemma upd_upd : forall a c x y, upd a (upd a c x) y = upd a c y.
Proof. intros [] [[k j] i] x y; reflexivity. Qed.
Lemma axis_eqb_refl : forall a, axis_eqb a a = true.
Proof. intros []; reflexivity. Qed.
Lemma btoz_le : forall b, 0 <= btoz b <= 1.
Proof. intros []; cbn; lia. Qed.
Lemma quirk_ge : forall b right X a a', 0 <= quirk b right X a a'.
Proof. intros [] [] [|[]] [] []; cbn; lia. Qed.
Lemma others : forall b right G X a c, geom_ok G -> step_dom G X a c -> forall a', a' <> a -> bx b right G X a a' (co a' c) = true.
Proof.
  intros b right G X a c OK D a' NE. specialize (D a'). unfold bx.
  assert (E : axis_eqb a a' = false) by (destruct a, a'; try reflexivity; congruence). rewrite E.
  assert (E' : axis_eqb a' a = false) by (destruct a, a'; try reflexivity; congruence). rewrite E' in D. cbn [orb] in D.
  destruct (before a' a); auto. unfold ext in D. assert (B := btoz_le (normal X a')). assert (Q := quirk_ge b right X a a').
  destruct OK as (Hng & _ & _).
  destruct (g_N G a' >? 1) eqn:EN.
  - apply rng_spec in D. apply rng_spec. lia.
  - apply Z.eqb_eq in D. apply rng_spec. unfold fst_, lst_. rewrite EN. lia.
Qed.
Lemma box_iff : forall b right G X a c, geom_ok G -> step_dom G X a c -> box b right G X a c = bx b right G X a a (co a c).
Proof.
  intros b right G X a c OK D. assert (O := others b right G X a c OK D). unfold box.
  destruct a; rewrite ?(O A1), ?(O A2), ?(O A3) by discriminate; cbn [andb]; rewrite ?andb_true_r; reflexivity.
Qed.
Lemma eval_rr : forall b right G X a c (A : arr (val X)) v, eval A (rr b right G X a c) =
  if is_refl b && normal X a && (co a c =? (if right then lst_ G a + 1 else fst_ G a)) then blank zero b a X v
  else trans neg b a X (A (upd a c (source b (normal X a) right (fst_ G a) (lst_ G a) (co a c)))).
Proof.
  intros b right G X a c A v. unfold rr. destruct X as [|n]; cbn [normal].
  - rewrite andb_false_r. cbn [andb eval]. reflexivity.
  - destruct (is_refl b && axis_eqb a n && _) eqn:E; cbn [eval]; auto.
    apply andb_true_iff in E. destruct E as [E _]. apply andb_true_iff in E. destruct E as [Eb En].
    destruct b; try discriminate. cbn [blank]. rewrite En. reflexivity.
Qed.
Lemma step_upd : forall G X a c x, step_dom G X a c -> ext G X a x = true -> step_dom G X a (upd a c x).
Proof.
  intros G X a c x D E a'. specialize (D a'). destruct (axis_eqb a' a) eqn:Q.
  - assert (a' = a) as -> by (destruct a, a'; try reflexivity; discriminate). cbn [orb]. rewrite co_upd. auto.
  - rewrite co_upd_other by (intros ->; rewrite axis_eqb_refl in Q; discriminate). exact D.
Qed.
Lemma blank_not : forall b a X v, is_refl b && normal X a = false -> blank zero b a X v = v.
Proof. intros b a [|n] v H; cbn [normal blank] in *; auto. destruct b; auto. cbn [is_refl andb] in H. rewrite H. reflexivity. Qed.

Lemma axis_step : forall bl br G X a f c, geom_ok G -> step_dom G X a c ->
  get X (phys_axis neg zero bl br G a f) c =
  tr_row neg zero (bl a) (br a) G X a (co a c) (get X f (upd a c (src_row (bl a) (br a) G X a (co a c)))).
Proof.
  intros bl br G X a f c OK D. unfold phys_axis, tr_row, src_row.
  destruct (g_N G a >? 1) eqn:EN; [|rewrite upd_same; reflexivity].
  assert (N : 1 < g_N G a) by (rewrite Z.gtb_ltb in EN; apply Z.ltb_lt in EN; auto).
  assert (S : fst_ G a = g_ng G) by (unfold fst_; rewrite EN; auto).
  assert (E : lst_ G a = g_N G a + g_ng G - 1) by (unfold lst_; rewrite EN; auto).
  destruct OK as (Hng & HN1 & HN). assert (OK : geom_ok G) by (split; auto). destruct (HN a) as [H|[_ Hge]]; [lia|].
  assert (X1 : ext G X a (co a c) = true) by (specialize (D a); rewrite axis_eqb_refl in D; exact D).
  unfold ext in X1. rewrite EN in X1. apply rng_spec in X1.
  rewrite !get_apply. set (A := get X f). set (x := co a c) in *. set (n := normal X a) in *.
  assert (Bn := btoz_le n).
  set (s := fst_ G a) in *. set (e := lst_ G a) in *.
  assert (Lb : forall b right y, bx b right G X a a y =
     if right then rng (e + 1 + btoz (n && negb (is_refl b))) (e + g_ng G) y
     else rng (s - g_ng G + btoz n) (s - 1 + btoz (n && is_refl b)) y).
  { intros. unfold bx. rewrite axis_eqb_refl. reflexivity. }
  destruct (Z.ltb_spec x s) as [L|L].
  - (* left ghost *)
    rewrite side_out; auto.
    2: { rewrite Lb. apply rng_false. left. assert (H := btoz_le (n && negb (is_refl (br a)))). lia. }
    rewrite side_in; auto.
    2: { rewrite box_iff by auto. rewrite Lb. apply rng_spec. assert (H := btoz_le (n && is_refl (bl a))). lia. }
    rewrite (eval_rr _ _ _ _ _ _ _ (A c)). fold x n s e.
    replace (x =? s) with false by (symmetry; apply Z.eqb_neq; lia). rewrite andb_false_r. reflexivity.
  - rewrite Z.gtb_ltb. destruct (Z.ltb_spec (e + btoz n) x) as [R|R].
    + (* right ghost *)
      rewrite side_in; auto.
      2: { rewrite box_iff by auto. rewrite Lb. apply rng_spec. fold x. destruct n; cbn [andb btoz] in *; [destruct (is_refl (br a)); cbn [negb btoz]; lia|lia]. }
      rewrite (eval_rr _ _ _ _ _ _ _ (A c)). fold x n s e.
      assert (Z0 : is_refl (br a) && n && (x =? e + 1) = false).
      { destruct n; rewrite ?andb_false_r; auto. cbn [btoz] in R. replace (x =? e + 1) with false by (symmetry; apply Z.eqb_neq; lia). apply andb_false_r. }
      rewrite Z0. f_equal. apply side_out; auto. rewrite Lb, co_upd. apply rng_false. right.
      destruct n; cbn [andb btoz] in *; destruct (br a), (bl a); cbn [source mirror btoz is_refl]; lia.
    + (* active elements *)
      rewrite upd_same.
      destruct (n && (x =? s)) eqn:Q1.
      * apply andb_true_iff in Q1. destruct Q1 as [Qn Qx]. apply Z.eqb_eq in Qx.
        rewrite side_out; auto.
        2: { rewrite Lb. apply rng_false. left. fold x. assert (H := btoz_le (n && negb (is_refl (br a)))). lia. }
        rewrite side by auto. rewrite box_iff by auto. rewrite Lb. fold x. 
        destruct (is_refl (bl a)) eqn:Qr.
        -- rewrite Qn. cbn [andb btoz]. replace (rng _ _ x) with true by (symmetry; apply rng_spec; rewrite Qn in *; cbn [btoz] in *; lia).
           rewrite (eval_rr _ _ _ _ _ _ _ (A c)). rewrite Qr. fold n. rewrite Qn. fold x s. replace (x =? s) with true by (symmetry; apply Z.eqb_eq; auto). reflexivity.
        -- rewrite andb_false_r. cbn [btoz]. replace (rng _ _ x) with false by (symmetry; apply rng_false; lia).
           rewrite blank_not; auto. rewrite Qr. reflexivity.
      * assert (LO : bx (bl a) false G X a a x = false).
        { rewrite Lb. apply rng_false. right. destruct n; cbn [andb btoz] in *; [apply Z.eqb_neq in Q1; destruct (is_refl (bl a)); cbn [btoz]; lia|lia]. }
        destruct (n && (x =? e + 1)) eqn:Q2.
        -- apply andb_true_iff in Q2. destruct Q2 as [Qn Qx]. apply Z.eqb_eq in Qx.
           rewrite side by auto. rewrite box_iff by auto. rewrite Lb. fold x. rewrite Qn.
           destruct (is_refl (br a)) eqn:Qr; cbn [negb andb btoz].
           ++ replace (rng _ _ x) with true by (symmetry; apply rng_spec; lia).
              rewrite (eval_rr _ _ _ _ _ _ _ (A c)). rewrite Qr. fold n. rewrite Qn. fold x e. replace (x =? e + 1) with true by (symmetry; apply Z.eqb_eq; auto). reflexivity.
           ++ replace (rng _ _ x) with false by (symmetry; apply rng_false; lia). rewrite side_out by auto. rewrite blank_not; auto. rewrite Qr. reflexivity.
        -- rewrite !side_out; auto. rewrite Lb. apply rng_false. left. fold x. destruct n; cbn [andb btoz] in *; [apply Z.eqb_neq in Q2; destruct (is_refl (br a)); cbn [negb btoz]; lia|lia].
Qed.

Lemma src_act : forall bl br G X a x, geom_ok G -> ext G X a x = true -> act G X a (src_row bl br G X a x) = true.
Proof.
  intros bl br G X a x (Hng & HN1 & HN) E. unfold ext, act, src_row in *. destruct (g_N G a >? 1) eqn:EN.
  - rewrite andb_true_r. assert (N : 1 < g_N G a) by (rewrite Z.gtb_ltb in EN; apply Z.ltb_lt in EN; auto).
    destruct (HN a) as [H|[_ Hge]]; [lia|]. apply rng_spec in E. apply rng_spec.
    assert (S : fst_ G a = g_ng G) by (unfold fst_; rewrite EN; auto).
    assert (L : lst_ G a = g_N G a + g_ng G - 1) by (unfold lst_; rewrite EN; auto).
    assert (B := btoz_le (normal X a)).
    destruct (Z.ltb_spec x (fst_ G a)); [destruct bl, (normal X a); cbn [source mirror btoz] in *; lia|].
    rewrite Z.gtb_ltb. destruct (Z.ltb_spec (lst_ G a + btoz (normal X a)) x); [destruct br, (normal X a); cbn [source mirror btoz] in *; lia|lia].
  - apply Z.eqb_eq in E. subst. unfold fst_, lst_. rewrite EN, andb_false_r. reflexivity.
Qed.
Lemma act_ext : forall G X a x, 1 <= g_ng G -> act G X a x = true -> ext G X a x = true.
Proof.
  intros G X a x H A. unfold act, ext in *. apply rng_spec in A. assert (B := btoz_le (normal X a)). destruct (g_N G a >? 1) eqn:EN.
  - rewrite andb_true_r in A. apply rng_spec. lia.
  - rewrite andb_false_r in A. cbn [btoz] in A. unfold fst_, lst_ in A. rewrite EN in A. apply Z.eqb_eq. lia.
Qed.

(** Every element of the extended arrays after bvals_mhd, in terms of the active elements
    before it. *)
Definition src_of (bl br : axis -> bc) (G : geom) (X : kind) (c : idx) : idx :=
  match c with (k, j, i) =>
    (src_row (bl A3) (br A3) G X A3 k, src_row (bl A2) (br A2) G X A2 j, src_row (bl A1) (br A1) G X A1 i) end.
Lemma ghost_values : forall bl br G X f c, geom_ok G -> exists_ G X c ->
  get X (bvals_mhd neg zero bl br G f) c =
  tr_row neg zero (bl A3) (br A3) G X A3 (co A3 c) (tr_row neg zero (bl A2) (br A2) G X A2 (co A2 c)
    (tr_row neg zero (bl A1) (br A1) G X A1 (co A1 c) (get X f (src_of bl br G X c)))).
Proof.
  intros bl br G X f [[k j] i] OK H. unfold bvals_mhd. assert (H1 := H A1). assert (H2 := H A2). assert (H3 := H A3). cbn [co] in H1, H2, H3.
  assert (P1 := src_act (bl A1) (br A1) G X A1 i OK H1). assert (P2 := src_act (bl A2) (br A2) G X A2 j OK H2). assert (P3 := src_act (bl A3) (br A3) G X A3 k OK H3).
  rewrite axis_step by (auto; intros []; auto). f_equal. cbn [upd co].
  rewrite axis_step by (auto; intros []; auto). f_equal. cbn [upd co].
  rewrite axis_step by (auto; intros []; auto). reflexivity.
Qed.
End Proofs.
