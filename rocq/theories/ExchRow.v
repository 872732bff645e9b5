(** The loops of exchange.c, row by row. *)
From Coq Require Import ZArith Reals List Bool Lia Lra FunctionalExtensionality.
From Verif Require Import Loop BvalsModel BvalsSpec BvalsParModel BvalsParProps IntegSpec IntegFacts SumFacts GravFacts ExchModel ExchSpec ExchSum.
Import ListNotations.
Open Scope Z_scope.

(** ** Boxes *)
Definition gb (lo hi : axis -> Z) : list idx := box (lo A3) (hi A3) (lo A2) (hi A2) (lo A1) (hi A1).
Lemma in_box : forall k0 k1 j0 j1 i0 i1 k j i, In (k, j, i) (box k0 k1 j0 j1 i0 i1) <-> (k0 <= k <= k1 /\ j0 <= j <= j1 /\ i0 <= i <= i1).
Proof.
  intros. unfold box. rewrite in_for. split.
  - intros (k' & K & H). apply in_for in H. destruct H as (j' & J & H). apply in_for in H. destruct H as (i' & I & [H|[]]). injection H as -> -> ->. auto.
  - intros (K & J & I). exists k. split; auto. apply in_for. exists j. split; auto. apply in_for. exists i. split; auto. left. reflexivity.
Qed.
Lemma in_gb : forall lo hi c, In c (gb lo hi) <-> forall b, lo b <= co b c <= hi b.
Proof.
  intros lo hi [[k j] i]. unfold gb. rewrite in_box. split.
  - intros (K & J & I) []; cbn [co]; auto.
  - intros H. split; [apply (H A3)|split; [apply (H A2)|apply (H A1)]].
Qed.
Lemma NoDup_zrange : forall lo hi, NoDup (zrange lo hi).
Proof.
  intros lo hi. unfold zrange. generalize (Z.to_nat (hi - lo + 1)). intros n. apply FinFun.Injective_map_NoDup; [|apply seq_NoDup]. intros x y H. lia.
Qed.
Lemma NoDup_flat : forall A B (f : A -> list B) (p : B -> A) L, NoDup L -> (forall x y, In x L -> In y (f x) -> p y = x) -> (forall x, In x L -> NoDup (f x)) -> NoDup (flat_map f L).
Proof.
  intros A B f p L. induction L as [|x L IH]; intros N P Q; cbn [flat_map]; [constructor|]. inversion N; subst.
  assert (IHL : NoDup (flat_map f L)) by (apply IH; auto; intros; [apply P; [right|]; auto|apply Q; right; auto]).
  assert (Dj : forall y, In y (f x) -> ~ In y (flat_map f L)).
  { intros y I J. apply in_flat_map in J. destruct J as (x' & J1 & J2). assert (E1 := P x y (or_introl eq_refl) I). assert (E2 := P x' y (or_intror J1) J2). congruence. }
  assert (Nx := Q x (or_introl eq_refl)). clear -IHL Dj Nx. induction (f x) as [|y l IH]; [auto|]. cbn [app]. inversion Nx; subst. constructor.
  - rewrite in_app_iff. intros [C|C]; [auto|]. apply (Dj y); auto. left. auto.
  - apply IH; auto. intros z Z. apply Dj. right. auto.
Qed.
Lemma NoDup_gb : forall lo hi, NoDup (gb lo hi).
Proof.
  intros lo hi. unfold gb, box, for_. apply (NoDup_flat _ _ _ (co A3)); [apply NoDup_zrange| |].
  - intros x y _ H. apply in_flat_map in H. destruct H as (j & _ & H). apply in_flat_map in H. destruct H as (i & _ & [<-|[]]). reflexivity.
  - intros k _. apply (NoDup_flat _ _ _ (co A2)); [apply NoDup_zrange| |].
    + intros x y _ H. apply in_flat_map in H. destruct H as (i & _ & [<-|[]]). reflexivity.
    + intros j _. apply (NoDup_flat _ _ _ (co A1)); [apply NoDup_zrange| |].
      * intros x y _ [<-|[]]. reflexivity.
      * intros i _. repeat constructor. intros [].
Qed.
Lemma upd_co : forall a c, upd a c (co a c) = c. Proof. intros [] [[k j] i]; reflexivity. Qed.
Lemma co_upd : forall a c x, co a (upd a c x) = x. Proof. intros [] [[k j] i] x; reflexivity. Qed.
Lemma co_upd_other : forall a b c x, b <> a -> co b (upd a c x) = co b c. Proof. intros [] [] [[k j] i] x H; try reflexivity; congruence. Qed.
Lemma upd_upd : forall a c x y, upd a (upd a c x) y = upd a c y. Proof. intros [] [[k j] i] x y; reflexivity. Qed.
Lemma axis_dec : forall a b : axis, {a = b} + {a <> b}. Proof. decide equality. Qed.
Lemma axis_eqb_refl : forall a, axis_eqb a a = true. Proof. intros []; reflexivity. Qed.
Lemma axis_eqb_neq : forall a b, a <> b -> axis_eqb a b = false. Proof. intros [] [] H; try reflexivity; congruence. Qed.
(** The box with rows lo..hi along [a] and the ranges [wl], [wh] along the other axes. *)
Definition rows (a : axis) (wl wh : axis -> Z) (lo hi : Z) : list idx :=
  gb (fun b => if axis_eqb b a then lo else wl b) (fun b => if axis_eqb b a then hi else wh b).
Definition others (a : axis) (wl wh : axis -> Z) (c : idx) : Prop := forall b, b <> a -> wl b <= co b c <= wh b.
Definition othersb (a : axis) (wl wh : axis -> Z) (c : idx) : bool :=
  let t b := axis_eqb b a || ((wl b <=? co b c) && (co b c <=? wh b)) in t A1 && t A2 && t A3.
Lemma othersb_spec : forall a wl wh c, othersb a wl wh c = true <-> others a wl wh c.
Proof.
  intros a wl wh c. unfold othersb. rewrite !andb_true_iff, !orb_true_iff, !andb_true_iff, !Z.leb_le. split.
  - intros [[H1 H2] H3] b N. assert (K : forall b, axis_eqb b a = true \/ (wl b <= co b c /\ co b c <= wh b)) by (intros []; auto).
    destruct (K b) as [E|]; [|lia]. rewrite axis_eqb_neq in E by auto. discriminate.
  - intros H. assert (K : forall b, axis_eqb b a = true \/ (wl b <= co b c /\ co b c <= wh b)).
    { intros b. destruct (axis_dec b a) as [->|N]; [left; apply axis_eqb_refl|]. right. specialize (H b N). lia. }
    split; [split|]; apply K.
Qed.
Lemma othersb_upd : forall a wl wh c x, othersb a wl wh (upd a c x) = othersb a wl wh c.
Proof. intros [] wl wh [[k j] i] x; reflexivity. Qed.
Lemma in_rows : forall a wl wh lo hi c, In c (rows a wl wh lo hi) <-> (othersb a wl wh c = true /\ lo <= co a c <= hi).
Proof.
  intros a wl wh lo hi c. unfold rows. rewrite in_gb, othersb_spec. unfold others. split.
  - intros H. split; [|specialize (H a); cbv beta in H; rewrite axis_eqb_refl in H; exact H].
    intros b N. specialize (H b). cbv beta in H. rewrite (axis_eqb_neq b a N) in H. exact H.
  - intros [H1 H2] b. destruct (axis_dec b a) as [->|N]; [rewrite axis_eqb_refl; auto|rewrite (axis_eqb_neq b a N); auto].
Qed.
Lemma idx_dec : forall c d : idx, {c = d} + {c <> d}. Proof. repeat decide equality. Qed.

(** ** Sums *)
Lemma run_acc_sum : forall L A c n, (forall s t, In s L -> In t L -> snd (fst s) <> fst (fst t)) ->
  run_acc L A c n = (A c n + lsum L (fun s => if idx_eqb (fst (fst s)) c then snd s (A (snd (fst s))) n else 0))%R.
Proof.
  intros L. induction L as [|[[t s] f] L IH]; intros A c n H; [unfold run_acc; cbn [fold_left]; rewrite lsum_nil; lra|].
  cbn [run_acc fold_left]. fold (run_acc L (exec_acc A (t, s, f))). rewrite IH by (intros; apply H; right; auto). rewrite lsum_cons. cbn [fst snd].
  rewrite (lsum_ext _ L _ (fun s => if idx_eqb (fst (fst s)) c then snd s (A (snd (fst s))) n else 0%R)).
  - cbn [exec_acc]. unfold set. destruct (idx_eqb_spec t c) as [->|N]; [unfold vadd; lra|lra].
  - intros [[t' s'] f'] I. cbn [fst snd exec_acc]. destruct (idx_eqb t' c); [|reflexivity]. rewrite set_other; [reflexivity|].
    intros E. apply (H (t', s', f') (t, s, f)); [right; auto|left; auto|]. cbn. auto.
Qed.
Lemma run_acc_miss : forall L A c, (forall s, In s L -> fst (fst s) <> c) -> run_acc L A c = A c.
Proof.
  intros L. induction L as [|[[t s] f] L IH]; intros A c H; [reflexivity|]. cbn [run_acc fold_left]. fold (run_acc L (exec_acc A (t, s, f))).
  rewrite IH by (intros; apply H; right; auto). cbn [exec_acc]. apply set_other. apply (H (t, s, f)). left. auto.
Qed.
(** The sum of the terms whose target is [c], if [c] has one preimage. *)
Lemma lsum_target : forall (B : list idx) (t : idx -> idx) (val : idx -> R) c d, NoDup B -> (forall x, In x B -> t x = c -> x = d) -> t d = c ->
  lsum B (fun x => if idx_eqb (t x) c then val x else 0%R) = if in_dec idx_dec d B then val d else 0%R.
Proof.
  intros B t val c d N H E. destruct (in_dec idx_dec d B) as [I|I].
  - rewrite (lsum_one _ B _ d N I). { rewrite E. destruct (idx_eqb_spec c c); congruence. }
    intros y J K. destruct (idx_eqb_spec (t y) c) as [E2|]; [|reflexivity]. exfalso. apply K. apply H; auto.
  - apply lsum_zero. intros x J. destruct (idx_eqb_spec (t x) c) as [E2|]; [|reflexivity]. exfalso. apply I. rewrite <- (H x); auto.
Qed.
Lemma add_cells_map : forall L (g : idx -> vec) A, NoDup L -> exists A', add_cells L (map g L) A = Some A' /\
  forall c n, A' c n = (A c n + if in_dec idx_dec c L then g c n else 0)%R.
Proof.
  intros L g. induction L as [|c L IH]; intros A N; [exists A; split; [reflexivity|]; intros; cbn; lra|]. inversion N; subst.
  cbn [map add_cells]. destruct (IH (set A c (vadd (A c) (g c))) H2) as (A' & E & K). exists A'. split; auto. intros d n. rewrite K. unfold set.
  destruct (in_dec idx_dec d L) as [I|I]; destruct (in_dec idx_dec d (c :: L)) as [J|J]; destruct (idx_eqb_spec c d) as [M|M]; unfold vadd; subst; try lra;
    exfalso; try (apply J; left; reflexivity); try (apply J; right; assumption); try (apply H1; assumption).
  destruct J as [J|J]; [apply M; exact J|apply I; exact J].
Qed.

Section Rows.
Variables ne no : Z.
(** The axes already done when the exchange along [a] is made (x3, x2, x1), and the ranges of the loops. *)
Definition done (b a : axis) : bool := match b, a with A3, A2 | A3, A1 | A2, A1 => true | _, _ => false end.
Definition low (w : Z) (G : geom) (b : axis) : Z := if g_N G b >? 1 then fst_ G b - w else fst_ G b.
Definition high (w : Z) (G : geom) (b : axis) : Z := if g_N G b >? 1 then lst_ G b + w else lst_ G b.
Definition wl (G : geom) (a b : axis) : Z := low (if done b a then no else ne) G b.
Definition wh (G : geom) (a b : axis) : Z := high (if done b a then no else ne) G b.
Section G.
Variable G : geom.
Variable a : axis.
Hypothesis N : 1 < g_N G a.
Notation R_ lo hi := (rows a (wl G a) (wh G a) lo hi).
Notation s := (fst_ G a).
Notation e := (lst_ G a).

Ltac gtn := match goal with H : 1 < g_N _ ?x |- _ => cbn [g_N] in H; assert (GT := gt1 _ H) end.
Ltac eqz := repeat match goal with |- context [2 * ?x - ?i - 1] => replace (2 * x - i - 1) with (2 * x - 1 - i) by lia | |- context [2 * ?x - ?i + 1] => replace (2 * x - i + 1) with (2 * x + 1 - i) by lia
  | |- context [?x + ?y - ne - ?y] => replace (x + y - ne - y) with (x - ne) by lia | |- context [?x + ?y + no - ?y] => replace (x + y + no - y) with (x + no) by lia end; reflexivity.
Lemma unpack_l_rows : unpack_l ne no G a = R_ (s - no) (s + ne - 1). Proof. destruct a; reflexivity. Qed.
Lemma unpack_r_rows : unpack_r ne no G a = R_ (e - ne + 1) (e + no). Proof. destruct a; reflexivity. Qed.
Lemma pack_l_rows : pack_l ne no G a = R_ (s - ne) (s + no - 1).
Proof. destruct a; gtn; unfold pack_l, kl, jl, il; rewrite GT; reflexivity. Qed.
Lemma pack_r_rows : pack_r ne no G a = R_ (e - no + 1) (e + ne).
Proof. destruct a; gtn; unfold pack_r, ku, ju, iu; rewrite GT; reflexivity. Qed.

(** Mirror images of cells. *)
Definition mir (M : Z) (c : idx) : idx := upd a c (M - co a c).
Lemma mir_mir : forall M c, mir M (mir M c) = c.
Proof. intros M c. unfold mir. rewrite co_upd, upd_upd. replace (M - (M - co a c)) with (co a c) by lia. apply upd_co. Qed.
Definition mirrored (M M' : Z) (B B' : list idx) : bfun :=
  (map (fun c => (mir M c, c, flip (comp a))) B, map (fun c => (c, Copy (mir M' c) (flip (comp a)))) B').
Lemma reflect_l_rows : (a = A1 -> g_js G = g_is G) -> apply_ ne no G Refl a false = mirrored (2 * s - 1) (2 * s - 1) (R_ (s - ne) (s - 1)) (R_ (s - no) (s - 1)).
Proof.
  intros J. unfold mirrored, mir. destruct a; gtn; unfold apply_; cbn [comp];
    [unfold reflect_ix1; rewrite J by reflexivity|unfold reflect_ix2|unfold reflect_ix3]; (f_equal; [|]);
    unfold kl, kb, jl, jb, il, ib; rewrite ?GT; apply map_ext; intros [[k j] i]; cbn [co upd]; change (fst_ G A1) with (g_is G); change (fst_ G A2) with (g_js G); change (fst_ G A3) with (g_ks G); eqz.
Qed.
Lemma reflect_r_rows : apply_ ne no G Refl a true = mirrored (2 * e + 1) (2 * e + 1) (R_ (e + 1) (e + ne)) (R_ (e + 1) (e + no)).
Proof.
  unfold mirrored, mir. destruct a; gtn; unfold apply_; cbn [comp];
    [unfold reflect_ox1|unfold reflect_ox2|unfold reflect_ox3]; (f_equal; [|]);
    unfold ku, kt, ju, jt, iu, it; rewrite ?GT; apply map_ext; intros [[k j] i]; cbn [co upd]; change (lst_ G A1) with (g_ie G); change (lst_ G A2) with (g_je G); change (lst_ G A3) with (g_ke G); eqz.
Qed.
Lemma cond_refl : forall right, apply_ ne no G Cond a right = apply_ ne no G Refl a right. Proof. intros []; destruct a; reflexivity. Qed.

(** Periodic boundaries. *)
Definition shifted (P : Z) (B B' : list idx) : bfun :=
  (flat_map (fun c => [(c, upd a c (co a c + P), same); (upd a c (co a c + P - ne), upd a c (co a c - ne), same)]) B,
   flat_map (fun c => [(c, Copy (upd a c (co a c + P)) same); (upd a c (co a c + P + no), Copy (upd a c (co a c + no)) same)]) B').
Lemma periodic_rows : apply_ ne no G Peri a false = shifted (g_N G a) (R_ s (s + ne - 1)) (R_ (s - no) (s - 1)).
Proof.
  unfold shifted. destruct a; gtn; unfold apply_;
    [unfold periodic_ix1|unfold periodic_ix2|unfold periodic_ix3]; (f_equal; [|]);
    unfold kl, kb, jl, jb, il, ib; apply flat_map_ext; intros [[k j] i]; cbn [co upd g_N]; cbv zeta; eqz.
Qed.

(** ** Rows: the value at [c] is a function of the values along the row through [c]. *)
Notation ob c := (othersb a (wl G a) (wh G a) c).
Definition row (A : arr vec) (c : idx) (v : nat) : Z -> R := fun x => A (upd a c x) v.
Definition sg (v : nat) : R := if (v =? comp a)%nat then (-1)%R else 1%R.
Lemma flip_sg : forall u v, flip (comp a) u v = (sg v * u v)%R. Proof. intros u v. unfold flip, sg. destruct (v =? comp a)%nat; lra. Qed.
Lemma row_co : forall A c v, row A c v (co a c) = A c v. Proof. intros. unfold row. rewrite upd_co. reflexivity. Qed.
Lemma rng_spec : forall lo hi x, rng lo hi x = true <-> lo <= x <= hi. Proof. intros. unfold rng. rewrite andb_true_iff, !Z.leb_le. tauto. Qed.
Lemma in_R : forall lo hi c (A B : R), (if in_dec idx_dec c (R_ lo hi) then A else B) = if ob c then (if rng lo hi (co a c) then A else B) else B.
Proof.
  intros lo hi c A B. destruct (in_dec idx_dec c (R_ lo hi)) as [I|I].
  - apply in_rows in I. destruct I as [I1 I2]. rewrite I1. apply rng_spec in I2. rewrite I2. reflexivity.
  - destruct (ob c) eqn:O; [|reflexivity]. destruct (rng lo hi (co a c)) eqn:X; [|reflexivity]. exfalso. apply I. apply in_rows. split; auto. apply rng_spec. auto.
Qed.
(** Mirror: ghosts lo..hi fold onto active cells, then copies to lo'..hi'. *)
Definition mirrow (v : nat) (M lo hi lo' hi' : Z) (r : Z -> R) (x : Z) : R :=
  let r1 := fun x => (r x + (if rng lo hi (M - x) then sg v * r (M - x)%Z else 0))%R in
  if rng lo' hi' x then (sg v * r1 (M - x)%Z)%R else r1 x.
Lemma mirrored_acc : forall M lo hi A c v, (M < lo + lo \/ hi + hi < M) -> 
  run_acc (map (fun c => (mir M c, c, flip (comp a))) (R_ lo hi)) A c v
  = (A c v + (if ob c then (if rng lo hi (M - co a c)%Z then sg v * row A c v (M - co a c)%Z else 0) else 0))%R.
Proof.
  intros M lo hi A c v H. rewrite run_acc_sum.
  - f_equal. rewrite lsum_map. cbn [fst snd].
    rewrite (lsum_target (R_ lo hi) (mir M) (fun x => flip (comp a) (A x) v) c (mir M c)).
    + rewrite in_R. unfold mir. rewrite othersb_upd, co_upd. destruct (ob c); [|reflexivity]. rewrite flip_sg. reflexivity.
    + unfold rows. apply NoDup_gb.
    + intros x _ E. rewrite <- E. rewrite mir_mir. reflexivity.
    + apply mir_mir.
  - intros p q P Q. apply in_map_iff in P, Q. destruct P as (p' & <- & P), Q as (q' & <- & Q). cbn [fst snd]. intros E.
    apply in_rows in P, Q. destruct P as [_ P], Q as [_ Q]. rewrite E in P. unfold mir in P. rewrite co_upd in P. lia.
Qed.
Lemma mirrored_run : forall M lo' hi' (A : arr vec) c v, (M < lo' + lo' \/ hi' + hi' < M) ->
  run (map (fun c => (c, Copy (mir M c) (flip (comp a)))) (R_ lo' hi')) A c v
  = if ob c then (if rng lo' hi' (co a c) then (sg v * row A c v (M - co a c)%Z)%R else A c v) else A c v.
Proof.
  intros M lo' hi' A c v H. rewrite <- (in_R lo' hi' c (sg v * row A c v (M - co a c)%Z)%R (A c v)).
  destruct (in_dec idx_dec c (R_ lo' hi')) as [I|I].
  - assert (E := run_hit vec (map (fun c => (c, Copy (mir M c) (flip (comp a)))) (R_ lo' hi')) A (c, Copy (mir M c) (flip (comp a)))). cbn [fst snd eval] in E. rewrite E.
    + rewrite flip_sg. reflexivity.
    + intros p q x f P Q. apply in_map_iff in P, Q. destruct P as (p' & <- & P), Q as (q' & <- & Q). cbn [fst snd]. intros X. injection X as <- <-. intros Y.
      apply in_rows in P, Q. destruct P as [_ P], Q as [_ Q]. rewrite Y in Q. unfold mir in Q. rewrite co_upd in Q. lia.
    + intros p q P Q. apply in_map_iff in P, Q. destruct P as (p' & <- & P), Q as (q' & <- & Q). cbn [fst snd]. intros ->. reflexivity.
    + apply in_map_iff. exists c. auto.
  - rewrite run_miss; [reflexivity|]. intros p P. apply in_map_iff in P. destruct P as (p' & <- & P). cbn [fst]. intros ->. auto.
Qed.
Lemma mirrored_row : forall M lo hi lo' hi' A c v, (M < lo + lo \/ hi + hi < M) -> (M < lo' + lo' \/ hi' + hi' < M) ->
  run_b (mirrored M M (R_ lo hi) (R_ lo' hi')) A c v = if ob c then mirrow v M lo hi lo' hi' (row A c v) (co a c) else A c v.
Proof.
  intros M lo hi lo' hi' A c v H H'. unfold run_b, mirrored. cbn [fst snd]. rewrite mirrored_run by auto. unfold mirrow. cbv zeta.
  destruct (ob c) eqn:O.
  - assert (E : forall x, row (run_acc (map (fun c => (mir M c, c, flip (comp a))) (R_ lo hi)) A) c v x = (row A c v x + (if rng lo hi (M - x) then sg v * row A c v (M - x)%Z else 0))%R).
    { intros x. unfold row. rewrite mirrored_acc by auto. rewrite othersb_upd, O, co_upd. unfold row. rewrite upd_upd. reflexivity. }
    rewrite E. rewrite mirrored_acc by auto. rewrite O, row_co. reflexivity.
  - rewrite mirrored_acc by auto. rewrite O. lra.
Qed.
(** Periodic: one Grid along the axis. *)
Definition perrow (P : Z) (r : Z -> R) (x : Z) : R :=
  let r1 := fun x => (r x + (if rng s (s + ne - 1) x then r (x + P)%Z else 0) + (if rng (s + P - ne) (s + P - 1) x then r (x - P)%Z else 0))%R in
  if rng (s - no) (s - 1) x then r1 (x + P) else if rng (s + P) (s + P + no - 1) x then r1 (x - P) else r1 x.
Lemma shifted_acc : forall P A c v, 0 <= ne <= P ->
  run_acc (flat_map (fun c => [(c, upd a c (co a c + P), same); (upd a c (co a c + P - ne), upd a c (co a c - ne), same)]) (R_ s (s + ne - 1))) A c v
  = (A c v + (if ob c then (if rng s (s + ne - 1) (co a c) then row A c v (co a c + P)%Z else 0) + (if rng (s + P - ne) (s + P - 1) (co a c) then row A c v (co a c - P)%Z else 0) else 0))%R.
Proof.
  intros P A c v H. rewrite run_acc_sum.
  - f_equal. rewrite lsum_flat.
    rewrite (lsum_ext _ _ _ (fun x => ((if idx_eqb x c then same (A (upd a x (co a x + P))) v else 0)
      + (if idx_eqb (upd a x (co a x + P - ne)) c then same (A (upd a x (co a x - ne))) v else 0))%R))
      by (intros x _; rewrite !lsum_cons, lsum_nil; cbn [fst snd]; lra).
    rewrite lsum_plus.
    rewrite (lsum_target _ (fun x => x) (fun x => same (A (upd a x (co a x + P))) v) c c) by (auto; unfold rows; apply NoDup_gb).
    rewrite (lsum_target _ (fun x => upd a x (co a x + P - ne)) (fun x => same (A (upd a x (co a x - ne))) v) c (upd a c (co a c - P + ne))).
    + rewrite !in_R. rewrite othersb_upd, co_upd. destruct (ob c); [|lra].
      replace (rng s (s + ne - 1) (co a c - P + ne)) with (rng (s + P - ne) (s + P - 1) (co a c)).
      * unfold row, same. rewrite upd_upd. replace (co a c - P + ne - ne) with (co a c - P) by lia. reflexivity.
      * apply eq_true_iff_eq. rewrite !rng_spec. lia.
    + unfold rows. apply NoDup_gb.
    + intros x _ E. rewrite <- E. rewrite co_upd, upd_upd. replace (co a x + P - ne - P + ne) with (co a x) by lia. symmetry. apply upd_co.
    + rewrite co_upd, upd_upd. replace (co a c - P + ne + P - ne) with (co a c) by lia. apply upd_co.
  - intros p q PP QQ. apply in_flat_map in PP, QQ. destruct PP as (p' & I & PP), QQ as (q' & J & QQ). apply in_rows in I, J. destruct I as [_ I], J as [_ J].
    intros E. assert (E' := f_equal (co a) E). destruct PP as [<-|[<-|[]]], QQ as [<-|[<-|[]]]; cbn [fst snd] in E'; rewrite ?co_upd in E'; lia.
Qed.
Lemma shifted_run : forall P (A : arr vec) c v, 0 <= no <= P ->
  run (flat_map (fun c => [(c, Copy (upd a c (co a c + P)) same); (upd a c (co a c + P + no), Copy (upd a c (co a c + no)) same)]) (R_ (s - no) (s - 1))) A c v
  = if ob c then (if rng (s - no) (s - 1) (co a c) then row A c v (co a c + P) else if rng (s + P) (s + P + no - 1) (co a c) then row A c v (co a c - P) else A c v) else A c v.
Proof.
  intros P A c v H. set (L := flat_map _ _).
  assert (S : sources_safe L).
  { intros p q x f PP QQ X Y. apply in_flat_map in PP, QQ. destruct PP as (p' & I & PP), QQ as (q' & J & QQ). apply in_rows in I, J. destruct I as [_ I], J as [_ J].
    destruct PP as [<-|[<-|[]]], QQ as [<-|[<-|[]]]; cbn [fst snd] in X, Y; injection X as <- <-; apply (f_equal (co a)) in Y; rewrite ?co_upd in Y; lia. }
  assert (F : forall p q, In p L -> In q L -> fst p = fst q -> eval A (snd p) = eval A (snd q)).
  { intros p q PP QQ Y. apply in_flat_map in PP, QQ. destruct PP as (p' & I & PP), QQ as (q' & J & QQ). apply in_rows in I, J. destruct I as [_ I], J as [_ J].
    destruct PP as [<-|[<-|[]]], QQ as [<-|[<-|[]]]; cbn [fst snd] in Y; cbn [snd eval same].
    - subst. reflexivity.
    - apply (f_equal (co a)) in Y. rewrite ?co_upd in Y. lia.
    - apply (f_equal (co a)) in Y. rewrite ?co_upd in Y. lia.
    - assert (Y' := f_equal (co a) Y). rewrite !co_upd in Y'. assert (C : co a p' = co a q') by lia. assert (Z := f_equal (fun c => upd a c (co a p')) Y). cbv beta in Z. rewrite !upd_upd in Z.
      rewrite C in Z at 2. rewrite !upd_co in Z. subst. reflexivity. }
  assert (IN : forall d x, othersb a (wl G a) (wh G a) d = true -> s - no <= x <= s - 1 -> In (upd a d x) (R_ (s - no) (s - 1))).
  { intros d x O X. apply in_rows. rewrite othersb_upd, co_upd. auto. }
  destruct (ob c) eqn:O.
  - destruct (rng (s - no) (s - 1) (co a c)) eqn:X; [|destruct (rng (s + P) (s + P + no - 1) (co a c)) eqn:X2].
    + apply rng_spec in X. assert (E := run_hit vec L A (c, Copy (upd a c (co a c + P)) same) S F). cbn [fst snd eval] in E. rewrite E; [reflexivity|].
      apply in_flat_map. exists c. split; [|left; reflexivity]. rewrite <- (upd_co a c). apply IN; auto.
    + apply rng_spec in X2. assert (E := run_hit vec L A (c, Copy (upd a c (co a c - P)) same) S F). cbn [fst snd eval] in E. rewrite E; [reflexivity|].
      apply in_flat_map. exists (upd a c (co a c - P - no)). split; [apply IN; auto; lia|]. right. left. rewrite !co_upd, !upd_upd.
      replace (co a c - P - no + P + no) with (co a c) by lia. replace (co a c - P - no + no) with (co a c - P) by lia. rewrite upd_co. reflexivity.
    + rewrite run_miss; [reflexivity|]. intros p PP. apply in_flat_map in PP. destruct PP as (p' & I & PP). apply in_rows in I. destruct I as [_ I].
      assert (~ (s - no <= co a c <= s - 1)) by (rewrite <- rng_spec; congruence). assert (~ (s + P <= co a c <= s + P + no - 1)) by (rewrite <- rng_spec; congruence).
      intros Y. apply (f_equal (co a)) in Y. destruct PP as [<-|[<-|[]]]; cbn [fst] in Y; rewrite ?co_upd in Y; lia.
  - rewrite run_miss; [reflexivity|]. intros p PP. apply in_flat_map in PP. destruct PP as (p' & I & PP). apply in_rows in I. destruct I as [I _].
    intros Y. destruct PP as [<-|[<-|[]]]; cbn [fst] in Y; subst c; rewrite ?othersb_upd in O; congruence.
Qed.
Lemma shifted_row : forall P A c v, 0 <= ne <= P -> 0 <= no <= P ->
  run_b (shifted P (R_ s (s + ne - 1)) (R_ (s - no) (s - 1))) A c v = if ob c then perrow P (row A c v) (co a c) else A c v.
Proof.
  intros P A c v H H'. unfold run_b, shifted. cbn [fst snd]. rewrite shifted_run by auto. unfold perrow. cbv zeta.
  destruct (ob c) eqn:O.
  - assert (E : forall x, row (run_acc (flat_map (fun c => [(c, upd a c (co a c + P), same); (upd a c (co a c + P - ne), upd a c (co a c - ne), same)]) (R_ s (s + ne - 1))) A) c v x
      = (row A c v x + (if rng s (s + ne - 1) x then row A c v (x + P)%Z else 0) + (if rng (s + P - ne) (s + P - 1) x then row A c v (x - P)%Z else 0))%R).
    { intros x. unfold row. rewrite shifted_acc by auto. rewrite othersb_upd, O, co_upd. unfold row. rewrite ?upd_upd. lra. }
    rewrite !E.
    rewrite shifted_acc by auto. rewrite O, row_co.
    destruct (rng (s - no) (s - 1) (co a c)); [reflexivity|]. destruct (rng (s + P) (s + P + no - 1) (co a c)); [reflexivity|]. lra.
  - rewrite shifted_acc by auto. rewrite O. lra.
Qed.
End G.
End Rows.
