(** * Ghost zones of the potential: theorems *)
From Coq Require Import ZArith List Bool Lia Sorted.
From Verif Require Import Loop BvalsModel BvalsSpec BvalsProofs BvalsMsg BvalsParModel BvalsParProps BvalsLenProps PhiModel PhiSpec.
Import ListNotations.
Open Scope Z_scope.

(** ** Loops whose assignments read what earlier ones wrote *)
Definition srcs (e : gexpr) : list idx := match e with From s => [s] | Extra s1 s2 s3 => [s1; s2; s3] end.
Fixpoint ordered (L : list (idx * gexpr)) : Prop :=
  match L with
  | [] => True
  | (t, e) :: L => ~ In t (map fst L) /\ (forall s, In s (srcs e) -> s <> t /\ ~ In s (map fst L)) /\ ordered L
  end.
Section Run.
Context {F : Type} (ext3 : F -> F -> F -> F).
Lemma grun_out : forall L (A : arr F) c, ~ In c (map fst L) -> grun ext3 L A c = A c.
Proof.
  induction L as [|[t e] L IH]; intros A c H; [reflexivity|]. cbn [grun fold_left fst snd]. fold (grun ext3 L (set A t (geval ext3 A e))).
  rewrite IH by (intros I; apply H; right; auto). unfold set. destruct (idx_eqb_spec t c) as [->|]; auto. exfalso. apply H. left. auto.
Qed.
Lemma geval_ext : forall (A B : arr F) e, (forall s, In s (srcs e) -> A s = B s) -> geval ext3 A e = geval ext3 B e.
Proof. intros A B [s|s1 s2 s3] H; cbn [geval srcs] in *; [apply H; left; auto|]. rewrite !H; auto; cbn; auto. Qed.
Lemma grun_in : forall L (A : arr F) t e, ordered L -> In (t, e) L -> grun ext3 L A t = geval ext3 (grun ext3 L A) e.
Proof.
  induction L as [|[t0 e0] L IH]; intros A t e O I; [destruct I|]. destruct O as (N & S & O).
  cbn [grun fold_left fst snd]. fold (grun ext3 L (set A t0 (geval ext3 A e0))).
  destruct I as [E|I]; [|apply IH; auto]. injection E as -> ->.
  rewrite grun_out by auto. unfold set at 1. destruct (idx_eqb_spec t t) as [_|]; [|congruence].
  apply geval_ext. intros s Hs. destruct (S s Hs) as [S1 S2]. rewrite grun_out by auto. unfold set. destruct (idx_eqb_spec t s); congruence.
Qed.
End Run.

(** ** Order in which the loops run *)
Definition klt (x y : Z * Z * Z) : Prop :=
  match x, y with (k, j, i), (k', j', i') => k < k' \/ (k = k' /\ (j < j' \/ (j = j' /\ i < i'))) end.
Definition key (a : axis) (right : bool) (c : idx) : Z * Z * Z :=
  match c, a with (k, j, i), A1 => (k, j, if right then i else - i) | (k, j, i), A2 => (k, if right then j else - j, i)
  | (k, j, i), A3 => (if right then k else - k, j, i) end.
Lemma SS_flat : forall B (P : B -> B -> Prop) (f : Z -> list B) l, StronglySorted Z.lt l -> (forall x, In x l -> StronglySorted P (f x)) ->
  (forall x y a b, In x l -> In y l -> x < y -> In a (f x) -> In b (f y) -> P a b) -> StronglySorted P (flat_map f l).
Proof.
  intros B P f l S. induction S as [|x l S IH H]; intros H1 H2; [constructor|]. cbn [flat_map].
  assert (G1 : StronglySorted P (flat_map f l)) by (apply IH; [intros; apply H1; right; auto|intros u v a b Iu Iv; apply H2; right; auto]).
  assert (G2 : StronglySorted P (f x)) by (apply H1; left; auto).
  assert (G3 : forall a b, In a (f x) -> In b (flat_map f l) -> P a b).
  { intros a b Ia Ib. apply in_flat_map in Ib. destruct Ib as (y & Iy & Ib). apply (H2 x y); auto; [left; auto|right; auto|]. rewrite Forall_forall in H. auto. }
  revert G2 G3. generalize (f x). intros m G2. induction G2 as [|c m G2 IH' H']; intros G3; [exact G1|]. cbn [app]. constructor.
  - apply IH'. intros a b Ia. apply G3. right. auto.
  - apply Forall_forall. intros b Ib. apply in_app_or in Ib. destruct Ib as [Ib|Ib]; [rewrite Forall_forall in H'; auto|apply G3; [left; auto|auto]].
Qed.
Lemma SS_zrange : forall lo hi, StronglySorted Z.lt (zrange lo hi).
Proof.
  intros lo hi. unfold zrange. generalize 0%nat as s. induction (Z.to_nat (hi - lo + 1)) as [|n IH]; intros s; cbn [seq map]; [constructor|]. constructor; [apply IH|].
  apply Forall_forall. intros y I. apply in_map_iff in I. destruct I as (k & <- & I). apply in_seq in I. lia.
Qed.
Lemma SS_for : forall B (P : B -> B -> Prop) lo hi (f : Z -> list B), (forall x, lo <= x <= hi -> StronglySorted P (f x)) ->
  (forall x y a b, lo <= x -> x < y -> y <= hi -> In a (f x) -> In b (f y) -> P a b) -> StronglySorted P (for_ lo hi f).
Proof.
  intros B P lo hi f H1 H2. unfold for_. apply SS_flat; [apply SS_zrange| |].
  - intros x I. apply H1, in_zrange, I.
  - intros x y a b Ix Iy. apply in_zrange in Ix. apply in_zrange in Iy. intros. apply (H2 x y); auto; lia.
Qed.
Lemma SS_ordered : forall (K : idx -> Z * Z * Z) (bx : idx -> bool) L, (forall c d, K c = K d -> c = d) ->
  StronglySorted (fun a b => klt (K (fst a)) (K (fst b))) L -> (forall t e, In (t, e) L -> bx t = true) ->
  (forall t e s, In (t, e) L -> In s (srcs e) -> bx s = false \/ klt (K s) (K t)) -> ordered L.
Proof.
  intros K b L inj S. induction S as [|[t e] L S IH H]; intros B H2; [exact I|]. rewrite Forall_forall in H.
  assert (irr : forall x, ~ klt x x) by (intros [[k j] i]; cbn; lia).
  assert (tr : forall x y, klt x y -> klt y x -> False) by (intros [[k j] i] [[k' j'] i']; cbn; lia).
  assert (NI : forall s, klt (K s) (K t) \/ s = t -> ~ In s (map fst L)).
  { intros s Hs Is. apply in_map_iff in Is. destruct Is as ((s', e') & E & Is). cbn [fst] in E. subst s'. specialize (H _ Is). cbn [fst] in H.
    destruct Hs as [Hs| ->]; [exact (tr _ _ Hs H)|exact (irr _ H)]. }
  cbn [ordered]. split; [apply NI; auto|]. split.
  - intros s Hs. destruct (H2 t e s (or_introl eq_refl) Hs) as [Q|Q].
    + split; [intros ->; rewrite (B t e (or_introl eq_refl)) in Q; discriminate|].
      intros Is. apply in_map_iff in Is. destruct Is as ((s', e') & E & Is). cbn [fst] in E. subst s'. rewrite (B s e' (or_intror Is)) in Q. discriminate.
    + split; [intros ->; exact (irr _ Q)|apply NI; auto].
  - apply IH; [intros u f Iu; apply (B u f); right; auto|intros u f s Iu; apply (H2 u f); right; auto].
Qed.
Lemma key_inj : forall a right c d, key a right c = key a right d -> c = d.
Proof. intros [] [] [[k j] i] [[k' j'] i'] H; cbn in H; injection H as H1 H2 H3; f_equal; try f_equal; lia. Qed.

(** ** The loops *)
Definition gexp (b : gbc) (a : axis) (right : bool) (G : geom) (t : idx) : gexpr :=
  let x := co a t in
  match b with
  | GRefl => From (upd a t (if right then 2 * lst_ G a + 1 - x else 2 * fst_ G a - 1 - x))
  | GPeri => From (upd a t (if right then x - g_N G a else x + g_N G a))
  | GOpen => let d := if right then -1 else 1 in Extra (upd a t (x + d)) (upd a t (x + 2 * d)) (upd a t (x + 3 * d))
  end.
Definition gbox (right : bool) (G : geom) (a : axis) (c : idx) : bool := box Peri right G Cell a c.
Lemma gbox_true : forall right G a c, gbox right G a c = true <->
  bx Peri right G Cell a A1 (co A1 c) = true /\ bx Peri right G Cell a A2 (co A2 c) = true /\ bx Peri right G Cell a A3 (co A3 c) = true.
Proof. intros. unfold gbox, box. rewrite !andb_true_iff. tauto. Qed.
Ltac wit x := rewrite in_for; exists x; split; [lia|].
Ltac setup G := intros OK N; destruct OK as (Hng & HN1 & HN); assert (M2 := HN A2); assert (M3 := HN A3); assert (M1 := HN A1); clear HN;
  cbn [g_N] in M1, M2, M3, N;
  destruct (gtb_dec (g_N1 G)) as [[E1 E1']|[E1 E1']]; [|exfalso; lia];
  destruct (gtb_dec (g_N2 G)) as [[E2 E2']|[E2 E2']]; try (exfalso; lia);
  destruct (gtb_dec (g_N3 G)) as [[E3 E3']|[E3 E3']]; try (exfalso; lia).
Ltac rw := cbn [g_N] in *; repeat match goal with E : (_ >? 1) = _ |- _ => rewrite E in * end; cbn [andb] in *.
Ltac unfG := unfold gbc_fun, reflect_Phi_ix1, reflect_Phi_ox1, reflect_Phi_ix2, reflect_Phi_ox2, reflect_Phi_ix3, reflect_Phi_ox3,
  periodic_Phi_ix1, periodic_Phi_ox1, periodic_Phi_ix2, periodic_Phi_ox2, periodic_Phi_ix3, periodic_Phi_ox3,
  obc_fft_Phi_ix1, obc_fft_Phi_ox1, obc_fft_Phi_ix2, obc_fft_Phi_ox2, obc_fft_Phi_ix3, obc_fft_Phi_ox3,
  loop_ix1, loop_ox1, loop_ix2, loop_ox2, loop_ix3, loop_ox3, g_is, g_ie, g_js, g_je, g_ks, g_ke in *.
Ltac unfB := unfold bx, act, gexp, fst_, lst_, g_N in *.
Lemma from_eq : forall s s', s = s' -> From s = From s'. Proof. congruence. Qed.
Lemma extra_eq : forall a b c a' b' c', a = a' -> b = b' -> c = c' -> Extra a b c = Extra a' b' c'. Proof. congruence. Qed.
Ltac tri := apply tri_eq; lia.
Ltac gsolve := first [apply from_eq; tri | apply extra_eq; tri].
Ltac three I := rewrite in_for in I; destruct I as (? & ? & I); rewrite in_for in I; destruct I as (? & ? & I); rewrite in_for in I; destruct I as (? & ? & I);
  destruct I as [I|[]]; injection I as <- <-.
Ltac nrm := cbn [co upd axis_eqb before normal btoz andb orb negb fst snd is_refl quirk] in *.
Lemma loop1 : forall b right a G, geom_ok G -> 1 < g_N G a ->
  forall t e, In (t, e) (gbc_fun b a right G) -> gbox right G a t = true /\ e = gexp b a right G t.
Proof.
  intros b right a G. destruct a; setup G; intros t e I; destruct b, right; unfG; rw; three I;
  (split; [apply gbox_true; unfB; nrm; rw; nrm; rewrite !rng_spec; lia | unfB; nrm; rw; gsolve]).
Qed.
Ltac bxg B := apply gbox_true in B; unfB; nrm; rw; nrm; rewrite !rng_spec in B; destruct B as (B1 & B2 & B3).
Ltac fing := left; apply f_equal2; [tri | gsolve].
Lemma loop2 : forall b right a G, geom_ok G -> 1 < g_N G a ->
  forall c, gbox right G a c = true -> In (c, gexp b a right G c) (gbc_fun b a right G).
Proof.
  intros b right a G. destruct a; setup G; intros [[k j] i] B; destruct b, right; bxg B; unfG; rw;
  first [ solve [wit k; wit j; wit (g_ng G - i); fing] | solve [wit k; wit j; wit (i - (g_N1 G + g_ng G - 1)); fing]
        | solve [wit k; wit (g_ng G - j); wit i; fing] | solve [wit k; wit (j - (g_N2 G + g_ng G - 1)); wit i; fing]
        | solve [wit (g_ng G - k); wit j; wit i; fing] | solve [wit (k - (g_N3 G + g_ng G - 1)); wit j; wit i; fing]].
Qed.
Lemma loop_sorted : forall b right a G, StronglySorted (fun x y => klt (key a right (fst x)) (key a right (fst y))) (gbc_fun b a right G).
Proof.
  intros b right a G. destruct a, b, right; unfG;
  (apply SS_for; [intros k Hk; apply SS_for; [intros j Hj; apply SS_for; [intros i Hi; repeat constructor|]|]|]);
  intros x y u v Hx Hxy Hy Iu Iv; 
  repeat match goal with I : In _ (for_ _ _ _) |- _ => rewrite in_for in I; destruct I as (? & ? & I) end;
  destruct Iu as [<-|[]]; destruct Iv as [<-|[]]; cbn; lia.
Qed.
Lemma loop_ordered : forall b right a G, geom_ok G -> 1 < g_N G a -> (b = GOpen -> 3 <= g_N G a) -> ordered (gbc_fun b a right G).
Proof.
  intros b right a G OK N N3. apply (SS_ordered (key a right) (gbox right G a)); [apply key_inj|apply loop_sorted| |].
  - intros t e I. apply (loop1 b right a G OK N t e I).
  - intros t e s I Hs. destruct (loop1 b right a G OK N t e I) as [B ->]. clear I.
    destruct b; cbn [gexp srcs] in Hs.
    + left. destruct (gbox right G a s) eqn:E; [|reflexivity]. destruct Hs as [<-|[]]. exfalso. revert OK N B E. clear N3. destruct t as [[k j] i]. destruct a; setup G; intros B E; destruct right; bxg B; apply gbox_true in E; unfB; nrm; rw; nrm; rewrite !rng_spec in E; lia.
    + left. destruct (gbox right G a s) eqn:E; [|reflexivity]. destruct Hs as [<-|[]]. exfalso. revert OK N B E. clear N3. destruct t as [[k j] i]. destruct a; setup G; intros B E; destruct right; bxg B; apply gbox_true in E; unfB; nrm; rw; nrm; rewrite !rng_spec in E; lia.
    + right. destruct t as [[k j] i]. destruct Hs as [<-|[<-|[<-|[]]]]; destruct a, right; cbn; lia.
Qed.
