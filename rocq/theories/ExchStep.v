(** One axis of exchange_gpcouple: every cell gets what is deposited at its place. *)
From Coq Require Import ZArith Reals List Bool Lia Lra FunctionalExtensionality.
From Verif Require Import Loop BvalsModel BvalsSpec BvalsParModel BvalsParProps IntegSpec IntegFacts SumFacts GravFacts ExchModel ExchSpec ExchSum ExchRow.
Import ListNotations.
Open Scope Z_scope.

Lemma map_flat : forall A B C (f : B -> C) (g : A -> list B) l, map f (flat_map g l) = flat_map (fun x => map f (g x)) l.
Proof. intros A B C f g l. induction l as [|x l IH]; [reflexivity|]. cbn [flat_map map]. rewrite map_app, IH. reflexivity. Qed.
Lemma for_shift : forall B lo hi d (body : Z -> list B), for_ (lo + d) (hi + d) body = for_ lo hi (fun x => body (x + d)).
Proof.
  intros B lo hi d body. unfold for_, zrange. replace (hi + d - (lo + d) + 1) with (hi - lo + 1) by lia. generalize (seq 0 (Z.to_nat (hi - lo + 1))). intros L.
  induction L as [|x L IH]; [reflexivity|]. cbn [map flat_map]. rewrite IH. f_equal. f_equal. lia.
Qed.
Lemma for_ext : forall B lo hi (f g : Z -> list B), (forall x, f x = g x) -> for_ lo hi f = for_ lo hi g.
Proof. intros B lo hi f g H. unfold for_. apply flat_map_ext. auto. Qed.
Lemma map_for : forall B C (f : B -> C) lo hi body, map f (for_ lo hi body) = for_ lo hi (fun x => map f (body x)).
Proof. intros. unfold for_. apply map_flat. Qed.
Lemma rows_shift : forall a wl wh lo hi d, rows a wl wh (lo + d) (hi + d) = map (fun c => upd a c (co a c + d)) (rows a wl wh lo hi).
Proof.
  intros [] wl wh lo hi d; unfold rows, gb, box; cbn [axis_eqb]; repeat (rewrite map_for).
  - apply for_ext. intros k. rewrite map_for. apply for_ext. intros j. rewrite map_for, for_shift. reflexivity.
  - apply for_ext. intros k. rewrite map_for, for_shift. apply for_ext. intros j. rewrite map_for. reflexivity.
  - rewrite for_shift. apply for_ext. intros k. rewrite map_for. apply for_ext. intros j. rewrite map_for. reflexivity.
Qed.
Lemma rows_ext : forall a wl wl' wh wh' lo hi, (forall b, b <> a -> wl b = wl' b /\ wh b = wh' b) -> rows a wl wh lo hi = rows a wl' wh' lo hi.
Proof.
  intros a wl wl' wh wh' lo hi H. unfold rows, gb.
  assert (E : forall b (t : Z), (if axis_eqb b a then t else wl b) = (if axis_eqb b a then t else wl' b) /\ (if axis_eqb b a then t else wh b) = (if axis_eqb b a then t else wh' b)).
  { intros b t. destruct (axis_dec b a) as [->|N]; [rewrite axis_eqb_refl; auto|]. rewrite (axis_eqb_neq b a N). auto. }
  rewrite !(fun b t => proj1 (E b t)), !(fun b t => proj2 (E b t)). reflexivity.
Qed.
Lemma row_upd : forall a A c v x, row a A (upd a c x) v = row a A c v.
Proof. intros. unfold row. apply functional_extensionality. intros y. rewrite upd_upd. reflexivity. Qed.

(** What one side does to a row with cells s..e. *)
Inductive side := Msg (m : Z -> R) | Mir | Non.
Section Side.
Variables (ne no s e : Z) (sig : R).
Hypothesis S2 : (sig * sig = 1)%R.
Hypothesis NE : 0 <= ne.
Hypothesis NO : 0 <= no.
Hypothesis SZ : ne + no <= e - s + 1.
Definition mrow (M lo hi lo' hi' : Z) (r : Z -> R) (x : Z) : R :=
  let r1 := fun x => (r x + (if rng lo hi (M - x) then sig * r (M - x)%Z else 0))%R in
  if rng lo' hi' x then (sig * r1 (M - x)%Z)%R else r1 x.
Definition rowL (k : side) (r : Z -> R) (x : Z) : R :=
  match k with
  | Msg m => (r x + (if rng (s - no) (s + ne - 1) x then m x else 0))%R
  | Mir => mrow (2 * s - 1) (s - ne) (s - 1) (s - no) (s - 1) r x
  | Non => r x
  end.
Definition rowR (k : side) (r : Z -> R) (x : Z) : R :=
  match k with
  | Msg m => (r x + (if rng (e - ne + 1) (e + no) x then m x else 0))%R
  | Mir => mrow (2 * e + 1) (e + 1) (e + ne) (e + 1) (e + no) r x
  | Non => r x
  end.
Definition srcL (k : side) (r : Z -> R) (x : Z) : R := match k with Msg m => m x | Mir => (sig * r (2 * s - 1 - x)%Z)%R | Non => 0%R end.
Definition srcR (k : side) (r : Z -> R) (x : Z) : R := match k with Msg m => m x | Mir => (sig * r (2 * e + 1 - x)%Z)%R | Non => 0%R end.
Definition ghL (k : side) (r : Z -> R) (x : Z) : R :=
  match k with Msg m => (r x + m x)%R | Mir => (sig * r (2 * s - 1 - x)%Z + if s - ne <=? x then r x else 0)%R | Non => r x end.
Definition ghR (k : side) (r : Z -> R) (x : Z) : R :=
  match k with Msg m => (r x + m x)%R | Mir => (sig * r (2 * e + 1 - x)%Z + if x <=? e + ne then r x else 0)%R | Non => r x end.
Lemma rng_t : forall lo hi x, lo <= x <= hi -> rng lo hi x = true. Proof. intros. unfold rng. lia. Qed.
Lemma rng_f : forall lo hi x, (x < lo \/ hi < x) -> rng lo hi x = false. Proof. intros. unfold rng. lia. Qed.
Lemma rowL_act : forall k r x, s <= x <= e -> rowL k r x = (r x + (if x <? s + ne then srcL k r x else 0))%R.
Proof.
  intros k r x H. destruct k; cbn [rowL srcL].
  - f_equal. destruct (Z.ltb_spec x (s + ne)); [rewrite rng_t by lia|rewrite rng_f by lia]; reflexivity.
  - unfold mrow. cbv zeta. rewrite (rng_f (s - no)) by lia. f_equal. destruct (Z.ltb_spec x (s + ne)); [rewrite rng_t by lia|rewrite rng_f by lia]; reflexivity.
  - destruct (x <? s + ne); lra.
Qed.
Lemma rowL_gh : forall k r x, s - no <= x < s -> rowL k r x = ghL k r x.
Proof.
  intros k r x H. destruct k; cbn [rowL ghL]; [rewrite rng_t by lia; reflexivity| |reflexivity].
  unfold mrow. cbv zeta. rewrite (rng_t (s - no)) by lia. replace (2 * s - 1 - (2 * s - 1 - x)) with x by lia.
  destruct (Z.leb_spec (s - ne) x); [rewrite rng_t by lia|rewrite rng_f by lia].
  - rewrite Rmult_plus_distr_l. f_equal. rewrite <- Rmult_assoc, S2. lra.
  - lra.
Qed.
Lemma rowL_far : forall k r x, s + ne <= x -> rowL k r x = r x.
Proof.
  intros k r x H. destruct k; cbn [rowL]; [rewrite rng_f by lia; lra| |reflexivity]. unfold mrow. cbv zeta. rewrite !rng_f by lia. lra.
Qed.
Lemma rowR_act : forall k r x, s <= x <= e -> rowR k r x = (r x + (if x >? e - ne then srcR k r x else 0))%R.
Proof.
  intros k r x H. destruct k; cbn [rowR srcR].
  - f_equal. destruct (Z.gtb_spec x (e - ne)); [rewrite rng_t by lia|rewrite rng_f by lia]; reflexivity.
  - unfold mrow. cbv zeta. rewrite (rng_f (e + 1) (e + no) x) by lia. f_equal. destruct (Z.gtb_spec x (e - ne)); [rewrite rng_t by lia|rewrite rng_f by lia]; reflexivity.
  - destruct (x >? e - ne); lra.
Qed.
Lemma rowR_gh : forall k r x, e < x <= e + no -> rowR k r x = ghR k r x.
Proof.
  intros k r x H. destruct k; cbn [rowR ghR]; [rewrite rng_t by lia; reflexivity| |reflexivity].
  unfold mrow. cbv zeta. rewrite (rng_t (e + 1) (e + no) x) by lia. replace (2 * e + 1 - (2 * e + 1 - x)) with x by lia.
  destruct (Z.leb_spec x (e + ne)); [rewrite rng_t by lia|rewrite rng_f by lia].
  - rewrite Rmult_plus_distr_l. f_equal. rewrite <- Rmult_assoc, S2. lra.
  - lra.
Qed.
Lemma rowR_far : forall k r x, x <= e - ne -> rowR k r x = r x.
Proof.
  intros k r x H. destruct k; cbn [rowR]; [rewrite rng_f by lia; lra| |reflexivity]. unfold mrow. cbv zeta. rewrite !rng_f by lia. lra.
Qed.
Definition fin (kl kr : side) (r : Z -> R) (x : Z) : R :=
  if x <? s then ghL kl r x else if x >? e then ghR kr r x
  else (r x + (if x <? s + ne then srcL kl r x else 0) + (if x >? e - ne then srcR kr r x else 0))%R.
Lemma fin_LR : forall kl kr r x, s - no <= x <= e + no -> rowR kr (rowL kl r) x = fin kl kr r x.
Proof.
  intros kl kr r x H. unfold fin. destruct (Z.ltb_spec x s); [|destruct (Z.gtb_spec x e)].
  - rewrite rowR_far by lia. apply rowL_gh. lia.
  - rewrite rowR_gh by lia. destruct kr; cbn [ghR]; rewrite ?rowL_far by lia; reflexivity.
  - rewrite rowR_act by lia. rewrite rowL_act by lia. f_equal. destruct (Z.gtb_spec x (e - ne)); [|reflexivity]. destruct kr; cbn [srcR]; rewrite ?rowL_far by lia; reflexivity.
Qed.
Lemma fin_RL : forall kl kr r x, s - no <= x <= e + no -> rowL kl (rowR kr r) x = fin kl kr r x.
Proof.
  intros kl kr r x H. unfold fin. destruct (Z.ltb_spec x s); [|destruct (Z.gtb_spec x e)].
  - rewrite rowL_gh by lia. destruct kl; cbn [ghL]; rewrite ?rowR_far by lia; reflexivity.
  - rewrite rowL_far by lia. apply rowR_gh. lia.
  - rewrite rowL_act by lia. rewrite rowR_act by lia.
    replace (if x <? s + ne then srcL kl (rowR kr r) x else 0%R) with (if x <? s + ne then srcL kl r x else 0%R); [lra|].
    destruct (Z.ltb_spec x (s + ne)); [|reflexivity]. destruct kl; cbn [srcL]; rewrite ?rowR_far by lia; reflexivity.
Qed.
End Side.

Lemma some_pair : forall (m m' : bool) (z z' : Z), Some (m, z) = Some (m', z') -> m = m' /\ z = z'.
Proof. intros m m' z z' H. split; congruence. Qed.
Section Step.
Variables (bl br : axis -> bc) (D : decomp) (ne no : Z) (a : axis).
Hypothesis OK : dec_ok D.
Hypothesis TW : 1 < total D a.
Hypothesis NE : 0 <= ne.
Hypothesis NO : 0 <= no.
Hypothesis SZ : forall l, (l < d_NG D a)%nat -> ne + no <= d_size D a l.
Hypothesis BP : is_peri (bl a) = is_peri (br a).
Hypothesis SB : same_bc D bl br.
Hypothesis JS : no = 0 \/ (bl a <> Refl /\ bl a <> Cond) \/ a <> A1 \/ 1 < total D A2.
Variables (st : gpos -> arr vec) (g : gpos) (swap : gpos -> bool).
Hypothesis V : on_domain D g.
Notation G := (geo D g).
Notation o := (gco a g).
Notation ng := (d_ng D).
Notation NG := (d_NG D a).
Notation sz := (d_size D a).
Notation dp := (disp D a).
Notation ob c := (othersb a (wl ne no G a) (wh ne no G a) c).
Notation s := (fst_ G a).
Notation e := (lst_ G a).

Lemma s_eq : s = ng. Proof. apply (ends D OK a g TW V). Qed.
Lemma e_eq : e = sz o + ng - 1. Proof. apply (ends D OK a g TW V). Qed.
Lemma N_eq : g_N G a = sz o. Proof. apply g_N_geo. Qed.
Lemma N_gt : 1 < g_N G a. Proof. rewrite N_eq. apply (pos_facts D OK a o TW (V a)). Qed.
Lemma szo : ne + no <= sz o. Proof. apply SZ. apply V. Qed.
Lemma sg2 : forall v, (sg a v * sg a v = 1)%R. Proof. intros v. unfold sg. destruct (v =? comp a)%nat; lra. Qed.
Lemma sgn_sg : forall v, sgn a v true = sg a v. Proof. intros v. unfold sgn, sg. cbn [andb]. reflexivity. Qed.

(** Transformations of rows. *)
Definition Row (f : idx -> nat -> (Z -> R) -> Z -> R) (A A' : arr vec) : Prop :=
  (forall c v x r y, f (upd a c x) v r y = f c v r y) /\ forall c v, A' c v = if ob c then f c v (row a A c v) (co a c) else A c v.
Lemma Row_row : forall f A A' c v, Row f A A' -> ob c = true -> row a A' c v = f c v (row a A c v).
Proof.
  intros f A A' c v [F H] O. apply functional_extensionality. intros x. unfold row at 1. rewrite H, othersb_upd, O, co_upd, F, row_upd. reflexivity.
Qed.
Lemma Row_comp : forall f h A A' A'', Row f A A' -> Row h A' A'' -> Row (fun c v r x => h c v (f c v r) x) A A''.
Proof.
  intros f h A A' A'' H K. split.
  - intros c v x r y. assert (E : f (upd a c x) v r = f c v r) by (apply functional_extensionality; intros; apply (proj1 H)). rewrite E. apply (proj1 K).
  - intros c v. rewrite (proj2 K). destruct (ob c) eqn:O; [rewrite (Row_row f A A' c v H O); reflexivity|]. rewrite (proj2 H), O. reflexivity.
Qed.
Lemma refl_l : forall b A, (b = Refl \/ b = Cond) -> bl a = b -> Row (fun c v => rowL ne no s (sg a v) Mir) A (run_b (apply_ ne no G b a false) A).
Proof.
  assert (NGT := N_gt). intros b A B BB. split; [reflexivity|]. intros c v. assert (BR : apply_ ne no G b a false = apply_ ne no G Refl a false) by (destruct B as [-> | ->]; [reflexivity|apply (cond_refl ne no G a N_gt)]). rewrite BR.
  assert (CASE : (a = A1 -> g_js G = g_is G) \/ (a = A1 /\ no = 0)).
  { destruct (axis_dec a A1) as [E|E]; [|left; intros; contradiction]. destruct JS as [J|[J|[J|J]]]; [right; auto| |contradiction|].
    - exfalso. rewrite BB in J. destruct B as [-> | ->]; destruct J; congruence.
    - left. intros _. assert (X := ends D OK A2 g J V). destruct X as (X & _). assert (Y := N_gt). rewrite E in Y. cbn [g_N] in X, Y. unfold g_js, g_is. rewrite X, (gt1 _ Y). reflexivity. }
  destruct CASE as [J|[-> N0]].
  - rewrite (reflect_l_rows ne no G a NGT J). rewrite (mirrored_row ne no G a) by lia. reflexivity.
  - transitivity (run_acc (map (fun c => (mir A1 (2 * fst_ G A1 - 1) c, c, flip (comp A1))) (rows A1 (wl ne no G A1) (wh ne no G A1) (fst_ G A1 - ne) (fst_ G A1 - 1))) A c v).
    + unfold run_b. rewrite run_miss.
      * unfold apply_, reflect_ix1. cbn [fst].
        replace (map (fun '(k, j, i) => (k, j, 2 * g_is G - i - 1, (k, j, i), flip 0)) (box (kb no G) (kt no G) (jb no G) (jt no G) (il ne G) (g_is G - 1)))
          with (map (fun c => (mir A1 (2 * fst_ G A1 - 1) c, c, flip (comp A1))) (rows A1 (wl ne no G A1) (wh ne no G A1) (fst_ G A1 - ne) (fst_ G A1 - 1))); [reflexivity|].
        assert (NG1 := NGT). cbn [g_N] in NG1. unfold il. rewrite (gt1 _ NG1). symmetry. apply map_ext. intros [[k j] i]. unfold mir. cbn [co upd comp]. change (fst_ G A1) with (g_is G).
        replace (2 * g_is G - i - 1) with (2 * g_is G - 1 - i) by lia. reflexivity.
      * intros p P. cbn [apply_ reflect_ix1 snd] in P. apply in_map_iff in P. destruct P as ([[k j] i] & <- & P). apply in_box in P. destruct P as (_ & _ & P).
        assert (NG1 := NGT). cbn [g_N] in NG1. unfold ib in P. rewrite (gt1 _ NG1) in P. lia.
    + rewrite (mirrored_acc ne no G A1) by lia. cbn [rowL]. unfold mrow. cbv zeta. rewrite (rng_f (fst_ G A1 - no)) by lia. rewrite row_co.
      destruct (othersb A1 (wl ne no G A1) (wh ne no G A1) c); [reflexivity|lra].
Qed.
Lemma refl_r : forall b A, (b = Refl \/ b = Cond) -> Row (fun c v => rowR ne no e (sg a v) Mir) A (run_b (apply_ ne no G b a true) A).
Proof.
  intros b A B. split; [reflexivity|]. intros c v. assert (BR : apply_ ne no G b a true = apply_ ne no G Refl a true) by (destruct B as [-> | ->]; [reflexivity|apply (cond_refl ne no G a N_gt)]). rewrite BR.
  rewrite (reflect_r_rows ne no G a N_gt). rewrite (mirrored_row ne no G a) by lia. reflexivity.
Qed.
Lemma none_b : forall right A, (right = false -> bl a = Outf) -> (right = true -> br a = Outf \/ br a = Peri) ->
  Row (fun c v r x => r x) A (run_b (apply_ ne no G (if right then br a else bl a) a right) A).
Proof.
  intros right A H H'. split; [reflexivity|]. intros c v. rewrite row_co.
  assert (E : apply_ ne no G (if right then br a else bl a) a right = ([], [])).
  { destruct right; [destruct (H' eq_refl) as [-> | ->]|rewrite (H eq_refl)]; destruct a; reflexivity. }
  rewrite E. cbn. destruct (othersb a (wl ne no G a) (wh ne no G a) c); reflexivity.
Qed.
Lemma wl_gupd : forall l b, b <> a -> wl ne no (geo D (gupd a g l)) a b = wl ne no G a b /\ wh ne no (geo D (gupd a g l)) a b = wh ne no G a b.
Proof. intros l b N. unfold wl, wh, low, high, fst_, lst_. rewrite !g_N_geo, gco_gupd_other by auto. auto. Qed.
Lemma msg_l : forall l A, (l < NG)%nat -> exists A', add_cells (unpack_l ne no G a) (map (st (gupd a g l)) (pack_r ne no (geo D (gupd a g l)) a)) A = Some A' /\
  Row (fun c v => rowL ne no s (sg a v) (Msg (fun x => row a (st (gupd a g l)) c v (x + sz l)))) A A'.
Proof.
  intros l A L. set (h := gupd a g l). assert (VH : on_domain D h) by (apply on_gupd; auto). destruct (ends D OK a h TW VH) as (_ & _ & _ & _ & EH & _). unfold h in EH at 2. rewrite gco_gupd in EH.
  assert (NH : 1 < g_N (geo D h) a) by (rewrite g_N_geo; unfold h; rewrite gco_gupd; apply (pos_facts D OK a l TW L)).
  rewrite (pack_r_rows ne no (geo D h) a NH), (unpack_l_rows ne no G a N_gt). rewrite (rows_ext a (wl ne no (geo D h) a) (wl ne no G a) (wh ne no (geo D h) a) (wh ne no G a)) by (intros b B; apply wl_gupd; auto).
  rewrite EH. replace (sz l + ng - 1 - no + 1) with (s - no + sz l) by (rewrite s_eq; lia). replace (sz l + ng - 1 + ne) with (s + ne - 1 + sz l) by (rewrite s_eq; lia).
  rewrite rows_shift, map_map. destruct (add_cells_map (rows a (wl ne no G a) (wh ne no G a) (s - no) (s + ne - 1)) (fun c => st h (upd a c (co a c + sz l))) A) as (A' & E & K); [unfold rows; apply NoDup_gb|].
  exists A'. split; [exact E|]. split; [intros c v x r y; cbn [rowL]; rewrite row_upd; reflexivity|].
  intros c v. rewrite K. rewrite in_R. cbn [rowL]. rewrite row_co. destruct (ob c); [reflexivity|lra].
Qed.
Lemma msg_r : forall l A, (l < NG)%nat -> exists A', add_cells (unpack_r ne no G a) (map (st (gupd a g l)) (pack_l ne no (geo D (gupd a g l)) a)) A = Some A' /\
  Row (fun c v => rowR ne no e (sg a v) (Msg (fun x => row a (st (gupd a g l)) c v (x - sz o)))) A A'.
Proof.
  intros l A L. set (h := gupd a g l). assert (VH : on_domain D h) by (apply on_gupd; auto). destruct (ends D OK a h TW VH) as (_ & _ & EH & _).
  assert (NH : 1 < g_N (geo D h) a) by (rewrite g_N_geo; unfold h; rewrite gco_gupd; apply (pos_facts D OK a l TW L)).
  rewrite (pack_l_rows ne no (geo D h) a NH), (unpack_r_rows ne no G a N_gt). rewrite (rows_ext a (wl ne no (geo D h) a) (wl ne no G a) (wh ne no (geo D h) a) (wh ne no G a)) by (intros b B; apply wl_gupd; auto).
  rewrite EH. replace (ng - ne) with (e - ne + 1 + - sz o) by (rewrite e_eq; lia). replace (ng + no - 1) with (e + no + - sz o) by (rewrite e_eq; lia).
  rewrite rows_shift, map_map. destruct (add_cells_map (rows a (wl ne no G a) (wh ne no G a) (e - ne + 1) (e + no)) (fun c => st h (upd a c (co a c + - sz o))) A) as (A' & E & K); [unfold rows; apply NoDup_gb|].
  exists A'. split; [exact E|]. split; [intros c v x r y; cbn [rowR]; rewrite row_upd; reflexivity|].
  intros c v. rewrite K. rewrite in_R. cbn [rowR]. rewrite row_co. destruct (ob c); [reflexivity|lra].
Qed.

Definition kL (c : idx) (v : nat) : side :=
  if (0 <? o)%nat then Msg (fun x => row a (st (gupd a g (o - 1))) c v (x + sz (o - 1)%nat))
  else match bl a with Refl | Cond => Mir | Peri => Msg (fun x => row a (st (gupd a g (NG - 1))) c v (x + sz (NG - 1)%nat)) | Outf => Non end.
Definition kR (c : idx) (v : nat) : side :=
  if (S o <? NG)%nat then Msg (fun x => row a (st (gupd a g (S o))) c v (x - sz o))
  else match br a with Refl | Cond => Mir | Peri => Msg (fun x => row a (st (gupd a g 0%nat)) c v (x - sz o)) | Outf => Non end.
Definition zero_out (c : idx) (v : nat) : Prop := co a c < s - ne \/ e + ne < co a c -> st g c v = 0%R.
Lemma Row_fin : forall A', (exists f h A1, Row f (st g) A1 /\ Row h A1 A' /\
    ((forall c v r x, f c v r x = rowL ne no s (sg a v) (kL c v) r x) /\ (forall c v r x, h c v r x = rowR ne no e (sg a v) (kR c v) r x) \/
     (forall c v r x, f c v r x = rowR ne no e (sg a v) (kR c v) r x) /\ (forall c v r x, h c v r x = rowL ne no s (sg a v) (kL c v) r x))) ->
  (forall c v, ob c = false -> A' c v = st g c v) /\
  (forall c v, ob c = true -> s - no <= co a c <= e + no -> A' c v = fin ne s e (sg a v) (kL c v) (kR c v) (row a (st g) c v) (co a c)).
Proof.
  intros A' (f & h & A1 & H & K & E). assert (RC := Row_comp f h _ _ _ H K). destruct RC as [_ RC]. split; intros c v O; rewrite RC, O; [reflexivity|]. intros X.
  assert (W : ne + no <= e - s + 1) by (rewrite e_eq, s_eq; assert (Q := szo); lia).
  destruct E as [[E1 E2]|[E1 E2]]; rewrite E2.
  - assert (FE : f c v (row a (st g) c v) = rowL ne no s (sg a v) (kL c v) (row a (st g) c v)) by (apply functional_extensionality; intros; apply E1).
    rewrite FE. apply fin_LR; auto; apply sg2.
  - assert (FE : f c v (row a (st g) c v) = rowR ne no e (sg a v) (kR c v) (row a (st g) c v)) by (apply functional_extensionality; intros; apply E1).
    rewrite FE. apply fin_RL; auto; apply sg2.
Qed.
Lemma exch_fin : exists A', exch ne no bl br D a swap st g = Some A' /\
  (forall c v, ob c = false -> A' c v = st g c v) /\
  (forall c v, ob c = true -> s - no <= co a c <= e + no -> zero_out c v -> A' c v = fin ne s e (sg a v) (kL c v) (kR c v) (row a (st g) c v) (co a c)).
Proof.
  unfold exch. rewrite inbox_l, inbox_r by auto. cbn [obind]. unfold axis_step. rewrite (gt1 _ N_gt).
  assert (VO : (o < NG)%nat) by apply V.
  assert (FIN : forall A', (exists f h A1, Row f (st g) A1 /\ Row h A1 A' /\
    ((forall c v r x, f c v r x = rowL ne no s (sg a v) (kL c v) r x) /\ (forall c v r x, h c v r x = rowR ne no e (sg a v) (kR c v) r x) \/
     (forall c v r x, f c v r x = rowR ne no e (sg a v) (kR c v) r x) /\ (forall c v r x, h c v r x = rowL ne no s (sg a v) (kL c v) r x))) ->
    (forall c v, ob c = false -> A' c v = st g c v) /\
    (forall c v, ob c = true -> s - no <= co a c <= e + no -> zero_out c v -> A' c v = fin ne s e (sg a v) (kL c v) (kR c v) (row a (st g) c v) (co a c))).
  { intros A' X. destruct (Row_fin A' X) as [X1 X2]. split; [exact X1|]. intros c v O R _. apply X2; auto. }
  (* the neighbours *)
  assert (LN : (exists l, left_nb bl D a g = Some (gupd a g l) /\ (l < NG)%nat /\ forall c v, kL c v = Msg (fun x => row a (st (gupd a g l)) c v (x + sz l)))
    \/ (left_nb bl D a g = None /\ o = 0%nat /\ (bl a <> Peri \/ NG = 1%nat))).
  { unfold left_nb, kL. destruct (Nat.ltb_spec 0 o) as [P|P]; [left; exists (o - 1)%nat; rewrite Nat.sub_1_r; repeat split; auto; lia|].
    destruct (bl a) eqn:B; cbn [is_peri andb]; try (right; repeat split; auto; try lia; left; congruence).
    destruct (Nat.ltb_spec 1 NG); [left; exists (NG - 1)%nat; rewrite Nat.sub_1_r; repeat split; auto; lia|right; repeat split; try lia; right; lia]. }
  assert (RN : (exists l, right_nb br D a g = Some (gupd a g l) /\ (l < NG)%nat /\ forall c v, kR c v = Msg (fun x => row a (st (gupd a g l)) c v (x - sz o)))
    \/ (right_nb br D a g = None /\ S o = NG /\ (br a <> Peri \/ NG = 1%nat))).
  { unfold right_nb, kR. destruct (Nat.ltb_spec (S o) NG) as [P|P]; [left; exists (S o); repeat split; auto; lia|].
    destruct (br a) eqn:B; cbn [is_peri andb]; try (right; repeat split; auto; try lia; left; congruence).
    destruct (Nat.ltb_spec 1 NG); [left; exists 0%nat; repeat split; auto; lia|right; repeat split; try lia; right; lia]. }
  (* one Grid, periodic *)
  destruct (is_peri (bl a) && (NG =? 1)%nat) eqn:SP.
  { apply andb_true_iff in SP. destruct SP as [PB N1]. apply Nat.eqb_eq in N1. assert (PL := peri_eq _ PB). assert (PR : br a = Peri) by (apply peri_eq; congruence).
    assert (O0 : o = 0%nat) by lia. assert (P := szo).
    assert (EL : left_nb bl D a g = None) by (unfold left_nb; rewrite O0, N1, andb_false_r; reflexivity).
    assert (ER : right_nb br D a g = None) by (unfold right_nb; rewrite O0, N1, andb_false_r; reflexivity).
    rewrite EL, ER. cbn [option_map]. rewrite PL, PR. eexists. split; [reflexivity|].
    assert (EP : apply_ ne no G Peri a true = ([], [])) by (destruct a; reflexivity). rewrite EP. change (forall A, run_b ([], []) A = A) with (forall A : arr vec, A = A).
    assert (PS : forall A c v, run_b ([], []) (run_b (apply_ ne no G Peri a false) A) c v = if ob c then perrow ne no G a (sz o) (row a A c v) (co a c) else A c v).
    { intros A c v. unfold run_b at 1. cbn [fst snd run_acc run fold_left]. rewrite (periodic_rows ne no G a N_gt), N_eq. apply (shifted_row ne no G a); lia. }
    split; intros c v OB; rewrite PS, OB; [reflexivity|]. intros X Z0. unfold zero_out in Z0. unfold kL, kR. rewrite O0, N1, PL, PR. cbn [Nat.ltb Nat.leb Nat.sub].
    assert (GS : gupd a g 0%nat = g) by (rewrite <- O0; apply gupd_same). rewrite GS. rewrite <- row_co with (a := a) in Z0. set (r := row a (st g) c v) in *. set (x := co a c) in *.
    rewrite O0 in *. assert (S0 := s_eq). assert (E0 := e_eq). rewrite O0 in E0. unfold perrow, fin. cbv zeta. cbn [ghL ghR srcL srcR].
    destruct (Z.ltb_spec x s); [|destruct (Z.gtb_spec x e)].
    - rewrite (rng_t (s - no) (s - 1) x) by lia. rewrite (rng_f s (s + ne - 1) (x + sz 0%nat)) by lia. replace (x + sz 0%nat - sz 0%nat) with x by lia.
      destruct (Z.lt_ge_cases x (s - ne)); [rewrite rng_f by lia; rewrite Z0 by lia; lra|rewrite rng_t by lia; lra].
    - rewrite (rng_f (s - no) (s - 1) x) by lia. rewrite (rng_t (s + sz 0%nat) (s + sz 0%nat + no - 1) x) by lia. rewrite (rng_f (s + sz 0%nat - ne) (s + sz 0%nat - 1) (x - sz 0%nat)) by lia. replace (x - sz 0%nat + sz 0%nat) with x by lia.
      destruct (Z.lt_ge_cases (e + ne) x); [rewrite rng_f by lia; rewrite Z0 by lia; lra|rewrite rng_t by lia; lra].
    - rewrite (rng_f (s - no) (s - 1) x) by lia. rewrite (rng_f (s + sz 0%nat) (s + sz 0%nat + no - 1) x) by lia.
      f_equal; [f_equal|].
      + destruct (Z.ltb_spec x (s + ne)); [rewrite rng_t by lia|rewrite rng_f by lia]; reflexivity.
      + destruct (Z.gtb_spec x (e - ne)); [rewrite rng_t by lia|rewrite rng_f by lia]; reflexivity. }
  assert (NP : NG = 1%nat -> bl a <> Peri /\ br a <> Peri).
  { intros N1. rewrite N1 in SP. cbn [Nat.eqb] in SP. rewrite andb_true_r in SP. split; intros E; [rewrite E in SP|rewrite BP, E in SP]; discriminate. }
  assert (LB : forall A, left_nb bl D a g = None -> o = 0%nat -> bl a <> Peri -> exists f, Row f A (run_b (apply_ ne no G (bl a) a false) A) /\ forall c v r x, f c v r x = rowL ne no s (sg a v) (kL c v) r x).
  { intros A _ O0 B. unfold kL. rewrite O0. cbn [Nat.ltb Nat.leb]. assert (BB : bl a = Refl \/ bl a = Outf \/ bl a = Cond) by (destruct (bl a); auto; congruence). destruct BB as [BB|[BB|BB]]; rewrite BB.
    - eexists. split; [apply refl_l; auto|]. reflexivity.
    - exists (fun c v r x => r x). split; [|reflexivity]. rewrite <- BB. apply (none_b false A); [auto|discriminate].
    - eexists. split; [apply refl_l; auto|]. reflexivity. }
  assert (RB : forall A, right_nb br D a g = None -> S o = NG -> br a <> Peri -> exists f, Row f A (run_b (apply_ ne no G (br a) a true) A) /\ forall c v r x, f c v r x = rowR ne no e (sg a v) (kR c v) r x).
  { intros A _ O0 B. unfold kR. rewrite O0, Nat.ltb_irrefl. assert (BB : br a = Refl \/ br a = Outf \/ br a = Cond) by (destruct (br a); auto; congruence). destruct BB as [BB|[BB|BB]]; rewrite BB.
    - eexists. split; [apply refl_r; auto|]. reflexivity.
    - exists (fun c v r x => r x). split; [|reflexivity]. rewrite <- BB. apply (none_b true A); [discriminate|auto].
    - eexists. split; [apply refl_r; auto|]. reflexivity. }
  destruct LN as [(l & EL & L & KL)|(EL & O0 & BL)], RN as [(l' & ER & L' & KR)|(ER & O1 & BR)]; rewrite EL, ER; cbn [option_map].
  - destruct (swap g).
    + destruct (msg_r l' (st g) L') as (A1 & E1 & R1). rewrite E1. cbn [obind]. destruct (msg_l l A1 L) as (A2 & E2 & R2). rewrite E2. eexists. split; [reflexivity|]. apply FIN.
      do 3 eexists. split; [exact R1|]. split; [exact R2|]. right. split; intros c v r x; rewrite ?KL, ?KR; reflexivity.
    + destruct (msg_l l (st g) L) as (A1 & E1 & R1). rewrite E1. cbn [obind]. destruct (msg_r l' A1 L') as (A2 & E2 & R2). rewrite E2. eexists. split; [reflexivity|]. apply FIN.
      do 3 eexists. split; [exact R1|]. split; [exact R2|]. left. split; intros c v r x; rewrite ?KL, ?KR; reflexivity.
  - assert (BR' : br a <> Peri) by (destruct BR as [B|B]; [auto|apply NP; auto]). destruct (RB (st g) ER O1 BR') as (f & R1 & F1).
    destruct (msg_l l (run_b (apply_ ne no G (br a) a true) (st g)) L) as (A2 & E2 & R2). rewrite E2. eexists. split; [reflexivity|]. apply FIN.
    do 3 eexists. split; [exact R1|]. split; [exact R2|]. right. split; [exact F1|]. intros c v r x. rewrite KL. reflexivity.
  - assert (BL' : bl a <> Peri) by (destruct BL as [B|B]; [auto|apply NP; auto]). destruct (LB (st g) EL O0 BL') as (f & R1 & F1).
    destruct (msg_r l' (run_b (apply_ ne no G (bl a) a false) (st g)) L') as (A2 & E2 & R2). rewrite E2. eexists. split; [reflexivity|]. apply FIN.
    do 3 eexists. split; [exact R1|]. split; [exact R2|]. left. split; [exact F1|]. intros c v r x. rewrite KR. reflexivity.
  - assert (BL' : bl a <> Peri) by (destruct BL as [B|B]; [auto|apply NP; auto]). assert (BR' : br a <> Peri) by (destruct BR as [B|B]; [auto|apply NP; auto]).
    destruct (LB (st g) EL O0 BL') as (f & R1 & F1). destruct (RB (run_b (apply_ ne no G (bl a) a false) (st g)) ER O1 BR') as (h & R2 & F2). eexists. split; [reflexivity|]. apply FIN.
    exists f, h, (run_b (apply_ ne no G (bl a) a false) (st g)). split; [exact R1|]. split; [exact R2|]. left. split; [exact F1|exact F2].
Qed.

Lemma SZe : forall l, (l < NG)%nat -> ne <= sz l. Proof. intros l L. assert (X := SZ l L). lia. Qed.
Lemma fin_gathered : forall c v m z, s - no <= co a c <= e + no -> zero_out c v -> place bl br D a (co a c + dp o) = Some (m, z) ->
  fin ne s e (sg a v) (kL c v) (kR c v) (row a (st g) c v) (co a c) = (sgn a v m * gathered bl br D ne a v (fun l x => row a (st (gupd a g l)) c v x) z)%R.
Proof.
  intros c v m z X Z0 P. assert (VO : (o < NG)%nat) by apply V. assert (SO := SZ o VO). assert (S1 := sz1 D a OK TW o VO). assert (NP := NGpos D a OK).
  unfold zero_out in Z0. rewrite <- row_co with (a := a) in Z0. rewrite s_eq, e_eq in *. set (x := co a c) in *.
  assert (GS : gupd a g o = g) by apply gupd_same.
  set (F := fun l x => row a (st (gupd a g l)) c v x). assert (FO : forall y, row a (st g) c v y = F o y) by (intros y; unfold F; rewrite GS; reflexivity).
  assert (near : forall l y, (l < NG)%nat -> ng <= y <= sz l + ng - 1 -> gathered bl br D ne a v F (y + dp l) = (F l y + Lnear bl D ne a v F l y + Rnear br D ne a v F l y)%R)
    by (intros l y L Y; apply gathered_near; auto; apply SZe).
  assert (DN := disp_nonneg D OK a o ltac:(lia)). assert (DT := disp_step D OK a (S o) NG ltac:(lia)). change (disp D a (S o)) with (dp o + sz o) in DT. change (disp D a NG) with (total D a) in DT.
  rewrite (place_eq bl br D a TW) in P. unfold image in P. unfold fin. rewrite !sgn_sg || idtac.
  destruct (Z.ltb_spec x ng) as [XL|XL]; [|destruct (Z.gtb_spec x (sz o + ng - 1)) as [XR|XR]].
  - (* left ghost zone *)
    assert (NB : forall l, (l < NG)%nat -> x + dp o = x + sz l + dp l \/ x + dp o + total D a = x + sz l + dp l ->
       (if (S l <? NG)%nat then F (S l) (x + sz l - sz l)%Z else match br a with Refl | Cond => (sgn a v true * F l (2 * (sz l + ng - 1) + 1 - (x + sz l))%Z)%R | Peri => F 0%nat (x + sz l - sz l)%Z | Outf => 0%R end) = F o x ->
       (F o x + F l (x + sz l)%Z)%R = (1 * gathered bl br D ne a v F (x + sz l + dp l))%R).
    { intros l L _ R. assert (SL := SZ l L). rewrite near by lia. unfold Lnear, Rnear. replace (x + sz l <? ng + ne) with false by lia. rewrite R.
      rewrite FO in Z0. destruct (Z.gtb_spec (x + sz l) (sz l + ng - 1 - ne)); [lra|]. rewrite Z0 by lia. lra. }
    unfold kL. destruct (Nat.ltb_spec 0 o) as [O0|O0].
    + cbn [ghL]. assert (L : (o - 1 < NG)%nat) by lia. assert (DO : dp o = dp (o - 1)%nat + sz (o - 1)%nat) by (rewrite <- (dp_S D a); f_equal; lia).
      assert (SL := SZ (o - 1)%nat L). assert (DN1 := disp_nonneg D OK a (o - 1)%nat ltac:(lia)).
      replace (x + dp o <? ng) with false in P by lia. replace (x + dp o >? total D a + ng - 1) with false in P by lia. apply some_pair in P; destruct P as [<- <-].
      rewrite FO. change (row a (st (gupd a g (o - 1))) c v (x + sz (o - 1)%nat)) with (F (o - 1)%nat (x + sz (o - 1)%nat)). replace (x + dp o) with (x + sz (o - 1)%nat + dp (o - 1)%nat) by lia.
      apply NB; [exact L|left; lia|]. replace (S (o - 1)) with o by lia. replace (o <? NG)%nat with true by (symmetry; apply Nat.ltb_lt; exact VO). f_equal. lia.
    + assert (O1 : o = 0%nat) by lia. assert (D0 : dp o = 0) by (rewrite O1; reflexivity). rewrite D0, Z.add_0_r in P. replace (x <? ng) with true in P by lia.
      destruct (bl a) eqn:B; cbn [ghL].
      * apply some_pair in P; destruct P as [<- <-]. rewrite sgn_sg. assert (NR := near o (2 * ng - 1 - x) VO ltac:(lia)). rewrite D0, Z.add_0_r in NR. change (gathered bl br D ne a v (fun l x0 => row a (st (gupd a g l)) c v x0)) with (gathered bl br D ne a v F). rewrite NR. unfold Lnear, Rnear. rewrite B.
        replace (0 <? o)%nat with false by (symmetry; apply Nat.ltb_ge; lia). replace (2 * ng - 1 - x >? sz o + ng - 1 - ne) with false by lia. replace (2 * ng - 1 - (2 * ng - 1 - x)) with x by lia.
        rewrite !FO, sgn_sg. rewrite O1. replace (2 * ng - 1 - x <? ng + ne) with (ng - ne <=? x) by lia. assert (Q := sg2 v). destruct (ng - ne <=? x); [|lra].
        replace (sg a v * (F 0%nat (2 * ng - 1 - x)%Z + sg a v * F 0%nat x + 0))%R with (sg a v * F 0%nat (2 * ng - 1 - x)%Z + (sg a v * sg a v) * F 0%nat x)%R by ring. rewrite Q. lra.
      * discriminate.
      * apply some_pair in P; destruct P as [<- <-]. assert (PR : br a = Peri) by (apply peri_eq; rewrite <- BP; reflexivity). assert (DT' : dp (NG - 1)%nat + sz (NG - 1)%nat = total D a) by (rewrite <- (dp_S D a), <- dp_top; f_equal; lia).
        replace (x + (total D a + ng - 1 - ng + 1)) with (x + sz (NG - 1)%nat + dp (NG - 1)%nat) by lia. rewrite FO. change (row a (st (gupd a g (NG - 1))) c v (x + sz (NG - 1)%nat)) with (F (NG - 1)%nat (x + sz (NG - 1)%nat)).
        apply NB; [lia|right; lia|]. replace (S (NG - 1) <? NG)%nat with false by (symmetry; apply Nat.ltb_ge; lia). rewrite PR, O1. f_equal. lia.
      * apply some_pair in P; destruct P as [<- <-]. rewrite sgn_sg. assert (NR := near o (2 * ng - 1 - x) VO ltac:(lia)). rewrite D0, Z.add_0_r in NR. change (gathered bl br D ne a v (fun l x0 => row a (st (gupd a g l)) c v x0)) with (gathered bl br D ne a v F). rewrite NR. unfold Lnear, Rnear. rewrite B.
        replace (0 <? o)%nat with false by (symmetry; apply Nat.ltb_ge; lia). replace (2 * ng - 1 - x >? sz o + ng - 1 - ne) with false by lia. replace (2 * ng - 1 - (2 * ng - 1 - x)) with x by lia.
        rewrite !FO, sgn_sg. rewrite O1. replace (2 * ng - 1 - x <? ng + ne) with (ng - ne <=? x) by lia. assert (Q := sg2 v). destruct (ng - ne <=? x); [|lra].
        replace (sg a v * (F 0%nat (2 * ng - 1 - x)%Z + sg a v * F 0%nat x + 0))%R with (sg a v * F 0%nat (2 * ng - 1 - x)%Z + (sg a v * sg a v) * F 0%nat x)%R by ring. rewrite Q. lra.
  - (* right ghost zone *)
    assert (NB : forall l, (l < NG)%nat ->
       (if (0 <? l)%nat then F (l - 1)%nat (x - sz o + sz (l - 1)%nat)%Z else match bl a with Refl | Cond => (sgn a v true * F 0%nat (2 * ng - 1 - (x - sz o))%Z)%R | Peri => F (NG - 1)%nat (x - sz o + sz (NG - 1)%nat)%Z | Outf => 0%R end) = F o x ->
       (F o x + F l (x - sz o)%Z)%R = (1 * gathered bl br D ne a v F (x - sz o + dp l))%R).
    { intros l L R. assert (SL := SZ l L). rewrite near by lia. unfold Lnear, Rnear. replace (x - sz o >? sz l + ng - 1 - ne) with false by lia. rewrite R.
      rewrite FO in Z0. destruct (Z.ltb_spec (x - sz o) (ng + ne)); [lra|]. rewrite Z0 by lia. lra. }
    unfold kR. destruct (Nat.ltb_spec (S o) NG) as [O0|O0].
    + cbn [ghR]. assert (SL := SZ (S o) O0). assert (DT1 := disp_step D OK a (S (S o)) NG ltac:(lia)). rewrite !(dp_S D a) in DT1. change (disp D a NG) with (total D a) in DT1.
      replace (x + dp o <? ng) with false in P by lia. replace (x + dp o >? total D a + ng - 1) with false in P by lia. apply some_pair in P; destruct P as [<- <-].
      rewrite FO. change (row a (st (gupd a g (S o))) c v (x - sz o)) with (F (S o) (x - sz o)). replace (x + dp o) with (x - sz o + dp (S o)) by (rewrite (dp_S D a); lia).
      apply NB; [exact O0|]. cbn [Nat.ltb Nat.leb]. replace (S o - 1)%nat with o by lia. f_equal. lia.
    + assert (O1 : S o = NG) by lia. assert (DT' : dp o + sz o = total D a) by (rewrite <- (dp_S D a), O1; reflexivity).
      replace (x + dp o <? ng) with false in P by lia. replace (x + dp o >? total D a + ng - 1) with true in P by lia.
      destruct (br a) eqn:B; cbn [ghR].
      * apply some_pair in P; destruct P as [<- <-]. rewrite sgn_sg. replace (2 * (total D a + ng - 1) + 1 - (x + dp o)) with (2 * (sz o + ng - 1) + 1 - x + dp o) by lia. rewrite near by (auto; lia). unfold Lnear, Rnear. rewrite B.
        rewrite O1, Nat.ltb_irrefl. replace (2 * (sz o + ng - 1) + 1 - x <? ng + ne) with false by lia. replace (2 * (sz o + ng - 1) + 1 - (2 * (sz o + ng - 1) + 1 - x)) with x by lia.
        rewrite !FO, sgn_sg. replace (2 * (sz o + ng - 1) + 1 - x >? sz o + ng - 1 - ne) with (x <=? sz o + ng - 1 + ne) by lia. assert (Q := sg2 v). destruct (x <=? sz o + ng - 1 + ne); [|lra].
        set (u := F o (2 * (sz o + ng - 1) + 1 - x)). replace (sg a v * (u + 0 + sg a v * F o x))%R with (sg a v * u + (sg a v * sg a v) * F o x)%R by ring. rewrite Q. lra.
      * discriminate.
      * apply some_pair in P; destruct P as [<- <-]. assert (PR : bl a = Peri) by (apply peri_eq; rewrite BP; reflexivity).
        replace (x + dp o - (total D a + ng - 1 - ng + 1)) with (x - sz o + dp 0%nat) by (cbn [disp]; lia). rewrite FO. change (row a (st (gupd a g 0%nat)) c v (x - sz o)) with (F 0%nat (x - sz o)).
        apply NB; [lia|]. cbn [Nat.ltb Nat.leb]. rewrite PR. replace (NG - 1)%nat with o by lia. f_equal. lia.
      * apply some_pair in P; destruct P as [<- <-]. rewrite sgn_sg. replace (2 * (total D a + ng - 1) + 1 - (x + dp o)) with (2 * (sz o + ng - 1) + 1 - x + dp o) by lia. rewrite near by (auto; lia). unfold Lnear, Rnear. rewrite B.
        rewrite O1, Nat.ltb_irrefl. replace (2 * (sz o + ng - 1) + 1 - x <? ng + ne) with false by lia. replace (2 * (sz o + ng - 1) + 1 - (2 * (sz o + ng - 1) + 1 - x)) with x by lia.
        rewrite !FO, sgn_sg. replace (2 * (sz o + ng - 1) + 1 - x >? sz o + ng - 1 - ne) with (x <=? sz o + ng - 1 + ne) by lia. assert (Q := sg2 v). destruct (x <=? sz o + ng - 1 + ne); [|lra].
        set (u := F o (2 * (sz o + ng - 1) + 1 - x)). replace (sg a v * (u + 0 + sg a v * F o x))%R with (sg a v * u + (sg a v * sg a v) * F o x)%R by ring. rewrite Q. lra.
  - (* active cell *)
    replace (x + dp o <? ng) with false in P by lia. replace (x + dp o >? total D a + ng - 1) with false in P by lia. apply some_pair in P; destruct P as [<- <-].
    rewrite near by (auto; lia). unfold Lnear, Rnear, sgn. cbn [andb]. rewrite Rmult_1_l. fold (sgn a v true). rewrite FO. f_equal; [f_equal|].
    + destruct (x <? ng + ne); [|reflexivity]. unfold kL. destruct (Nat.ltb_spec 0 o) as [O0|O0]; [reflexivity|]. assert (O1 : o = 0%nat) by lia.
      destruct (bl a); cbn [srcL]; try reflexivity; rewrite FO, O1, ?sgn_sg; reflexivity.
    + destruct (x >? sz o + ng - 1 - ne); [|reflexivity]. unfold kR. destruct (S o <? NG)%nat; [reflexivity|]. destruct (br a); cbn [srcR]; try reflexivity; rewrite FO; reflexivity.
Qed.
End Step.
