(** Messages between neighbouring Grids: what unpacking a packed message does, and how many
    words it has. *)
From Coq Require Import ZArith List Bool Lia.
From Verif Require Import Loop BvalsModel BvalsSpec BvalsProofs.
Import ListNotations.
Open Scope Z_scope.

Lemma map_for : forall A B (g : A -> B) lo hi body, map g (for_ lo hi body) = for_ lo hi (fun x => map g (body x)).
Proof. intros. unfold for_. rewrite !flat_map_concat_map, concat_map, map_map. reflexivity. Qed.
Lemma for_ext : forall B lo hi (f g : Z -> list B), (forall x, lo <= x <= hi -> f x = g x) -> for_ lo hi f = for_ lo hi g.
Proof.
  intros B lo hi f g H. unfold for_. rewrite !flat_map_concat_map. f_equal. apply map_ext_in. intros x I. apply H. apply in_zrange. auto.
Qed.
Lemma for_shift : forall B lo hi d (f : Z -> list B), for_ (lo + d) (hi + d) f = for_ lo hi (fun x => f (x + d)).
Proof.
  intros. unfold for_, zrange. rewrite !flat_map_concat_map, !map_map. f_equal. replace (hi + d - (lo + d) + 1) with (hi - lo + 1) by lia.
  apply map_ext. intros. f_equal. lia.
Qed.
Lemma for_shift' : forall B lo hi lo' hi' d (f : Z -> list B), lo' = lo + d -> hi' = hi + d -> for_ lo' hi' f = for_ lo hi (fun x => f (x + d)).
Proof. intros; subst. apply for_shift. Qed.
Lemma length_for : forall B lo hi (f : Z -> list B) n, lo <= hi + 1 -> (forall x, lo <= x <= hi -> Z.of_nat (length (f x)) = n) ->
  Z.of_nat (length (for_ lo hi f)) = (hi - lo + 1) * n.
Proof.
  intros B lo hi f n L H. unfold for_.
  assert (G : forall l, (forall x, In x l -> Z.of_nat (length (f x)) = n) -> Z.of_nat (length (flat_map f l)) = Z.of_nat (length l) * n).
  { induction l as [|x l IH]; intros Hl; cbn [flat_map length]; [lia|]. rewrite app_length, Nat2Z.inj_add, IH, Hl by (intros; try apply Hl; cbn; auto). lia. }
  rewrite G by (intros x I; apply H; apply in_zrange; auto). unfold zrange. rewrite map_length, seq_length. rewrite Z2Nat.id by lia. reflexivity.
Qed.

Section Msg.
Context {F : Type} (neg : F -> F) (zero : F).

Definition wellformed (n : nat) (f : @fields F) : Prop := forall c, length (cs (fU f c)) = n.
Lemma of_words_words : forall n (c : @cons F) r, length (cs c) = n -> of_words n (words c ++ r) = Some (c, r).
Proof.
  intros n c r L. unfold words, of_words. cbn [app]. rewrite app_length, L.
  destruct (Nat.leb_spec n (n + length r)); [|lia]. subst n. rewrite firstn_app, Nat.sub_diag, firstn_all. cbn [firstn]. rewrite app_nil_r.
  rewrite skipn_app, Nat.sub_diag, skipn_all. cbn [skipn app]. destruct c; reflexivity.
Qed.
Definition writes {V} (B : arr V) (sh : idx -> idx) (L : list idx) : list (asg V) := map (fun c => (c, Const (B (sh c)))) L.
Lemma rd_cells_ok : forall n (B : arr (@cons F)) sh L A r, (forall c, length (cs (B c)) = n) ->
  rd_cells n L A (flat_map (fun c => words (B c)) (map sh L) ++ r) = Some (run (writes B sh L) A, r).
Proof.
  intros n B sh L. induction L as [|c L IH]; intros A r H; [reflexivity|]. cbn [map flat_map rd_cells].
  rewrite <- app_assoc, of_words_words by auto. rewrite IH by auto. reflexivity.
Qed.
Lemma rd_words_ok : forall (B : arr F) sh L A r,
  rd_words L A (map B (map sh L) ++ r) = Some (run (writes B sh L) A, r).
Proof.
  intros B sh L. induction L as [|c L IH]; intros A r; [reflexivity|]. cbn [map app rd_words]. rewrite IH. reflexivity.
Qed.

Definition vget (X : kind) (v : visit) : list idx :=
  match X with Cell => vU v | Face A1 => vB1 v | Face A2 => vB2 v | Face A3 => vB3 v end.
(** If the sender visits the images under [sh] of the elements the receiver visits. *)
Lemma unpack_pack : forall n (v w : visit) sh (h f : @fields F), wellformed n h -> (forall X, vget X w = map sh (vget X v)) ->
  exists f', unpack n v (pack w h) f = Some f' /\ forall X, get X f' = run (writes (get X h) sh (vget X v)) (get X f).
Proof.
  intros n v w sh h f W E. unfold unpack, pack.
  rewrite (E Cell : vU w = _), (E (Face A1) : vB1 w = _), (E (Face A2) : vB2 w = _), (E (Face A3) : vB3 w = _). cbn [vget].
  rewrite rd_cells_ok by auto. rewrite rd_words_ok. rewrite rd_words_ok. rewrite <- (app_nil_r (map (fB3 h) _)). rewrite rd_words_ok.
  eexists. split; [reflexivity|]. intros [|[]]; reflexivity.
Qed.
Lemma run_writes : forall V (B : arr V) sh L A (bx : idx -> bool), (forall c, bx c = true <-> In c L) ->
  forall c, run (writes B sh L) A c = if bx c then B (sh c) else A c.
Proof.
  intros V B sh L A b H c. rewrite (run_box _ _ _ b (fun c => Const (B (sh c)))).
  - destruct (b c); reflexivity.
  - intros a I. unfold writes in I. apply in_map_iff in I. destruct I as (d & <- & I). cbn [fst snd]. split; auto. apply H. auto.
  - intros d D. unfold writes. apply in_map_iff. exists d. split; auto. apply H. auto.
  - intros d s f _ E. discriminate.
Qed.

(** Two Grids side by side along [a]: same nghost and same size along the other axes. *)
Definition beside (a : axis) (G H : geom) : Prop :=
  g_ng H = g_ng G /\ (forall a', a' <> a -> g_N H a' = g_N G a') /\ 1 < g_N G a /\ 1 < g_N H a.

Ltac unfM := unfold vget, vU, vB1, vB2, vB3, send_l, send_r, recv_l, recv_r,
  pack_ix1, pack_ox1, pack_ix2, pack_ox2, pack_ix3, pack_ox3,
  unpack_ix1, unpack_ox1, unpack_ix2, unpack_ox2, unpack_ix3, unpack_ox3,
  g_is, g_ie, g_js, g_je, g_ks, g_ke in *.
Ltac rwM := repeat match goal with E : (_ >? 1) = _ |- _ => rewrite E in * end.
Ltac mfor := rewrite map_for; apply for_ext; intros ? ?.

(** The elements sent to the right neighbour are, in order, those the neighbour fills on its
    left, shifted by the number of cells of the sender. *)
Lemma match_r : forall a G H X, beside a G H ->
  vget X (send_r a H) = map (fun c => upd a c (co a c + g_N H a)) (vget X (recv_l a G)).
Proof.
  intros a G H X (Eng & EN & N & N').
  assert (P : forall a', a' <> a -> g_N H a' = g_N G a') by auto.
  destruct a; cbn [g_N] in *.
  - assert (P2 := P A2 ltac:(discriminate)). assert (P3 := P A3 ltac:(discriminate)). cbn [g_N] in P2, P3.
    destruct (gtb_dec (g_N1 G)) as [[E1 E1']|[E1 E1']]; [|exfalso; lia]. destruct (gtb_dec (g_N1 H)) as [[F1 F1']|[F1 F1']]; [|exfalso; lia].
    destruct X as [|[]]; unfM; rwM; rewrite ?Eng, ?P2, ?P3; mfor; mfor; (erewrite for_shift' with (d := g_N1 H); [mfor; reflexivity|lia|lia]).
  - assert (P1 := P A1 ltac:(discriminate)). assert (P3 := P A3 ltac:(discriminate)). cbn [g_N] in P1, P3.
    destruct (gtb_dec (g_N2 G)) as [[E1 E1']|[E1 E1']]; [|exfalso; lia]. destruct (gtb_dec (g_N2 H)) as [[F1 F1']|[F1 F1']]; [|exfalso; lia].
    destruct X as [|[]]; unfM; rwM; rewrite ?Eng, ?P1, ?P3; mfor; (erewrite for_shift' with (d := g_N2 H); [mfor; mfor; reflexivity|lia|lia]).
  - assert (P1 := P A1 ltac:(discriminate)). assert (P2 := P A2 ltac:(discriminate)). cbn [g_N] in P1, P2.
    destruct (gtb_dec (g_N3 G)) as [[E1 E1']|[E1 E1']]; [|exfalso; lia]. destruct (gtb_dec (g_N3 H)) as [[F1 F1']|[F1 F1']]; [|exfalso; lia].
    destruct X as [|[]]; unfM; rwM; rewrite ?Eng, ?P1, ?P2; (erewrite for_shift' with (d := g_N3 H); [mfor; mfor; mfor; reflexivity|lia|lia]).
Qed.
Lemma match_l : forall a G H X, beside a G H ->
  vget X (send_l a H) = map (fun c => upd a c (co a c - g_N G a)) (vget X (recv_r a G)).
Proof.
  intros a G H X (Eng & EN & N & N').
  assert (P : forall a', a' <> a -> g_N H a' = g_N G a') by auto.
  destruct a; cbn [g_N] in *.
  - assert (P2 := P A2 ltac:(discriminate)). assert (P3 := P A3 ltac:(discriminate)). cbn [g_N] in P2, P3.
    destruct (gtb_dec (g_N1 G)) as [[E1 E1']|[E1 E1']]; [|exfalso; lia]. destruct (gtb_dec (g_N1 H)) as [[F1 F1']|[F1 F1']]; [|exfalso; lia].
    destruct X as [|[]]; unfM; rwM; rewrite ?Eng, ?P2, ?P3; mfor; mfor; (erewrite for_shift' with (d := - g_N1 G); [mfor; reflexivity|lia|lia]).
  - assert (P1 := P A1 ltac:(discriminate)). assert (P3 := P A3 ltac:(discriminate)). cbn [g_N] in P1, P3.
    destruct (gtb_dec (g_N2 G)) as [[E1 E1']|[E1 E1']]; [|exfalso; lia]. destruct (gtb_dec (g_N2 H)) as [[F1 F1']|[F1 F1']]; [|exfalso; lia].
    destruct X as [|[]]; unfM; rwM; rewrite ?Eng, ?P1, ?P3; mfor; (erewrite for_shift' with (d := - g_N2 G); [mfor; mfor; reflexivity|lia|lia]).
  - assert (P1 := P A1 ltac:(discriminate)). assert (P2 := P A2 ltac:(discriminate)). cbn [g_N] in P1, P2.
    destruct (gtb_dec (g_N3 G)) as [[E1 E1']|[E1 E1']]; [|exfalso; lia]. destruct (gtb_dec (g_N3 H)) as [[F1 F1']|[F1 F1']]; [|exfalso; lia].
    destruct X as [|[]]; unfM; rwM; rewrite ?Eng, ?P1, ?P2; (erewrite for_shift' with (d := - g_N3 G); [mfor; mfor; mfor; reflexivity|lia|lia]).
Qed.

Definition recv (right : bool) (a : axis) : geom -> visit := if right then recv_r a else recv_l a.
Ltac norm :=
  cbn [normal axis_eqb before quirk is_refl andb negb btoz co upd fst snd] in *.
Ltac unf := unfold bx, act, fst_, lst_, g_N in *.
Ltac inv_in H :=
  repeat first
    [ rewrite in_for in H; let x := fresh "x" in let L := fresh "L" in destruct H as (x & L & H)
    | match type of H with In _ [_] => destruct H as [H|[]]; inversion H; subst; clear H end ].
Ltac rw := cbn [g_N] in *; rwM; cbn [andb] in *.
Ltac setupM G := intros OK N; destruct OK as (Hng & HN1 & HN); assert (M2 := HN A2); assert (M3 := HN A3); assert (M1 := HN A1); clear HN;
  cbn [g_N] in M1, M2, M3, N;
  destruct (gtb_dec (g_N1 G)) as [[E1 E1']|[E1 E1']]; [|exfalso; lia];
  destruct (gtb_dec (g_N2 G)) as [[E2 E2']|[E2 E2']]; try (exfalso; lia);
  destruct (gtb_dec (g_N3 G)) as [[E3 E3']|[E3 E3']]; try (exfalso; lia).
(** The elements filled from a message are those a periodic boundary function would fill. *)
Lemma recv_box : forall right a G X, geom_ok G -> 1 < g_N G a ->
  forall c, box Peri right G X a c = true <-> In c (vget X (recv right a G)).
Proof.
  intros right a G X. destruct a; setupM G; intros [[k j] i]; unfold recv; (destruct right, X as [|[]]; unfM; rw);
  (split; [intros B; apply (box_true (F:=F) neg zero) in B; unf; norm; rw; norm; rewrite !rng_spec in B; destruct B as (B1 & B2 & B3);
           rewrite in_for; exists k; (split; [lia|]); rewrite in_for; exists j; (split; [lia|]); rewrite in_for; exists i; (split; [lia|left; reflexivity])
          | intros I; inv_in I; apply (box_true (F:=F) neg zero); unf; norm; rw; norm; rewrite !rng_spec; lia]).
Qed.

(** Receiving a message. *)
Lemma receive_l : forall n a G H (h f : @fields F), geom_ok G -> beside a G H -> wellformed n h ->
  exists f', unpack n (recv_l a G) (pack (send_r a H) h) f = Some f' /\
  forall X c, get X f' c = if box Peri false G X a c then get X h (upd a c (co a c + g_N H a)) else get X f c.
Proof.
  intros n a G H h f OK B W. destruct (unpack_pack n (recv_l a G) (send_r a H) (fun c => upd a c (co a c + g_N H a)) h f W) as (f' & E & V).
  { intros X. apply match_r. auto. }
  exists f'. split; auto. intros X c. rewrite V. apply run_writes. apply (recv_box false); auto. apply B.
Qed.
Lemma receive_r : forall n a G H (h f : @fields F), geom_ok G -> beside a G H -> wellformed n h ->
  exists f', unpack n (recv_r a G) (pack (send_l a H) h) f = Some f' /\
  forall X c, get X f' c = if box Peri true G X a c then get X h (upd a c (co a c - g_N G a)) else get X f c.
Proof.
  intros n a G H h f OK B W. destruct (unpack_pack n (recv_r a G) (send_l a H) (fun c => upd a c (co a c - g_N G a)) h f W) as (f' & E & V).
  { intros X. apply match_l. auto. }
  exists f'. split; auto. intros X c. rewrite V. apply run_writes. apply (recv_box true); auto. apply B.
Qed.

(** The number of scalars of a cell never changes. *)
Lemma trans_cs : forall b a c, cs (trans neg b a Cell c) = cs c.
Proof. intros [] [] c; reflexivity. Qed.
Lemma run_inv : forall V (P : V -> Prop) (L : list (asg V)) A, (forall c, P (A c)) ->
  (forall a A', In a L -> (forall c, P (A' c)) -> P (eval A' (snd a))) -> forall c, P (run L A c).
Proof.
  intros V P L. induction L as [|a L IH]; intros A H1 H2 c; [apply H1|]. cbn [run fold_left]. fold (run L (exec A a)). apply IH.
  - intros d. unfold exec, set. destruct (idx_eqb _ _); auto. apply H2; auto. left. auto.
  - intros b A' I. apply H2. right. auto.
Qed.
Lemma wf_apply : forall n b a right G f, geom_ok G -> 1 < g_N G a -> wellformed n f -> wellformed n (apply (bc_fun neg zero b a right G) f).
Proof.
  intros n b a right G f OK N W c. cbn [apply fU].
  apply (run_inv _ (fun x => length (cs x) = n)); auto. intros t A' I H.
  destruct (side1 neg zero b right a Cell G OK N t I) as [_ E]. assert (Q := f_equal (eval A') E). change (eval A' (snd t)) with (eval A' (@snd idx (rhs (@val F Cell)) t)). rewrite Q.
  unfold rr. cbn [eval]. rewrite trans_cs. apply H.
Qed.
Lemma wf_unpack : forall n v b f f', wellformed n f -> unpack n v b f = Some f' -> @wellformed n f'.
Proof.
  intros n v b f f' W. unfold unpack. destruct (rd_cells n (vU v) (fU f) b) as [[u b0]|] eqn:E; [|discriminate].
  assert (G : forall L A b u b0, (forall c, length (cs (A c)) = n) -> rd_cells n L A b = Some (u, b0) -> forall c : idx, length (@cs F (u c)) = n).
  { clear. induction L as [|x L IH]; intros A b u b0 H E; cbn [rd_cells] in E; [inversion E; subst; auto|].
    destruct (of_words n b) as [[w r]|] eqn:O; [|discriminate]. eapply IH; [|exact E].
    intros c. unfold set. destruct (idx_eqb x c); auto. unfold of_words in O. do 8 (destruct b as [|? b]; try discriminate).
    destruct (n <=? length b)%nat eqn:Q; [|discriminate]. inversion O. cbn [cs]. apply Nat.leb_le in Q. apply firstn_length_le. auto. }
  repeat match goal with |- context [match ?x with _ => _ end] => destruct x as [[? ?]|]; try discriminate end.
  intros Q. inversion Q. intros c. cbn [fU]. apply (G _ _ _ _ _ W E).
Qed.

(** ** One axis of bvals_mhd with neighbours *)
Definition nbr : Type := (geom * @fields F)%type.
Definition msg_r (a : axis) (o : option nbr) : option (list F) := option_map (fun p => pack (send_r a (fst p)) (snd p)) o.
Definition msg_l (a : axis) (o : option nbr) : option (list F) := option_map (fun p => pack (send_l a (fst p)) (snd p)) o.
Definition nbr_ok (n : nat) (a : axis) (G : geom) (o : option nbr) : Prop :=
  match o with None => True | Some p => beside a G (fst p) /\ wellformed n (snd p) end.
(** Value of the element at [c] after the exchange. *)
Definition mval (bl br : axis -> bc) (G : geom) (a : axis) (L R : option nbr) (f : fields) (X : kind) (c : idx) : val X :=
  let x := co a c in let s := fst_ G a in let e := lst_ G a in let n := normal X a in
  if g_N G a >? 1 then
    if x <? s then
      match L with
      | Some (H, h) => get X h (upd a c (x + g_N H a))
      | None => trans neg (bl a) a X (get X f (upd a c (source (bl a) n false s e x)))
      end
    else if x >? e + btoz n then
      match R with
      | Some (H, h) => get X h (upd a c (x - g_N G a))
      | None => trans neg (br a) a X (get X f (upd a c (source (br a) n true s e x)))
      end
    else if n && (x =? s) then match L with Some _ => get X f c | None => blank zero (bl a) a X (get X f c) end
    else if n && (x =? e + 1) then match R with Some _ => get X f c | None => blank zero (br a) a X (get X f c) end
    else get X f c
  else get X f c.

(** Effect of the left half and the right half on an array. *)
Definition half (b : bc) (right : bool) (G : geom) (a : axis) (o : option nbr) (X : kind) (A : arr (val X)) (c : idx) : val X :=
  match o with
  | Some (H, h) => if box Peri right G X a c then get X h (upd a c (if right then co a c - g_N G a else co a c + g_N H a)) else A c
  | None => if box b right G X a c then eval A (rr neg zero b right G X a c) else A c
  end.
Lemma bx_aa : forall b right G X a y, bx b right G X a a y =
     if right then rng (lst_ G a + 1 + btoz (normal X a && negb (is_refl b))) (lst_ G a + g_ng G) y
     else rng (fst_ G a - g_ng G + btoz (normal X a)) (fst_ G a - 1 + btoz (normal X a && is_refl b)) y.
Proof. intros. unfold bx. rewrite axis_eqb_refl. reflexivity. Qed.
Lemma box_aa : forall b right G X a c, bx b right G X a a (co a c) = false -> box b right G X a c = false.
Proof. intros b right G X a c H. destruct (box b right G X a c) eqn:E; auto. apply (box_true (F:=F) neg zero) in E. destruct a; intuition congruence. Qed.

(** Left half first, then right half. *)
Lemma halves_lr : forall bl br G a L R f X c, geom_ok G -> 1 < g_N G a -> step_dom G X a c ->
  half (br a) true G a R X (half (bl a) false G a L X (get X f)) c = mval bl br G a L R f X c.
Proof.
  intros bl br G a L R f X c OK N D. unfold mval.
  destruct OK as (Hng & HN1 & HN). assert (OK : geom_ok G) by (split; auto). destruct (HN a) as [H|[_ Hge]]; [lia|].
  assert (EN : (g_N G a >? 1) = true) by (rewrite Z.gtb_ltb; apply Z.ltb_lt; auto). rewrite EN.
  assert (S : fst_ G a = g_ng G) by (unfold fst_; rewrite EN; auto).
  assert (E : lst_ G a = g_N G a + g_ng G - 1) by (unfold lst_; rewrite EN; auto).
  assert (X1 : ext G X a (co a c) = true) by (specialize (D a); rewrite axis_eqb_refl in D; exact D).
  unfold ext in X1. rewrite EN in X1. apply rng_spec in X1.
  set (A := get X f). assert (Bn := btoz_le (normal X a)).
  assert (OUTR : forall A0 : arr (val X), (forall b, bx b true G X a a (co a c) = false) -> half (br a) true G a R X A0 c = A0 c).
  { intros A0 Q. unfold half. destruct R as [[H h]|]; rewrite box_aa by auto; reflexivity. }
  assert (OUTL : forall (A0 : arr (val X)) d, (forall b, bx b false G X a a (co a d) = false) -> half (bl a) false G a L X A0 d = A0 d).
  { intros A0 d Q. unfold half. destruct L as [[H h]|]; rewrite box_aa by auto; reflexivity. }
  destruct (Z.ltb_spec (co a c) (fst_ G a)) as [HL|HL].
  - rewrite OUTR. 2: { intros b. rewrite bx_aa. apply rng_false. left. assert (H := btoz_le (normal X a && negb (is_refl b))). lia. }
    assert (IN : forall b, box b false G X a c = true).
    { intros b. rewrite box_iff by auto. rewrite bx_aa. apply rng_spec. assert (H := btoz_le (normal X a && is_refl b)). lia. }
    unfold half. destruct L as [[H h]|]; rewrite IN; [reflexivity|]. rewrite (eval_rr neg zero _ _ _ _ _ _ _ (A c)).
    replace (co a c =? fst_ G a) with false by (symmetry; apply Z.eqb_neq; lia). rewrite andb_false_r. reflexivity.
  - rewrite Z.gtb_ltb. destruct (Z.ltb_spec (lst_ G a + btoz (normal X a)) (co a c)) as [HR|HR].
    + assert (IN : forall b, box b true G X a c = true).
      { intros b. rewrite box_iff by auto. rewrite bx_aa. apply rng_spec. destruct (normal X a); cbn [andb btoz] in *; [destruct (is_refl b); cbn [negb btoz]; lia|lia]. }
      unfold half at 1. destruct R as [[H h]|]; rewrite IN; [reflexivity|]. rewrite (eval_rr neg zero _ _ _ _ _ _ _ (A c)).
      assert (Z0 : is_refl (br a) && normal X a && (co a c =? lst_ G a + 1) = false).
      { destruct (normal X a); rewrite ?andb_false_r; auto. cbn [btoz] in HR. replace (co a c =? lst_ G a + 1) with false by (symmetry; apply Z.eqb_neq; lia). apply andb_false_r. }
      rewrite Z0. f_equal. apply OUTL. intros b. rewrite bx_aa, co_upd. apply rng_false. right.
      destruct (normal X a); cbn [andb btoz] in *; destruct (br a), b; cbn [source mirror btoz is_refl]; lia.
    + destruct (normal X a && (co a c =? fst_ G a)) eqn:Q1.
      * apply andb_true_iff in Q1. destruct Q1 as [Qn Qx]. apply Z.eqb_eq in Qx.
        rewrite OUTR. 2: { intros b. rewrite bx_aa. apply rng_false. left. assert (H := btoz_le (normal X a && negb (is_refl b))). lia. }
        unfold half. destruct L as [[H h]|].
        -- rewrite box_aa; auto. rewrite bx_aa. cbn [is_refl]. rewrite andb_false_r. cbn [btoz]. apply rng_false. lia.
        -- rewrite box_iff by auto. rewrite bx_aa. destruct (is_refl (bl a)) eqn:Qr.
           ++ rewrite Qn. cbn [andb btoz]. replace (rng _ _ (co a c)) with true by (symmetry; apply rng_spec; rewrite Qn in *; cbn [btoz] in *; lia).
              rewrite (eval_rr neg zero _ _ _ _ _ _ _ (A c)). rewrite Qr, Qn. replace (co a c =? fst_ G a) with true by (symmetry; apply Z.eqb_eq; auto). reflexivity.
           ++ rewrite andb_false_r. cbn [btoz]. replace (rng _ _ (co a c)) with false by (symmetry; apply rng_false; lia).
              rewrite blank_not; auto. rewrite Qr. reflexivity.
      * assert (LO : forall b, bx b false G X a a (co a c) = false).
        { intros b. rewrite bx_aa. apply rng_false. right. destruct (normal X a); cbn [andb btoz] in *; [apply Z.eqb_neq in Q1; destruct (is_refl b); cbn [btoz]; lia|lia]. }
        destruct (normal X a && (co a c =? lst_ G a + 1)) eqn:Q2.
        -- apply andb_true_iff in Q2. destruct Q2 as [Qn Qx]. apply Z.eqb_eq in Qx.
           unfold half at 1. destruct R as [[H h]|].
           ++ rewrite box_aa; [apply OUTL; auto|]. rewrite bx_aa, Qn. cbn [is_refl negb andb btoz]. apply rng_false. lia.
           ++ rewrite box_iff by auto. rewrite bx_aa, Qn. destruct (is_refl (br a)) eqn:Qr; cbn [negb andb btoz].
              ** replace (rng _ _ (co a c)) with true by (symmetry; apply rng_spec; lia).
                 rewrite (eval_rr neg zero _ _ _ _ _ _ _ (A c)). rewrite Qr, Qn. replace (co a c =? lst_ G a + 1) with true by (symmetry; apply Z.eqb_eq; auto). reflexivity.
              ** replace (rng _ _ (co a c)) with false by (symmetry; apply rng_false; lia). rewrite OUTL by auto. rewrite blank_not; auto. rewrite Qr. reflexivity.
        -- rewrite OUTR; [apply OUTL; auto|]. intros b. rewrite bx_aa. apply rng_false. left. destruct (normal X a); cbn [andb btoz] in *; [apply Z.eqb_neq in Q2; destruct (is_refl b); cbn [negb btoz]; lia|lia].
Qed.

Lemma halves_rl : forall bl br G a H h R f X c, geom_ok G -> 1 < g_N G a -> step_dom G X a c ->
  half (bl a) false G a (Some (H, h)) X (half (br a) true G a R X (get X f)) c = mval bl br G a (Some (H, h)) R f X c.
Proof.
  intros bl br G a H h R f X c OK N D. rewrite <- halves_lr by auto.
  assert (K : forall b b', box b false G X a c = true -> box b' true G X a c = false).
  { intros b b' B. rewrite box_iff in B by auto. rewrite box_iff by auto. rewrite bx_aa in *. 
    assert (EN : (g_N G a >? 1) = true) by (rewrite Z.gtb_ltb; apply Z.ltb_lt; auto).
    assert (S : fst_ G a = g_ng G) by (unfold fst_; rewrite EN; auto).
    assert (E : lst_ G a = g_N G a + g_ng G - 1) by (unfold lst_; rewrite EN; auto).
    apply rng_spec in B. apply rng_false. assert (B1 := btoz_le (normal X a && is_refl b)). assert (B2 := btoz_le (normal X a && negb (is_refl b'))). lia. }
  unfold half at 1. destruct (box Peri false G X a c) eqn:B.
  - assert (E : half (bl a) false G a (Some (H, h)) X (get X f) c = get X h (upd a c (co a c + g_N H a))) by (unfold half; rewrite B; reflexivity).
    unfold half at 1. destruct R as [[H' h']|]; rewrite (K _ _ B); symmetry; exact E.
  - assert (E : half (bl a) false G a (Some (H, h)) X (get X f) c = get X f c) by (unfold half; rewrite B; reflexivity).
    unfold half at 1 2. destruct R as [[H' h']|]; [destruct (box Peri true G X a c); auto|].
    destruct (box (br a) true G X a c) eqn:B'; auto.
    apply eval_ext. intros s g Es. unfold half. 
    assert (box Peri false G X a s = false) as ->; [|reflexivity]. apply box_aa.
    assert (Us : s = upd a c (source (br a) (normal X a) true (fst_ G a) (lst_ G a) (co a c))).
    { unfold rr in Es. destruct X; [apply cp_inj in Es; auto|]. destruct (_ && _ && _); [discriminate|apply cp_inj in Es; auto]. }
    assert (EN : (g_N G a >? 1) = true) by (rewrite Z.gtb_ltb; apply Z.ltb_lt; auto).
    assert (S : fst_ G a = g_ng G) by (unfold fst_; rewrite EN; auto).
    assert (EE : lst_ G a = g_N G a + g_ng G - 1) by (unfold lst_; rewrite EN; auto).
    destruct OK as (Hng & HN1 & HN). assert (OK : geom_ok G) by (split; auto). destruct (HN a) as [Q|[_ Hge]]; [lia|].
    rewrite box_iff in B' by auto. rewrite bx_aa in B'. apply rng_spec in B'.
    rewrite bx_aa, Us, co_upd. apply rng_false. right. assert (Bn := btoz_le (normal X a)). cbn [is_refl]. rewrite andb_false_r. cbn [btoz].
    destruct (normal X a); cbn [andb btoz] in *; destruct (br a); cbn [source mirror btoz is_refl negb] in *; lia.
Qed.

Theorem mpi_axis_spec : forall n bl br G a swap L R f, geom_ok G -> wellformed n f -> nbr_ok n a G L -> nbr_ok n a G R ->
  exists f', mpi_axis neg zero n bl br G a swap (msg_r a L) (msg_l a R) f = Some f' /\ wellformed n f' /\
  forall X c, step_dom G X a c -> get X f' c = mval bl br G a L R f X c.
Proof.
  intros n bl br G a swap L R f OK W OL OR. unfold mpi_axis.
  destruct (g_N G a >? 1) eqn:EN.
  2: { exists f. split; [reflexivity|]. split; auto. intros X c D. unfold mval. rewrite EN. reflexivity. }
  assert (N : 1 < g_N G a) by (rewrite Z.gtb_ltb in EN; apply Z.ltb_lt in EN; auto).
  assert (HP : forall b right f0 X c, get X (apply (bc_fun neg zero b a right G) f0) c = half b right G a None X (get X f0) c).
  { intros. rewrite get_apply. rewrite side by auto. reflexivity. }
  assert (HE : forall b right o X (A A' : arr (val X)), (forall d, A d = A' d) -> forall c, half b right G a o X A c = half b right G a o X A' c).
  { intros b right o X A A' E c. unfold half. destruct o as [[H h]|]; destruct (box _ _ _ _ _ c); auto. apply eval_ext. intros; apply E. }
  destruct L as [[HL hl]|], R as [[HR hr]|]; cbn [msg_l msg_r option_map fst snd nbr_ok] in *.
  - destruct OL as [BL WL], OR as [BR WR]. destruct swap.
    + destruct (receive_r n a G HR hr f OK BR WR) as (f1 & E1 & V1). rewrite E1. cbn [obind].
      destruct (receive_l n a G HL hl f1 OK BL WL) as (f2 & E2 & V2). exists f2. split; [exact E2|].
      split; [apply (wf_unpack _ _ _ _ _ (wf_unpack _ _ _ _ _ W E1) E2)|].
      intros X c D. rewrite <- halves_rl by auto. rewrite V2.
      rewrite (HE (bl a) false (Some (HL, hl)) X _ (get X f1)). 2: { intros d. symmetry. apply V1. } reflexivity.
    + destruct (receive_l n a G HL hl f OK BL WL) as (f1 & E1 & V1). rewrite E1. cbn [obind].
      destruct (receive_r n a G HR hr f1 OK BR WR) as (f2 & E2 & V2). exists f2. split; [exact E2|].
      split; [apply (wf_unpack _ _ _ _ _ (wf_unpack _ _ _ _ _ W E1) E2)|].
      intros X c D. rewrite <- halves_lr by auto. rewrite V2.
      rewrite (HE (br a) true (Some (HR, hr)) X _ (get X f1)). 2: { intros d. symmetry. apply V1. } reflexivity.
  - destruct OL as [BL WL]. assert (W1 := wf_apply n (br a) a true G f OK N W). set (f1 := apply (bc_fun neg zero (br a) a true G) f) in *.
    destruct (receive_l n a G HL hl f1 OK BL WL) as (f2 & E2 & V2). exists f2. split; [exact E2|]. split; [apply (wf_unpack _ _ _ _ _ W1 E2)|].
    intros X c D. rewrite <- halves_rl by auto. rewrite V2.
    rewrite (HE (bl a) false (Some (HL, hl)) X _ (get X f1)). 2: { intros d. symmetry. apply HP. } reflexivity.
  - destruct OR as [BR WR]. assert (W1 := wf_apply n (bl a) a false G f OK N W). set (f1 := apply (bc_fun neg zero (bl a) a false G) f) in *.
    destruct (receive_r n a G HR hr f1 OK BR WR) as (f2 & E2 & V2). exists f2. split; [exact E2|]. split; [apply (wf_unpack _ _ _ _ _ W1 E2)|].
    intros X c D. rewrite <- halves_lr by auto. rewrite V2.
    rewrite (HE (br a) true (Some (HR, hr)) X _ (get X f1)). 2: { intros d. symmetry. apply HP. } reflexivity.
  - eexists. split; [reflexivity|]. split; [apply wf_apply; auto; apply wf_apply; auto|].
    intros X c D. rewrite <- halves_lr by auto. rewrite HP. apply HE. intros d. apply HP.
Qed.
End Msg.
