(** Packing, shifting and unpacking of particles, and the exchange along one axis, in terms of lists. *)
From Coq Require Import ZArith Bool Reals Lra Lia ZifyBool List Permutation.
From Verif Require Import CStr MeshModel PosModel PosProps GasModel PartModel PartSort PbcModel.
From Verif Require UtilModel.
Import UtilModel (upd).
Import ListNotations.
Open Scope Z_scope.

Definition items (s : pst) : list grain := first (s_n s) (s_a s).
Definition set_pos (g : grain) (p : Z) : grain := Grain (g_x g) (g_v g) (g_type g) p (g_id g).
Definition pick (sel : grain -> option Z) (l : list grain) : list grain :=
  flat_map (fun g => match sel g with Some p => [set_pos g p] | None => [] end) l.
(** Number c of a packed particle *)
Definition field (g : grain) (c : Z) : R :=
  if c =? 0 then q1 (g_x g) else if c =? 1 then q2 (g_x g) else if c =? 2 then q3 (g_x g) else
  if c =? 3 then q1 (g_v g) else if c =? 4 then q2 (g_v g) else if c =? 5 then q3 (g_v g) else
  if c =? 6 then (IZR (g_type g) + 1/100)%R else if c =? 7 then (IZR (g_pos g) + 1/100)%R else (IZR (g_id g) + 1/100)%R.
Definition holds (d : Z -> R) (l : list grain) : Prop :=
  forall k g, nth_error l k = Some g -> forall c, 0 <= c < 9 -> d (9 * Z.of_nat k + c) = field g c.
Definition ok_g (types : Z) (g : grain) : Prop := 0 <= g_type g < types /\ 0 <= g_pos g < 100 /\ 0 <= g_id g < 2 ^ 63.

Lemma zcase9 : forall c (P : Z -> Prop), P 0 -> P 1 -> P 2 -> P 3 -> P 4 -> P 5 -> P 6 -> P 7 -> P 8 -> 0 <= c < 9 -> P c.
Proof.
  intros c P. intros. assert (D : c = 0 \/ c = 1 \/ c = 2 \/ c = 3 \/ c = 4 \/ c = 5 \/ c = 6 \/ c = 7 \/ c = 8) by lia.
  repeat (destruct D as [ -> | D ]; auto). subst; auto.
Qed.
Lemma upd_at : forall A (m : Z -> A) p v, upd m p v p = v.
Proof. intros. unfold upd. rewrite Z.eqb_refl. auto. Qed.
Lemma upd_ne : forall A (m : Z -> A) p v q, q <> p -> upd m p v q = m q.
Proof. intros. unfold upd. apply Z.eqb_neq in H. rewrite H. auto. Qed.

Lemma pack_one : forall NBUF b g n pos, 1 <= NBUF -> 0 <= n <= b_size b ->
  exists b', packing_one_particle NBUF b g n pos = Ok b' /\ n + 1 <= b_size b' /\ b_size b <= b_size b' /\
    (forall q, q < 9 * n -> b_dat b' q = b_dat b q) /\ (forall c, 0 <= c < 9 -> b_dat b' (9 * n + c) = field (set_pos g pos) c).
Proof.
  intros NBUF b g n pos HN Hn. unfold packing_one_particle, NVAR_P. cbv zeta.
  set (size := if n + 2 >? b_size b then b_size b + NBUF else b_size b).
  assert (HS : n + 1 <= size /\ b_size b <= size) by (unfold size; destruct (Z.gtb_spec (n + 2) (b_size b)); lia).
  clearbody size. destruct (Z.ltb_spec n size); [|lia]. eexists. split; [reflexivity|]. cbn [b_size b_dat].
  split; [lia|]. split; [lia|]. split.
  - intros q Hq. repeat rewrite upd_ne by lia. auto.
  - intros c Hc. pattern c. apply zcase9; try exact Hc; cbn [field set_pos Z.eqb Pos.eqb];
    rewrite ?Z.add_0_r; repeat (rewrite upd_ne by lia); rewrite upd_at; reflexivity.
Qed.
Lemma nth_error_last : forall A (l : list A) x k g, nth_error (l ++ [x]) k = Some g -> (k < length l)%nat /\ nth_error l k = Some g \/ k = length l /\ g = x.
Proof.
  intros A l x k g H. destruct (Nat.lt_ge_cases k (length l)).
  - left. rewrite nth_error_app1 in H; auto.
  - right. rewrite nth_error_app2 in H; auto. destruct (k - length l)%nat eqn:E; cbn in H; [split; [lia|congruence]|]. destruct n; discriminate.
Qed.
Lemma pack_loop_ok : forall NBUF sel m p a l0 b, 1 <= NBUF -> Z.of_nat (length l0) <= b_size b -> holds (b_dat b) l0 ->
  exists b', pack_loop NBUF sel m p a (Z.of_nat (length l0)) b = Ok (Z.of_nat (length (l0 ++ pick sel (seg p (p + Z.of_nat m) a))), b') /\
    b_size b <= b_size b' /\ Z.of_nat (length (l0 ++ pick sel (seg p (p + Z.of_nat m) a))) <= b_size b' /\
    holds (b_dat b') (l0 ++ pick sel (seg p (p + Z.of_nat m) a)).
Proof.
  intros NBUF sel m. induction m as [|m IH]; intros p a l0 b HN HL HH; cbn [pack_loop].
  - exists b. unfold seg. replace (p + Z.of_nat 0 - p) with 0 by lia. cbn. rewrite app_nil_r. repeat split; auto; lia.
  - replace (p + Z.of_nat (S m)) with (p + 1 + Z.of_nat m) by lia. rewrite (seg_step p) by lia. cbn [pick flat_map]. fold (pick sel (seg (p + 1) (p + 1 + Z.of_nat m) a)).
    destruct (sel (a p)) as [pos|] eqn:E.
    + destruct (pack_one NBUF b (a p) (Z.of_nat (length l0)) pos HN) as (b' & E1 & E2 & E3 & E4 & E5); [lia|].
      rewrite E1. cbn [bind]. cbn [app]. change (set_pos (a p) pos :: pick sel (seg (p + 1) (p + 1 + Z.of_nat m) a)) with ([set_pos (a p) pos] ++ pick sel (seg (p + 1) (p + 1 + Z.of_nat m) a)).
      rewrite app_assoc. replace (Z.of_nat (length l0) + 1) with (Z.of_nat (length (l0 ++ [set_pos (a p) pos]))) by (rewrite app_length; cbn; lia).
      destruct (IH (p + 1) a (l0 ++ [set_pos (a p) pos]) b') as (b2 & F1 & F2 & F3 & F4); auto.
      * rewrite app_length. cbn. lia.
      * intros k g Hk c Hc. apply nth_error_last in Hk. destruct Hk as [[Hk Hk']|[-> ->]].
        -- rewrite E4 by lia. apply HH; auto.
        -- apply E5; auto.
      * exists b2. split; [exact F1|]. split; [lia|]. split; auto.
    + cbn [app]. apply IH; auto.
Qed.

Definition shiftx (ax : axis) (d : R) (g : grain) : grain :=
  Grain (set_comp ax (g_x g) (comp ax (g_x g) + d)) (g_v g) (g_type g) (g_pos g) (g_id g).
Lemma shift_loop_ok : forall size sh ix m k d, 0 <= ix < 9 -> 0 <= k -> k + Z.of_nat m < size ->
  exists d', shift_loop size m (9 * k + ix) d sh = Ok d' /\
    (forall j, k <= j <= k + Z.of_nat m -> d' (9 * j + ix) = (d (9 * j + ix)%Z + sh)%R) /\
    (forall q, (forall j, k <= j <= k + Z.of_nat m -> q <> 9 * j + ix) -> d' q = d q).
Proof.
  intros size sh ix m. induction m as [|m IH]; intros k d Hix Hk HS; cbn [shift_loop]; unfold NVAR_P; destruct (Z.ltb_spec (9 * k + ix) (9 * size)); try lia; cbv zeta.
  - eexists. split; [reflexivity|]. split.
    + intros j Hj. replace j with k by lia. apply upd_at.
    + intros q Hq. apply upd_ne. apply Hq. lia.
  - destruct (IH (k + 1) (upd d (9 * k + ix) (d (9 * k + ix)%Z + sh)%R)) as (d' & E1 & E2 & E3); try lia.
    replace (9 * k + ix + 9) with (9 * (k + 1) + ix) by lia. rewrite E1. eexists. split; [reflexivity|]. split.
    + intros j Hj. destruct (Z.eq_dec j k) as [->|].
      * rewrite E3 by lia. apply upd_at.
      * rewrite E2 by lia. rewrite upd_ne by lia. auto.
    + intros q Hq. rewrite E3. { apply upd_ne. apply Hq. lia. } intros j Hj. apply Hq. lia.
Qed.
Lemma shift_ok : forall ax sh s l, 1 <= b_size (s_buf s) -> Z.of_nat (length l) <= b_size (s_buf s) -> holds (b_dat (s_buf s)) l ->
  exists d, shift_packed_particle (Z.of_nat (length l)) (axnum ax) sh s = Ok (with_buf s (Sbuf (b_size (s_buf s)) d)) /\ holds d (map (shiftx ax sh) l).
Proof.
  intros ax sh s l H1 HL HH. unfold shift_packed_particle. cbv zeta.
  destruct l as [|g0 l0].
  - cbn [length Z.of_nat Z.gtb Z.compare]. destruct (shift_loop_ok (b_size (s_buf s)) sh 0 (Z.to_nat (0 - 1)) 0 (b_dat (s_buf s))) as (d' & E1 & _); try lia.
    replace (9 * 0 + 0) with 0 in E1 by lia. rewrite E1. cbn [bind]. exists d'. split; auto. intros k g Hk. destruct k; discriminate.
  - set (l := g0 :: l0) in *. assert (LN : 1 <= Z.of_nat (length l)) by (unfold l; cbn [length]; lia).
    destruct (Z.gtb_spec (Z.of_nat (length l)) 0); [|lia].
    assert (A : 0 <= axnum ax - 1 < 3) by (destruct ax; cbn; lia).
    destruct (shift_loop_ok (b_size (s_buf s)) sh (axnum ax - 1) (Z.to_nat (Z.of_nat (length l) - 1)) 0 (b_dat (s_buf s))) as (d' & E1 & E2 & E3); try lia.
    replace (9 * 0 + (axnum ax - 1)) with (axnum ax - 1) in E1 by lia. rewrite E1. cbn [bind]. exists d'. split; auto.
    intros k g Hk c Hc. rewrite nth_error_map in Hk. destruct (nth_error l k) as [g'|] eqn:K; [|discriminate]. cbn in Hk. injection Hk as <-.
    assert (KL : (k < length l)%nat) by (apply nth_error_Some; congruence).
    specialize (HH _ _ K). destruct (Z.eq_dec c (axnum ax - 1)) as [->|N].
    + rewrite E2 by lia. rewrite HH by lia. destruct ax; cbn [axnum Z.sub Z.add Z.opp Z.pos_sub field Z.eqb Pos.eqb shiftx comp set_comp g_x q1 q2 q3]; reflexivity.
    + rewrite E3 by lia. rewrite HH by lia. destruct ax; cbn [axnum Z.sub Z.add Z.opp Z.pos_sub Pos.pred_double] in N; revert N; pattern c; apply zcase9; try exact Hc; intros N; try (exfalso; lia); reflexivity.
Qed.

Lemma trunc_ok : forall z, 0 <= z -> Int_part (IZR z + 1 / 100) = z.
Proof.
  intros z Hz. destruct (base_Int_part (IZR z + 1 / 100)) as [A B].
  assert (C : (IZR (Int_part (IZR z + 1 / 100)) < IZR (z + 1))%R) by (rewrite plus_IZR; lra).
  assert (D : (IZR z < IZR (Int_part (IZR z + 1 / 100) + 1))%R) by (rewrite plus_IZR; lra).
  apply lt_IZR in C. apply lt_IZR in D. lia.
Qed.
Lemma c_trunc_ok : forall lo hi z, 0 <= z -> lo <= z <= hi -> c_trunc lo hi (IZR z + 1 / 100) = Ok z.
Proof.
  intros lo hi z Hz HB. unfold c_trunc. destruct (Rle_dec 0 (IZR z + 1 / 100)) as [L|L].
  - rewrite trunc_ok by auto. cbv zeta. replace ((lo <=? z) && (z <=? hi)) with true by lia. auto.
  - exfalso. apply L. apply IZR_le in Hz. lra.
Qed.
Lemma c_int_pack : forall z, 0 <= z < 2 ^ 31 -> c_int (IZR z + 1 / 100) = Ok z.
Proof. intros z Hz. apply (c_trunc_ok INT_MIN INT_MAX); unfold INT_MIN, INT_MAX; lia. Qed.

Lemma first_upd : forall A n (a : Z -> A) v, 0 <= n -> first (n + 1) (upd a n v) = first n a ++ [v].
Proof.
  intros A n a v Hn. rewrite first_cons by lia. replace (n + 1 - 1) with n by lia. rewrite upd_at. f_equal.
  rewrite !first_seg. apply seg_ext. intros t Ht. apply upd_ne. lia.
Qed.
Lemma how_many_app : forall ty l l', how_many ty (l ++ l') = how_many ty l + how_many ty l'.
Proof. intros. unfold how_many. rewrite filter_app, app_length. lia. Qed.
Lemma how_many_cons : forall ty g l, how_many ty (g :: l) = (if g_type g =? ty then 1 else 0) + how_many ty l.
Proof. intros. unfold how_many. cbn [filter]. destruct (g_type g =? ty); cbn [length]; lia. Qed.

Lemma unpack_loop_ok : forall types size buf l i k0 a num, types <= 2 ^ 31 -> 0 <= i -> i + Z.of_nat (length l) <= size ->
  Forall (ok_g types) l ->
  (forall k g, nth_error l k = Some g -> forall c, 0 <= c < 9 -> buf (9 * (k0 + Z.of_nat k) + c) = field g c) ->
  exists a' num', unpack_loop types size (length l) i (9 * k0) buf a num = Ok (a', num') /\
    first (i + Z.of_nat (length l)) a' = first i a ++ l /\ (forall ty, num' ty = num ty + how_many ty l).
Proof.
  intros types size buf l. induction l as [|g l IH]; intros i k0 a num HT Hi HS HO HH; cbn [length unpack_loop].
  - exists a, num. cbn [Z.of_nat]. rewrite Z.add_0_r, app_nil_r. repeat split; auto. intros. unfold how_many. cbn. lia.
  - cbn [length] in HS. destruct (Z.ltb_spec i size); [|lia]. inversion HO as [|? ? O1 O2]; subst. destruct O1 as (T & P & I).
    pose proof (HH 0%nat g eq_refl) as H0. cbn [Z.of_nat] in H0. rewrite Z.add_0_r in H0.
    rewrite (H0 6), (H0 7), (H0 8), (H0 1), (H0 2), (H0 3), (H0 4), (H0 5) by lia. assert (H00 : buf (9 * k0) = field g 0) by (rewrite <- (H0 0) by lia; f_equal; lia). rewrite H00.
    cbn [field Z.eqb Pos.eqb]. rewrite c_int_pack by lia. cbn [bind]. replace ((0 <=? g_type g) && (g_type g <? types)) with true by lia.
    unfold c_short, c_long. rewrite c_trunc_ok by lia. cbn [bind]. rewrite c_trunc_ok by lia. cbn [bind]. cbv zeta. unfold NVAR_P. replace (9 * k0 + 9) with (9 * (k0 + 1)) by lia.
    match goal with |- context [upd a i ?x] => assert (EX : x = g) by (destruct g as [[? ? ?] [? ? ?] ? ? ?]; reflexivity); rewrite EX end.
    destruct (IH (i + 1) (k0 + 1) (upd a i g) (upd num (g_type g) (num (g_type g) + 1))) as (a' & num' & E1 & E2 & E3); auto; try lia.
    { intros k g' Hk c Hc. rewrite <- (HH (S k) g' Hk c Hc). f_equal. lia. }
    exists a', num'. split; [exact E1|]. split.
    + replace (i + Z.of_nat (S (length l))) with (i + 1 + Z.of_nat (length l)) by lia. rewrite E2, first_upd by auto. rewrite <- app_assoc. auto.
    + intros ty. rewrite E3, how_many_cons. unfold upd. destruct (Z.eqb_spec ty (g_type g)), (Z.eqb_spec (g_type g) ty); subst; lia.
Qed.

(** ** The state of a Grid as a list *)

(** [s] holds the particles [l], has buffers, and its counters differ by [bal] from the numbers of particles of each type. *)
Definition rep (W : pworld) (bal : Z -> Z) (s : pst) (l : list grain) : Prop :=
  items s = l /\ 0 <= s_n s /\ 1 <= b_size (s_buf s) /\ Forall (ok_g (w_types W)) l /\ (forall ty, s_num s ty = bal ty + how_many ty l).
Definition world_ok (W : pworld) : Prop := 1 <= w_NBUF W /\ w_types W <= 2 ^ 31.

Lemma pick_ok : forall types sel l, (forall g p, sel g = Some p -> 0 <= p < 100) -> Forall (ok_g types) l -> Forall (ok_g types) (pick sel l).
Proof.
  intros types sel l HS H. induction H as [|g l (A & B & C) H IH]; cbn [pick flat_map]; [constructor|].
  destruct (sel g) as [p|] eqn:E; cbn [app]; auto. constructor; auto. apply HS in E. repeat split; cbn [g_type g_pos g_id set_pos]; lia.
Qed.
Lemma packing_ok : forall W bal sel s l, world_ok W -> rep W bal s l ->
  exists s', packing (w_NBUF W) sel s = Ok (Z.of_nat (length (pick sel l)), s') /\ rep W bal s' l /\
    Z.of_nat (length (pick sel l)) <= b_size (s_buf s') /\ holds (b_dat (s_buf s')) (pick sel l).
Proof.
  intros W bal sel s l [HN HT] (E & H0 & HB & HO & HC). unfold packing.
  destruct (pack_loop_ok (w_NBUF W) sel (Z.to_nat (s_n s)) 0 (s_a s) [] (s_buf s)) as (b' & E1 & E2 & E3 & E4); auto.
  - cbn; lia.
  - intros k g Hk. destruct k; discriminate.
  - cbn [length Z.of_nat app] in *. replace (0 + Z.of_nat (Z.to_nat (s_n s))) with (s_n s) in * by lia. rewrite <- first_seg in *. fold (items s) in *. rewrite E in *.
    rewrite E1. cbn [bind]. eexists. split; [reflexivity|]. cbn [with_buf s_buf]. split; [|auto]. repeat split; cbn [with_buf s_n s_a s_buf s_num]; auto; lia.
Qed.
Lemma unpack_ok : forall W bal buf s l l2, world_ok W -> rep W bal s l -> Forall (ok_g (w_types W)) l2 -> holds buf l2 ->
  exists s', unpack_particle (w_types W) buf (Z.of_nat (length l2)) s = Ok s' /\ rep W bal s' (l ++ l2) /\ s_buf s' = s_buf s /\ s_n s' = s_n s + Z.of_nat (length l2).
Proof.
  intros W bal buf s l l2 [HN HT] (E & H0 & HB & HO & HC) HO2 HH. unfold unpack_particle. cbv zeta.
  set (size := if s_n s + Z.of_nat (length l2) >=? s_size s then _ else s_size s).
  assert (HS : s_n s + Z.of_nat (length l2) <= size).
  { unfold size, particle_realloc. rewrite Z.geb_leb. destruct (Z.leb_spec (s_size s) (s_n s + Z.of_nat (length l2))); lia. }
  clearbody size. rewrite Nat2Z.id.
  destruct (unpack_loop_ok (w_types W) size buf l2 (s_n s) 0 (s_a s) (s_num s)) as (a' & num' & E1 & E2 & E3); auto.
  rewrite Z.mul_0_r in E1. rewrite E1. cbn [bind]. eexists. split; [reflexivity|]. cbn [s_buf s_n]. split; auto.
  unfold rep, items. cbn [s_n s_a s_buf s_num]. rewrite E2. unfold items in E. rewrite E. repeat split; auto; try lia.
  - apply Forall_app; auto.
  - intros ty. rewrite E3, HC, how_many_app. lia.
Qed.

Definition mirror (ax : axis) (twice : R) (g : grain) : grain :=
  Grain (set_comp ax (g_x g) (twice - comp ax (g_x g))) (set_comp ax (g_v g) (- comp ax (g_v g))) (g_type g) (g_pos g) (g_id g).
Lemma reflect_loop_ok : forall ax e m p a,
  (forall q, q < p -> reflect_loop ax e m p a q = a q) /\ seg p (p + Z.of_nat m) (reflect_loop ax e m p a) = map (mirror ax e) (seg p (p + Z.of_nat m) a).
Proof.
  intros ax e m. induction m as [|m IH]; intros p a; cbn [reflect_loop].
  - split; auto. unfold seg. replace (p + Z.of_nat 0 - p) with 0 by lia. auto.
  - cbv zeta. fold (mirror ax e (a p)). destruct (IH (p + 1) (upd a p (mirror ax e (a p)))) as [A B]. split.
    + intros q Hq. rewrite A by lia. apply upd_ne. lia.
    + replace (p + Z.of_nat (S m)) with (p + 1 + Z.of_nat m) by lia. rewrite !(seg_step p) by lia. cbn [map]. rewrite B, A by lia. rewrite upd_at. do 2 f_equal.
      apply seg_ext. intros t Ht. apply upd_ne. lia.
Qed.
Lemma first_length : forall A n (a : Z -> A), length (first n a) = Z.to_nat n.
Proof. intros. unfold first. rewrite map_length, seq_length. auto. Qed.
Lemma app_len : forall A (l1 l2 m1 m2 : list A), l1 ++ l2 = m1 ++ m2 -> length l1 = length m1 -> l1 = m1 /\ l2 = m2.
Proof.
  intros A l1. induction l1 as [|x l1 IH]; intros l2 [|y m1] m2 E L; cbn in *; try discriminate; auto.
  injection E as -> E. injection L as L. destruct (IH _ _ _ E L). subst. auto.
Qed.
Lemma mirror_ok : forall W bal ax e s l l2, rep W bal s (l ++ l2) -> rep W bal (reflect_from ax e (Z.of_nat (length l)) s) (l ++ map (mirror ax e) l2).
Proof.
  intros W bal ax e s l l2 (E & H0 & HB & HO & HC). unfold rep, reflect_from, items. cbn [s_n s_a s_buf s_num]. unfold items in E.
  assert (LN : s_n s = Z.of_nat (length l) + Z.of_nat (length l2)).
  { apply (f_equal (@length grain)) in E. rewrite first_length, app_length in E. lia. }
  set (n0 := Z.of_nat (length l)) in *. destruct (reflect_loop_ok ax e (Z.to_nat (s_n s - n0)) n0 (s_a s)) as [A B]. set (a' := reflect_loop _ _ _ _ _) in *. clearbody a'.
  replace (n0 + Z.of_nat (Z.to_nat (s_n s - n0))) with (s_n s) in B by lia.
  rewrite (first_split n0 (s_n s) (s_a s)) in E by lia. rewrite (first_split n0 (s_n s) a') by lia.
  apply app_len in E as [E1 E2].
  2:{ rewrite first_length. unfold n0. lia. }
  repeat split; auto.
  - rewrite B, E2. f_equal. rewrite <- E1. rewrite !first_seg. apply seg_ext. intros; apply A; lia.
  - apply Forall_app in HO. apply Forall_app. split; [tauto|]. apply Forall_map. eapply Forall_impl; [|apply HO]. intros g G. exact G.
  - intros ty. rewrite HC. f_equal. rewrite !how_many_app. f_equal. clear. induction l2 as [|g l2 IH]; cbn [map]; auto. rewrite !how_many_cons, IH. reflexivity.
Qed.
