(** The exchange along one axis on the lists of particles of all Grids. *)
From Coq Require Import ZArith Bool Reals Lra Lia ZifyBool List Permutation.
From Verif Require Import CStr MeshModel PosModel PosProps GasModel PartModel PartSort PbcModel PbcFacts.
From Verif Require UtilModel.
Import UtilModel (upd).
Import ListNotations.
Open Scope Z_scope.

Definition in_box (W : pworld) (r : rank) : Prop := forall ax, 0 <= ridx ax r < w_N W ax.
Definition six (W : pworld) (r : rank) (ax : axis) := sel_ix ax (gMin W r ax) (w_dx W ax) nbc.
Definition sox (W : pworld) (r : rank) (ax : axis) := sel_ox ax (gMax W r ax) (w_dx W ax) nbc.

Lemma six_eq : forall W r ax g, six W r ax g =
  if (negb (g_pos g =? 0) && negb (g_pos g =? 1) && negb (g_pos g =? 20 + axnum ax) && lt (comp ax (g_x g)) (gMin W r ax))%Z then Some (10 + axnum ax) else None.
Proof.
  intros. unfold six, sel_ix, nbc, lt, ge. cbv zeta. replace (gMin W r ax + 0 * w_dx W ax)%R with (gMin W r ax) by ring.
  destruct (Rlt_dec (comp ax (g_x g)) (gMin W r ax)) as [A|A]; destruct (g_pos g =? 0), (g_pos g =? 1), (g_pos g =? 20 + axnum ax); cbn [orb negb andb]; auto;
  destruct (Rle_dec (gMin W r ax) (comp ax (g_x g))); auto; exfalso; lra.
Qed.
Lemma sox_eq : forall W r ax g, sox W r ax g =
  if (negb (g_pos g =? 0) && negb (g_pos g =? 1) && negb (g_pos g =? 10 + axnum ax) && ge (comp ax (g_x g)) (gMax W r ax))%Z then Some (20 + axnum ax) else None.
Proof.
  intros. unfold sox, sel_ox, nbc, lt, ge. cbv zeta. replace (gMax W r ax - 0 * w_dx W ax)%R with (gMax W r ax) by ring.
  destruct (Rle_dec (gMax W r ax) (comp ax (g_x g))) as [A|A]; destruct (g_pos g =? 0), (g_pos g =? 1), (g_pos g =? 10 + axnum ax); cbn [orb negb andb]; auto;
  destruct (Rlt_dec (comp ax (g_x g)) (gMax W r ax)); auto; exfalso; lra.
Qed.
Lemma axnum_range : forall ax, 1 <= axnum ax <= 3.
Proof. intros [| |]; cbn; lia. Qed.
Lemma Some_inj : forall (x y : Z), Some x = Some y -> x = y.
Proof. congruence. Qed.
Lemma six_range : forall W r ax g p, six W r ax g = Some p -> 0 <= p < 100.
Proof. intros W r ax g p. rewrite six_eq. pose proof (axnum_range ax). match goal with |- (if ?b then _ else _) = _ -> _ => destruct b end; intros E; [apply Some_inj in E; subst p; lia|discriminate]. Qed.
Lemma sox_range : forall W r ax g p, sox W r ax g = Some p -> 0 <= p < 100.
Proof. intros W r ax g p. rewrite sox_eq. pose proof (axnum_range ax). match goal with |- (if ?b then _ else _) = _ -> _ => destruct b end; intros E; [apply Some_inj in E; subst p; lia|discriminate]. Qed.

(** The particles that a Grid sends, and those that the physical boundaries add *)
Definition twice_min (W : pworld) (r : rank) (ax : axis) : R := match ax with X3 => gMin W r X3 | _ => (2 * gMin W r ax)%R end.
Definition shR (W : pworld) (ax : axis) (r : rank) (g : grain) : grain := if has_l W r ax && (ridx ax r =? w_N W ax - 1) then shiftx ax (- Lx W ax) g else g.
Definition shL (W : pworld) (ax : axis) (r : rank) (g : grain) : grain := if has_r W r ax && (ridx ax r =? 0) then shiftx ax (Lx W ax) g else g.
Definition sR (W : pworld) (ax : axis) (r : rank) (l : list grain) : list grain := map (shR W ax r) (pick (sox W r ax) l).
Definition sL (W : pworld) (ax : axis) (r : rank) (l : list grain) : list grain := map (shL W ax r) (pick (six W r ax) l).
Definition inI (W : pworld) (ax : axis) (r : rank) (l : list grain) : list grain :=
  match w_bci W ax with
  | Reflecting => map (mirror ax (twice_min W r ax)) (pick (six W r ax) l)
  | Outflow => []
  | Periodic => map (shiftx ax (- Lx W ax)) (pick (sox W r ax) l)
  end.
Definition inO (W : pworld) (ax : axis) (r : rank) (l : list grain) : list grain :=
  match w_bco W ax with
  | Reflecting => map (mirror ax (2 * gMax W r ax)) (pick (sox W r ax) l)
  | Outflow => []
  | Periodic => map (shiftx ax (Lx W ax)) (pick (six W r ax) l)
  end.

Lemma ok_map : forall types (f : grain -> grain) l, (forall g, g_type (f g) = g_type g /\ g_pos (f g) = g_pos g /\ g_id (f g) = g_id g) ->
  Forall (ok_g types) l -> Forall (ok_g types) (map f l).
Proof. intros types f l Hf H. apply Forall_map. eapply Forall_impl; [|exact H]. intros g. destruct (Hf g) as (A & B & C). unfold ok_g. rewrite A, B, C. auto. Qed.
Lemma ok_sR : forall W ax r l, Forall (ok_g (w_types W)) l -> Forall (ok_g (w_types W)) (sR W ax r l).
Proof. intros. unfold sR. apply ok_map; [intros; unfold shR; destruct (_ && _); auto|]. apply pick_ok; auto. apply sox_range. Qed.
Lemma ok_sL : forall W ax r l, Forall (ok_g (w_types W)) l -> Forall (ok_g (w_types W)) (sL W ax r l).
Proof. intros. unfold sL. apply ok_map; [intros; unfold shL; destruct (_ && _); auto|]. apply pick_ok; auto. apply six_range. Qed.

Section OneGrid.
Variables (W : pworld) (HW : world_ok W) (bal : Z -> Z).

Lemma shift_map : forall ax sh c s l, rep W bal s c -> Z.of_nat (length l) <= b_size (s_buf s) -> holds (b_dat (s_buf s)) l ->
  exists s', shift_packed_particle (Z.of_nat (length l)) (axnum ax) sh s = Ok s' /\ rep W bal s' c /\ holds (b_dat (s_buf s')) (map (shiftx ax sh) l).
Proof.
  intros ax sh c s l HR HL HH. pose proof HR as (A1 & A2 & A3 & A4 & A5).
  destruct (shift_ok ax sh s l A3 HL HH) as (d & E & D). rewrite E. eexists. split; [reflexivity|]. split; [|exact D].
  repeat split; auto.
Qed.
Lemma apply_ix_ok : forall ax r s l, rep W bal s l -> exists s', apply_ix W r ax s = Ok s' /\ rep W bal s' (l ++ inI W ax r l).
Proof.
  intros ax r s l HR. unfold apply_ix, inI. pose proof HR as (_ & _ & _ & HO & _). destruct (w_bci W ax).
  - unfold reflect_ix, packing_ix, unpack_own. fold (six W r ax). destruct (packing_ok W bal (six W r ax) s l HW HR) as (s1 & E1 & R1 & L1 & H1). rewrite E1. cbn [bind].
    destruct (unpack_ok W bal (b_dat (s_buf s1)) s1 l (pick (six W r ax) l) HW R1) as (s2 & E2 & R2 & B2 & N2); auto.
    { apply pick_ok; auto. apply six_range. }
    rewrite E2. cbn [bind]. eexists. split; [reflexivity|]. fold (twice_min W r ax).
    assert (EN : s_n s1 = Z.of_nat (length l)). { destruct R1 as (I & P & _). rewrite <- I. unfold items. rewrite first_length. lia. }
    rewrite EN. apply mirror_ok. auto.
  - exists s. rewrite app_nil_r. auto.
  - unfold periodic_ix, packing_ox, unpack_own. fold (sox W r ax). destruct (packing_ok W bal (sox W r ax) s l HW HR) as (s1 & E1 & R1 & L1 & H1). rewrite E1. cbn [bind].
    destruct (shift_map ax (- Lx W ax) l s1 _ R1 L1 H1) as (s2 & E2 & R2 & H2). rewrite E2. cbn [bind].
    destruct (unpack_ok W bal (b_dat (s_buf s2)) s2 l (map (shiftx ax (- Lx W ax)) (pick (sox W r ax) l)) HW R2) as (s3 & E3 & R3 & _); auto.
    { apply ok_map; [auto|]. apply pick_ok; auto. apply sox_range. }
    rewrite map_length in E3. rewrite E3. eauto.
Qed.
Lemma apply_ox_ok : forall ax r s l, rep W bal s l -> exists s', apply_ox W r ax s = Ok s' /\ rep W bal s' (l ++ inO W ax r l).
Proof.
  intros ax r s l HR. unfold apply_ox, inO. pose proof HR as (_ & _ & _ & HO & _). destruct (w_bco W ax).
  - unfold reflect_ox, packing_ox, unpack_own. fold (sox W r ax). destruct (packing_ok W bal (sox W r ax) s l HW HR) as (s1 & E1 & R1 & L1 & H1). rewrite E1. cbn [bind].
    destruct (unpack_ok W bal (b_dat (s_buf s1)) s1 l (pick (sox W r ax) l) HW R1) as (s2 & E2 & R2 & B2 & N2); auto.
    { apply pick_ok; auto. apply sox_range. }
    rewrite E2. cbn [bind]. eexists. split; [reflexivity|].
    assert (EN : s_n s1 = Z.of_nat (length l)). { destruct R1 as (I & P & _). rewrite <- I. unfold items. rewrite first_length. lia. }
    rewrite EN. apply mirror_ok. auto.
  - exists s. rewrite app_nil_r. auto.
  - unfold periodic_ox, packing_ix, unpack_own. fold (six W r ax). destruct (packing_ok W bal (six W r ax) s l HW HR) as (s1 & E1 & R1 & L1 & H1). rewrite E1. cbn [bind].
    destruct (shift_map ax (Lx W ax) l s1 _ R1 L1 H1) as (s2 & E2 & R2 & H2). rewrite E2. cbn [bind].
    destruct (unpack_ok W bal (b_dat (s_buf s2)) s2 l (map (shiftx ax (Lx W ax)) (pick (six W r ax) l)) HW R2) as (s3 & E3 & R3 & _); auto.
    { apply ok_map; [auto|]. apply pick_ok; auto. apply six_range. }
    rewrite map_length in E3. rewrite E3. eauto.
Qed.
Lemma map_same : forall A (l : list A), map (fun x => x) l = l.
Proof. induction l; cbn; congruence. Qed.
Definition msg_of (m : msg) (l : list grain) : Prop := fst m = Z.of_nat (length l) /\ holds (snd m) l /\ Forall (ok_g (w_types W)) l.
Lemma no_msg_of : msg_of no_msg [].
Proof. repeat split; auto. intros k g Hk. destruct k; discriminate. Qed.
Lemma send_right_ok : forall ax r s l, rep W bal s l -> exists s' m, send_right W ax r s = Ok (s', m) /\ rep W bal s' l /\ msg_of m (sR W ax r l).
Proof.
  intros ax r s l HR. pose proof HR as (_ & _ & _ & HO & _). unfold send_right, packing_ox. fold (sox W r ax). destruct (packing_ok W bal (sox W r ax) s l HW HR) as (s1 & E1 & R1 & L1 & H1). rewrite E1. cbn [bind].
  pose proof (ok_sR W ax r l HO) as HS. unfold sR in *. unfold shR in *. destruct (has_l W r ax && (ridx ax r =? w_N W ax - 1)).
  - destruct (shift_map ax (- Lx W ax) l s1 _ R1 L1 H1) as (s2 & E2 & R2 & H2). rewrite E2. cbn [bind]. do 2 eexists. split; [reflexivity|]. split; auto.
    unfold msg_of. cbn [fst snd]. rewrite map_length. auto.
  - cbn [bind]. do 2 eexists. split; [reflexivity|]. split; auto. unfold msg_of. cbn [fst snd]. rewrite map_same in *. auto.
Qed.
Lemma send_left_ok : forall ax r s l, rep W bal s l -> exists s' m, send_left W ax r s = Ok (s', m) /\ rep W bal s' l /\ msg_of m (sL W ax r l).
Proof.
  intros ax r s l HR. pose proof HR as (_ & _ & _ & HO & _). unfold send_left, packing_ix. fold (six W r ax). destruct (packing_ok W bal (six W r ax) s l HW HR) as (s1 & E1 & R1 & L1 & H1). rewrite E1. cbn [bind].
  pose proof (ok_sL W ax r l HO) as HS. unfold sL in *. unfold shL in *. destruct (has_r W r ax && (ridx ax r =? 0)).
  - destruct (shift_map ax (Lx W ax) l s1 _ R1 L1 H1) as (s2 & E2 & R2 & H2). rewrite E2. cbn [bind]. do 2 eexists. split; [reflexivity|]. split; auto.
    unfold msg_of. cbn [fst snd]. rewrite map_length. auto.
  - cbn [bind]. do 2 eexists. split; [reflexivity|]. split; auto. unfold msg_of. cbn [fst snd]. rewrite map_same in *. auto.
Qed.
Lemma receive_ok : forall m s l l2, rep W bal s l -> msg_of m l2 -> exists s', receive W m s = Ok s' /\ rep W bal s' (l ++ l2).
Proof.
  intros [cnt buf] s l l2 HR (E & H & HO). cbn [fst snd] in *. subst cnt. unfold receive. cbv zeta.
  set (rs := if _ >=? _ then _ else _). assert (HS : Z.of_nat (length l2) <= rs).
  { unfold rs. rewrite Z.geb_leb. destruct (Z.leb_spec (s_rsize s) (Z.of_nat (length l2) + 1)); lia. }
  clearbody rs. destruct (Z.leb_spec (Z.of_nat (length l2)) rs); [|lia].
  assert (HR' : rep W bal (Pst (s_n s) (s_a s) (s_size s) (s_num s) (s_buf s) rs) l) by exact HR.
  destruct (Z.gtb_spec (Z.of_nat (length l2)) 0).
  - destruct (unpack_ok W bal buf _ l l2 HW HR' HO H) as (s' & E & R' & _). rewrite E. eauto.
  - destruct l2; cbn [length] in *; [|lia]. rewrite app_nil_r. eauto.
Qed.
End OneGrid.

(** ** All Grids *)
Definition sys (W : pworld) (bal : rank -> Z -> Z) (S : rank -> res pst) (T : rank -> list grain) : Prop :=
  forall r, in_box W r -> exists s, S r = Ok s /\ rep W (bal r) s (T r).
(** Periodic on both sides or on none. *)
Definition paired (W : pworld) : Prop := forall ax, is_per (w_bci W ax) = is_per (w_bco W ax).

Definition mid (W : pworld) (ax : axis) (T : rank -> list grain) (r : rank) : list grain :=
  match has_l W r ax, has_r W r ax with
  | true, true => T r ++ sR W ax (left_of W ax r) (T (left_of W ax r))
  | false, true => T r ++ inI W ax r (T r)
  | true, false => T r ++ inO W ax r (T r)
  | false, false => (T r ++ inI W ax r (T r)) ++ inO W ax r (T r ++ inI W ax r (T r))
  end.
Definition exch (W : pworld) (ax : axis) (T : rank -> list grain) (r : rank) : list grain :=
  match has_l W r ax, has_r W r ax with
  | _, true => mid W ax T r ++ sL W ax (right_of W ax r) (mid W ax T (right_of W ax r))
  | true, false => mid W ax T r ++ sR W ax (left_of W ax r) (T (left_of W ax r))
  | false, false => mid W ax T r
  end.

Lemma ridx_rset : forall ax bx r n, ridx ax (rset bx r n) = if axnum ax =? axnum bx then n else ridx ax r.
Proof. intros ax bx [[i j] k] n. destruct ax, bx; reflexivity. Qed.
Lemma rset_rset : forall ax r n m, rset ax (rset ax r n) m = rset ax r m.
Proof. intros [| |] [[i j] k] n m; reflexivity. Qed.
Lemma rset_ridx : forall ax r, rset ax r (ridx ax r) = r.
Proof. intros [| |] [[i j] k]; reflexivity. Qed.
Lemma left_box : forall W ax r, in_box W r -> in_box W (left_of W ax r).
Proof. intros W ax r H bx. unfold left_of. rewrite ridx_rset. pose proof (H bx). pose proof (H ax). destruct (Z.eqb_spec (axnum bx) (axnum ax)); auto. assert (bx = ax) by (destruct ax, bx; cbn in *; congruence). subst. destruct (Z.ltb_spec 0 (ridx ax r)); lia. Qed.
Lemma right_box : forall W ax r, in_box W r -> in_box W (right_of W ax r).
Proof. intros W ax r H bx. unfold right_of. rewrite ridx_rset. pose proof (H bx). pose proof (H ax). destruct (Z.eqb_spec (axnum bx) (axnum ax)); auto. assert (bx = ax) by (destruct ax, bx; cbn in *; congruence). subst. destruct (Z.ltb_spec (ridx ax r) (w_N W ax - 1)); lia. Qed.
Lemma left_has_r : forall W ax r, paired W -> in_box W r -> has_l W r ax = true -> has_r W (left_of W ax r) ax = true.
Proof.
  intros W ax r HP HB H. specialize (HB ax). unfold has_l, has_r, left_of in *. rewrite ridx_rset, Z.eqb_refl. rewrite <- (HP ax).
  destruct (Z.ltb_spec 0 (ridx ax r)); cbn [orb] in *. { destruct (Z.ltb_spec (ridx ax r - 1) (w_N W ax - 1)); auto; lia. } rewrite H. apply orb_true_r.
Qed.
Lemma right_has_l : forall W ax r, paired W -> in_box W r -> has_r W r ax = true -> has_l W (right_of W ax r) ax = true.
Proof.
  intros W ax r HP HB H. specialize (HB ax). unfold has_l, has_r, right_of in *. rewrite ridx_rset, Z.eqb_refl. rewrite (HP ax).
  destruct (Z.ltb_spec (ridx ax r) (w_N W ax - 1)); cbn [orb] in *. { destruct (Z.ltb_spec 0 (ridx ax r + 1)); auto; lia. } rewrite H. apply orb_true_r.
Qed.
Lemma left_right : forall W ax r, in_box W r -> left_of W ax (right_of W ax r) = r.
Proof.
  intros W ax r HB. specialize (HB ax). unfold left_of, right_of. rewrite ridx_rset, Z.eqb_refl, rset_rset.
  rewrite <- (rset_ridx ax r) at 6. f_equal. destruct (Z.ltb_spec (ridx ax r) (w_N W ax - 1)).
  - destruct (Z.ltb_spec 0 (ridx ax r + 1)); lia.
  - cbn [Z.ltb Z.compare]. lia.
Qed.
Lemma right_left : forall W ax r, in_box W r -> right_of W ax (left_of W ax r) = r.
Proof.
  intros W ax r HB. specialize (HB ax). unfold left_of, right_of. rewrite ridx_rset, Z.eqb_refl, rset_rset.
  rewrite <- (rset_ridx ax r) at 6. f_equal. destruct (Z.ltb_spec 0 (ridx ax r)).
  - destruct (Z.ltb_spec (ridx ax r - 1) (w_N W ax - 1)); lia.
  - destruct (Z.ltb_spec (w_N W ax - 1) (w_N W ax - 1)); lia.
Qed.

Section AllGrids.
Variables (W : pworld) (HW : world_ok W) (HP : paired W) (bal : rank -> Z -> Z).

Lemma first_half_ok : forall ax S T r, sys W bal S T -> in_box W r ->
  exists s m, first_half W ax S r = Ok (s, m) /\ rep W (bal r) s (T r) /\ (has_r W r ax = true -> msg_of W m (sR W ax r (T r))).
Proof.
  intros ax S T r HS HB. unfold first_half. destruct (HS r HB) as (s & E & HR). rewrite E. cbn [bind]. destruct (has_r W r ax).
  - destruct (send_right_ok W HW (bal r) ax r s _ HR) as (s' & m & E' & R' & M'). exists s', m. auto.
  - exists s, no_msg. repeat split; auto; apply HR || discriminate.
Qed.
Lemma second_half_ok : forall ax S T r, sys W bal S T -> in_box W r ->
  exists s m, second_half W ax S r = Ok (s, m) /\ rep W (bal r) s (mid W ax T r) /\ (has_l W r ax = true -> msg_of W m (sL W ax r (mid W ax T r))).
Proof.
  intros ax S T r HS HB. unfold second_half, mid. destruct (first_half_ok ax S T r HS HB) as (s & m & E & HR & HM). rewrite E. cbn [bind].
  destruct (has_l W r ax) eqn:EL, (has_r W r ax) eqn:ER.
  - destruct (first_half_ok ax S T _ HS (left_box W ax r HB)) as (s1 & m1 & E1 & R1 & M1). rewrite E1. cbn [bind].
    destruct (receive_ok W HW (bal r) m1 s (T r) _ HR (M1 (left_has_r W ax r HP HB EL))) as (s2 & E2 & R2). rewrite E2. cbn [bind].
    destruct (send_left_ok W HW (bal r) ax r s2 _ R2) as (s3 & m3 & E3 & R3 & M3). eauto 8.
  - destruct (apply_ox_ok W HW (bal r) ax r s _ HR) as (s2 & E2 & R2). rewrite E2. cbn [bind].
    destruct (send_left_ok W HW (bal r) ax r s2 _ R2) as (s3 & m3 & E3 & R3 & M3). eauto 8.
  - destruct (apply_ix_ok W HW (bal r) ax r s _ HR) as (s2 & E2 & R2). rewrite E2. cbn [bind]. exists s2, no_msg. split; auto. split; auto. discriminate.
  - destruct (apply_ix_ok W HW (bal r) ax r s _ HR) as (s2 & E2 & R2). rewrite E2. cbn [bind].
    destruct (apply_ox_ok W HW (bal r) ax r s2 _ R2) as (s3 & E3 & R3). rewrite E3. cbn [bind]. exists s3, no_msg. split; auto. split; auto. discriminate.
Qed.
Lemma exchange_ok : forall ax S T, sys W bal S T -> sys W bal (exchange W ax S) (exch W ax T).
Proof.
  intros ax S T HS r HB. unfold exchange, exch. destruct (second_half_ok ax S T r HS HB) as (s & m & E & HR & HM). rewrite E. cbn [bind].
  destruct (has_r W r ax) eqn:ER; [|destruct (has_l W r ax) eqn:EL].
  - destruct (second_half_ok ax S T _ HS (right_box W ax r HB)) as (s1 & m1 & E1 & R1 & M1). rewrite E1. cbn [bind].
    destruct (receive_ok W HW (bal r) m1 s _ _ HR (M1 (right_has_l W ax r HP HB ER))) as (s2 & E2 & R2). rewrite E2. exists s2. destruct (has_l W r ax); auto.
  - destruct (first_half_ok ax S T _ HS (left_box W ax r HB)) as (s1 & m1 & E1 & R1 & M1). rewrite E1. cbn [bind].
    destruct (receive_ok W HW (bal r) m1 s _ _ HR (M1 (left_has_r W ax r HP HB EL))) as (s2 & E2 & R2). rewrite E2. eauto.
  - eauto.
Qed.
Lemma along_ok : forall ax S T, sys W bal S T -> sys W bal (along W ax S) (if w_Nx W ax >? 1 then exch W ax T else T).
Proof. intros ax S T H. unfold along. destruct (_ >? _); auto. apply exchange_ok; auto. Qed.

(** Step 5 *)
Lemma update_loop_ok : forall L m p a,
  (forall q, q < p -> update_loop L m p a q = a q) /\ seg p (p + Z.of_nat m) (update_loop L m p a) = map (new_status L) (seg p (p + Z.of_nat m) a).
Proof.
  intros L m. induction m as [|m IH]; intros p a; cbn [update_loop].
  - split; auto. unfold seg. replace (p + Z.of_nat 0 - p) with 0 by lia. auto.
  - destruct (IH (p + 1) (upd a p (new_status L (a p)))) as [A B]. split.
    + intros q Hq. rewrite A by lia. apply upd_ne. lia.
    + replace (p + Z.of_nat (S m)) with (p + 1 + Z.of_nat m) by lia. rewrite !(seg_step p) by lia. cbn [map]. rewrite B, A by lia. rewrite upd_at. do 2 f_equal.
      apply seg_ext. intros t Ht. apply upd_ne. lia.
Qed.
Definition keep (L : plim) (l : list grain) : list grain := filter (fun g => negb (ghost g)) (map (new_status L) l).
Lemma how_many_split : forall ty l, how_many ty l = how_many ty (filter (fun g => negb (ghost g)) l) + how_many ty (filter ghost l).
Proof. intros ty l. induction l as [|g l IH]; auto. cbn [filter]. rewrite how_many_cons, IH. destruct (ghost g); cbn [negb]; rewrite how_many_cons; lia. Qed.
Lemma how_many_status : forall ty L l, how_many ty (map (new_status L) l) = how_many ty l.
Proof. intros. induction l as [|g l IH]; auto. cbn [map]. rewrite !how_many_cons, IH. unfold new_status. cbv zeta. destruct (g_pos g >=? 10); auto. Qed.
Lemma how_many_perm : forall ty l l', Permutation l l' -> how_many ty l = how_many ty l'.
Proof. intros ty l l' H. induction H; rewrite ?how_many_cons; try lia. Qed.
Lemma step5_ok : forall S T, sys W bal S T -> forall r, in_box W r ->
  exists s, step5 W S r = Ok s /\ 0 <= s_n s /\ Permutation (items s) (keep (limits W r) (T r)) /\ (forall ty, s_num s ty = bal r ty + how_many ty (items s)) /\
    1 <= b_size (s_buf s).
Proof.
  intros S T HS r HB. unfold step5. destruct (HS r HB) as (s & E & (I & P & BS & HO & HC)). rewrite E. cbn [bind].
  unfold update_particle_status. cbn [s_n s_a s_num s_size s_buf s_rsize].
  destruct (update_loop_ok (limits W r) (Z.to_nat (s_n s)) 0 (s_a s)) as [_ U]. set (a' := update_loop _ _ _ _) in *. clearbody a'.
  replace (0 + Z.of_nat (Z.to_nat (s_n s))) with (s_n s) in U by lia. rewrite <- !first_seg in U. fold (items s) in U. rewrite I in U.
  destruct (C69_delete_ghost (s_n s) a' (s_num s) P) as (b & m & num' & E1 & E2 & E3 & E4). rewrite E1. cbn [bind].
  eexists. split; [reflexivity|]. unfold items. cbn [s_n s_a s_num s_buf]. split; [lia|]. split; [rewrite E3, U; reflexivity|]. split; auto.
  intros ty. rewrite E4, HC, U. rewrite (how_many_perm _ _ _ E3), U. pose proof (how_many_split ty (map (new_status (limits W r)) (T r))) as Q. rewrite how_many_status in Q. lia.
Qed.
End AllGrids.
