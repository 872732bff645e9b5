(** * Length of the prolongation message (C72) *)
From Coq Require Import Reals ZArith Bool Arith Lia Lra ZifyBool List.
From Verif Require Import CStr MeshModel SmrModel SmrOverlap SmrFacts SmrProps SmrPaired ProModel ProPass ProFill ProAll.
Import ListNotations.
Open Scope Z_scope.

Definition NSLOT (c : cfg) : Z := NVAR c + if c_mhd c then 3 else 0.
(** Doubles that one boundary adds to the prolongation message. *)
Definition pwords (ng : Z) (c : cfg) (pNx : vec) (G : box) (a : axis) : Z :=
  if 0 <? ext G X1 * ext G X2 * ext G X3 then
    (ng / 2 + 2) * (fst (n12z G a) + (if 1 <? pNx X2 then ng + 2 else 0)) * (snd (n12z G a) + (if 1 <? pNx X3 then ng + 2 else 0)) * NSLOT c
  else 0.
Lemma nP_cface : forall ng c pNx G a s o, (forall b, 0 <= ext G b) -> o_nP (cface ng c pNx G a s o) = o_nP o + pwords ng c pNx G a.
Proof.
  intros ng c pNx G a s o NN. pose proof (NN X1). pose proof (NN X2). pose proof (NN X3). unfold cface, pwords, NSLOT.
  assert (V : (0 <? ext G X1 * ext G X2 * ext G X3) = true -> (0 <? fst (n12z G a) * snd (n12z G a)) = true).
  { intros V. apply Z.ltb_lt in V. apply Z.ltb_lt. destruct a; cbn; nia. }
  destruct (n12z G a) as [n1 n2]. cbn [fst snd] in *. destruct (0 <? ext G X1 * ext G X2 * ext G X3).
  - rewrite (V eq_refl). cbv zeta. set (w1 := n1 + _). set (w2 := n2 + _). clearbody w1 w2. destruct (c_mhd c); destruct (1 <? pNx X2); destruct (1 <? pNx X3); destruct a; cbn [axis_eqb negb andb o_nP add_P add_RC new_flx new_emf1 new_emf2 new_emf3]; lia.
  - cbv zeta. destruct (0 <? n1 * n2); destruct (c_mhd c); destruct (1 <? pNx X2); destruct (1 <? pNx X3); destruct a; cbn [axis_eqb negb andb o_nP add_P add_RC new_flx new_emf1 new_emf2 new_emf3]; lia.
Qed.
Lemma cdims_nP : forall ng c root pNx ch gc G2 G3 l o, (forall b, 0 <= ext G3 b) ->
  o_nP (fold_left (cdim ng c root pNx ch gc G2 G3) l o) =
  o_nP o + fold_right Z.add 0 (map (fun a => (if test root ch gc G2 G3 a false then pwords ng c pNx G3 a else 0) + (if test root ch gc G2 G3 a true then pwords ng c pNx G3 a else 0)) l).
Proof.
  intros ng c root pNx ch gc G2 G3 l. induction l as [|a l IH]; intros o NN; cbn [fold_left map fold_right]; [lia|]. rewrite IH by exact NN. clear IH.
  assert (K : o_nP (cdim ng c root pNx ch gc G2 G3 o a) = o_nP o + ((if test root ch gc G2 G3 a false then pwords ng c pNx G3 a else 0) + (if test root ch gc G2 G3 a true then pwords ng c pNx G3 a else 0))); [|lia].
  unfold cdim. cbv zeta. change ((bl G2 a =? bl G3 a) && negb (dm_Disp ch a =? 0) && (gi_ax gc a =? 0)%nat) with (test root ch gc G2 G3 a false).
  change ((br G2 a =? br G3 a) && negb ((dm_Disp ch a + dm_Nx ch a) / irefine (dm_level ch) =? root a) && (Z.of_nat (gi_ax gc a) =? dm_NG ch a - 1)) with (test root ch gc G2 G3 a true).
  destruct (test root ch gc G2 G3 a false); destruct (test root ch gc G2 G3 a true); rewrite ?nP_cface by exact NN; lia.
Qed.
(** Cells of the region that is sent for a boundary. *)
Definition region (nDim : nat) (ng : Z) (oc : ovl) (a : axis) : Z :=
  let w b := if many nDim b then (if axis_eqb a b then ng / 2 + 2 else len oc b + ng + 2) else 1 in w X3 * w X2 * w X1.
Lemma cgrid_nP : forall ng c root nDim pa gp ch gc oc, aligned nDim pa gp ch gc -> cgrid ng c root nDim pa gp ch gc = Some oc ->
  (forall b, 0 <= len oc b) /\
  o_nP oc = if 0 <? len oc X1 * len oc X2 * len oc X3 then
      fold_right Z.add 0 (map (fun '(a, s) => if some (o_flx oc a s) then region nDim ng oc a * NSLOT c else 0) (bounds nDim)) else 0.
Proof.
  intros ng c root nDim pa gp ch gc oc AL H.
  destruct (cgrid_inv _ _ _ _ _ _ _ _ _ AL H) as (tst0 & I1 & I2 & _). clear tst0. split; [exact I1|].
  pose proof H as H0. destruct AL as [ND A]. unfold cgrid in H.
  destruct (fst (checkOverlap (sides pa) (child_sides ch))); [|discriminate]. cbn [negb] in H.
  destruct (checkOverlapTouch (grid_box pa gp) (child_grid_sides ch gc)) as [y G] eqn:EC. destruct y; [|discriminate]. cbn [negb] in H. cbv zeta in H.
  match goal with H : Some (fold_left (cdim _ _ _ ?pN _ _ ?g2 _) _ ?o) = _ |- _ => set (pNx := pN) in *; set (o0 := o) in * end.
  injection H as OC.
  destruct (region_cdims ng c root pNx ch gc (child_grid_sides ch gc) G (axes nDim) o0) as [S1 S2].
  pose proof (cdims_flags ng c root pNx ch gc (child_grid_sides ch gc) G (axes nDim) o0) as FL. cbv zeta in FL.
  pose proof (cdims_nP ng c root pNx ch gc (child_grid_sides ch gc) G (axes nDim) o0) as WD. rewrite OC in S1, S2, FL, WD.
  assert (LE : forall a, len oc a = ext G a) by (intros a; unfold len; rewrite S1, S2; unfold o0; cbn [o_s o_e]; unfold ext; lia).
  assert (PX : (1 <? pNx X2) = (2 <=? nDim)%nat /\ (1 <? pNx X3) = (3 <=? nDim)%nat).
  { pose proof (A X2) as A2. pose proof (A X3) as A3. cbv zeta in A2, A3. rewrite in_axes in A2, A3 by exact ND. unfold pNx. destruct (2 <=? nDim)%nat, (3 <=? nDim)%nat; split; lia. }
  destruct PX as [PX2 PX3].
  rewrite WD by (intros b; rewrite <- LE; apply I1). unfold o0 at 1. cbn [o_nP]. unfold pwords. rewrite <- !LE.
  destruct (Z.ltb_spec 0 (len oc X1 * len oc X2 * len oc X3)) as [V|V].
  2: { rewrite Z.add_0_l. clear. induction (axes nDim) as [|a l IH]; [reflexivity|]. cbn [map fold_right]. rewrite IH. destruct (test _ _ _ _ _ _ _), (test _ _ _ _ _ _ _); reflexivity. }
  assert (AR : forall a, 0 < area G a).
  { intros a. pose proof (I1 X1). pose proof (I1 X2). pose proof (I1 X3). unfold area. destruct a; cbn [n12z fst snd]; rewrite <- !LE; nia. }
  assert (FX : forall a s, existsb (axis_eqb a) (axes nDim) = true -> some (o_flx oc a s) = test root ch gc (child_grid_sides ch gc) G a s).
  { intros a s M. destruct (FL a s) as (F1 & _). rewrite F1, M. specialize (AR a). replace (0 <? area G a) with true by lia. unfold o0. cbn. rewrite andb_true_r, orb_false_r. reflexivity. }
  rewrite Z.add_0_l. unfold bounds.
  assert (W : forall a, existsb (axis_eqb a) (axes nDim) = true -> (ng / 2 + 2) * (fst (n12z G a) + (if 1 <? pNx X2 then ng + 2 else 0)) * (snd (n12z G a) + (if 1 <? pNx X3 then ng + 2 else 0)) = region nDim ng oc a).
  { intros a M. rewrite PX2, PX3. unfold region. rewrite in_axes in M by exact ND.
    assert (L2 : (2 <=? nDim)%nat = false -> len oc X2 = 1) by (intros Q; apply (I2 X2); unfold ratio; rewrite in_axes by exact ND; rewrite Q; reflexivity).
    assert (L3 : (3 <=? nDim)%nat = false -> len oc X3 = 1) by (intros Q; apply (I2 X3); unfold ratio; rewrite in_axes by exact ND; rewrite Q; reflexivity).
    assert (M23 : (2 <=? nDim)%nat = false -> (3 <=? nDim)%nat = false) by (intros; lia).
    destruct a; cbn [n12z fst snd many axis_eqb]; rewrite <- !LE; destruct (2 <=? nDim)%nat, (3 <=? nDim)%nat; try discriminate; try (specialize (M23 eq_refl); discriminate); try (rewrite (L2 eq_refl)); try (rewrite (L3 eq_refl)); ring. }
  clear - FX W. revert FX W. set (T := test root ch gc (child_grid_sides ch gc) G).
  assert (K : forall l, (forall a, In a l -> existsb (axis_eqb a) (axes nDim) = true) -> (forall a s, existsb (axis_eqb a) (axes nDim) = true -> some (o_flx oc a s) = T a s) ->
    (forall a, existsb (axis_eqb a) (axes nDim) = true -> (ng / 2 + 2) * (fst (n12z G a) + (if 1 <? pNx X2 then ng + 2 else 0)) * (snd (n12z G a) + (if 1 <? pNx X3 then ng + 2 else 0)) = region nDim ng oc a) ->
    fold_right Z.add 0 (map (fun a => (if T a false then (ng / 2 + 2) * (fst (n12z G a) + (if 1 <? pNx X2 then ng + 2 else 0)) * (snd (n12z G a) + (if 1 <? pNx X3 then ng + 2 else 0)) * NSLOT c else 0) +
      (if T a true then (ng / 2 + 2) * (fst (n12z G a) + (if 1 <? pNx X2 then ng + 2 else 0)) * (snd (n12z G a) + (if 1 <? pNx X3 then ng + 2 else 0)) * NSLOT c else 0)) l) =
    fold_right Z.add 0 (map (fun '(a, s) => if some (o_flx oc a s) then region nDim ng oc a * NSLOT c else 0) (flat_map (fun a => [(a, false); (a, true)]) l))).
  { induction l as [|a l IH]; intros I FX W; [reflexivity|]. cbn [map fold_right flat_map app]. rewrite IH by (auto; intros b B; apply I; right; exact B).
    assert (M : existsb (axis_eqb a) (axes nDim) = true) by (apply I; left; reflexivity). rewrite !FX, !W by exact M. ring. }
  intros FX W. apply K; auto. intros a I. apply existsb_exists. exists a. split; [exact I|apply eqb_self].
Qed.
Lemma length_slots : forall c, Z.of_nat (length (slots c)) = NSLOT c.
Proof.
  intros c. unfold slots, NSLOT, NVAR. rewrite !app_length, map_length, seq_length, !Nat2Z.inj_add. destruct (c_baro c), (c_mhd c); cbn [length]; lia.
Qed.
Lemma NSLOT_pos : forall c, 0 < NSLOT c.
Proof. intros c. unfold NSLOT. pose proof (NVAR_pos c). destruct (c_mhd c); lia. Qed.
Lemma length_upto : forall s e, 0 <= e - s + 1 -> Z.of_nat (length (upto s e)) = e - s + 1.
Proof. intros s e H. unfold upto. rewrite map_length, seq_length, Z2Nat.id; lia. Qed.
Lemma length_msg : forall c nDim ng oc gp a s, evn ng -> (forall b, 0 <= len oc b) -> (forall b, many nDim b = false -> len oc b = 1) -> many nDim a = true ->
  Z.of_nat (length (msg c nDim ng oc gp (a, s))) = if some (o_flx oc a s) then region nDim ng oc a * NSLOT c else 0.
Proof.
  intros c nDim ng oc gp a s [E0 E1] NN FT MA. unfold msg. destruct (some (o_flx oc a s)); [|reflexivity]. cbn [negb].
  rewrite map_length, length_cells2, Nat2Z.inj_mul, length_slots, length_cells3, !Nat2Z.inj_mul. unfold region. cbv zeta.
  assert (W : forall b, 0 <= ce nDim ng oc a s b - cs nDim ng oc a s b + 1 /\ ce nDim ng oc a s b - cs nDim ng oc a s b + 1 = (if many nDim b then (if axis_eqb a b then ng / 2 + 2 else len oc b + ng + 2) else 1)).
  { intros b. specialize (NN b). specialize (FT b). unfold ce, cs, len in *. destruct (many nDim b) eqn:M.
    - destruct (axis_eqb a b), s; cbn [andb negb]; Z.div_mod_to_equations; lia.
    - specialize (FT eq_refl). destruct (axis_eqb a b) eqn:AB; [apply axis_eqb_spec in AB; congruence|]. cbn [andb]. lia. }
  destruct (W X1) as (P1 & W1), (W X2) as (P2 & W2), (W X3) as (P3 & W3). rewrite !length_upto by assumption. rewrite W1, W2, W3. reflexivity.
Qed.
(** The parent writes exactly the number of doubles that both sides have recorded. *)
Theorem C72_messageP : forall ng c root nDim pa gp ch gc oc of g, aligned nDim pa gp ch gc -> 0 <= ng -> ng mod 2 = 0 ->
  cgrid ng c root nDim pa gp ch gc = Some oc -> pgrid ng c root nDim pa gp ch gc = Some of ->
  Z.of_nat (length (pack_P c nDim ng oc g)) = o_nP oc /\ Z.of_nat (length (pack_P c nDim ng oc g)) = o_nP of.
Proof.
  intros ng c root nDim pa gp ch gc oc of g AL E0 E1 HC HP.
  assert (K : Z.of_nat (length (pack_P c nDim ng oc g)) = o_nP oc).
  2:{ split; [exact K|]. rewrite K. pose proof (C72_overlap ng c root nDim pa gp ch gc AL) as O. rewrite HC, HP in O. apply O. }
  pose proof (C72_paired _ _ _ _ _ _ _ _ _ _ AL HC HP) as P. pose proof (pd_dim _ _ _ _ P) as ND.
  destruct (cgrid_nP _ _ _ _ _ _ _ _ _ AL HC) as (NN & W). unfold pack_P. destruct (Z.eqb_spec (o_nP oc) 0) as [Z|Z]; [rewrite Z; reflexivity|].
  rewrite W in Z. destruct (0 <? len oc X1 * len oc X2 * len oc X3); [|congruence]. rewrite W. clear W Z.
  change (flat_map _ (bounds nDim)) with (flat_map (msg c nDim ng oc g) (bounds nDim)).
  assert (FT : forall b, many nDim b = false -> len oc b = 1) by (intros b M; apply (pd_flat _ _ _ _ P); rewrite many_ratio by exact ND; rewrite M; reflexivity).
  assert (MA : forall a s, In (a, s) (bounds nDim) -> many nDim a = true).
  { intros a s I. assert (N : nDim = 1%nat \/ nDim = 2%nat \/ nDim = 3%nat) by lia. destruct N as [->|[->| ->]]; cbn in I; repeat (destruct I as [I|I]; [injection I as <- <-; reflexivity|]); destruct I. }
  revert MA. generalize (bounds nDim). induction l as [|[a s] l IH]; intros MA; [reflexivity|]. cbn [flat_map map fold_right]. rewrite app_length, Nat2Z.inj_add.
  rewrite IH by (intros b t I; apply (MA b t); right; exact I). rewrite length_msg; auto; [split; assumption|]. apply (MA a s). left. reflexivity.
Qed.
Print Assumptions C72_messageP.
(** A message is sent if and only if the Grids share cells and the child has a boundary of the
    refined region there. *)
Lemma nP_pos : forall ng c root nDim pa gp ch gc oc of, aligned nDim pa gp ch gc -> 0 <= ng ->
  cgrid ng c root nDim pa gp ch gc = Some oc -> pgrid ng c root nDim pa gp ch gc = Some of ->
  (0 < o_nP of <-> (forall b, 0 < len of b) /\ exists a s, some (o_flx of a s) = true) /\ 0 <= o_nP of /\ o_nP oc = o_nP of.
Proof.
  intros ng c root nDim pa gp ch gc oc of AL E0 HC HP.
  pose proof (C72_overlap ng c root nDim pa gp ch gc AL) as O. rewrite HC, HP in O. destruct O as (_ & EQ & _).
  pose proof (C72_paired _ _ _ _ _ _ _ _ _ _ AL HC HP) as P. pose proof (pd_dim _ _ _ _ P) as ND.
  destruct (cgrid_nP _ _ _ _ _ _ _ _ _ AL HC) as (NN & W).
  assert (LL : forall b, 0 < len of b <-> 0 < len oc b).
  { intros b. destruct (pd_len _ _ _ _ P b) as (L & _). rewrite many_ratio in L by exact ND. destruct (many nDim b); lia. }
  pose proof (NN X1). pose proof (NN X2). pose proof (NN X3). pose proof (NSLOT_pos c) as SP.
  assert (RP : forall a, 0 < region nDim ng oc a).
  { intros a. unfold region. cbv zeta. assert (Z : forall b, 0 < (if many nDim b then (if axis_eqb a b then ng / 2 + 2 else len oc b + ng + 2) else 1)).
    { intros b. specialize (NN b). destruct (many nDim b), (axis_eqb a b); Z.div_mod_to_equations; lia. }
    apply Z.mul_pos_pos; [apply Z.mul_pos_pos|]; apply Z. }
  assert (SUM : forall l, 0 <= fold_right Z.add 0 (map (fun '(a, s) => if some (o_flx oc a s) then region nDim ng oc a * NSLOT c else 0) l) /\
     (0 < fold_right Z.add 0 (map (fun '(a, s) => if some (o_flx oc a s) then region nDim ng oc a * NSLOT c else 0) l) <-> exists a s, In (a, s) l /\ some (o_flx oc a s) = true)).
  { induction l as [|[a s] l (IH1 & IH2)]; [split; [cbn; lia|split; [cbn; lia|intros (a & s & [] & _)]]|]. cbn [map fold_right].
    specialize (RP a). assert (0 < region nDim ng oc a * NSLOT c) by (apply Z.mul_pos_pos; assumption). destruct (some (o_flx oc a s)) eqn:F.
    - split; [lia|]. split; [|lia]. intros _. exists a, s. split; [left; reflexivity|exact F].
    - split; [lia|]. rewrite Z.add_0_l, IH2. split; intros (b & t & I & Q); exists b, t; [auto with datatypes|]. destruct I as [I|I]; [injection I as -> ->; congruence|auto]. }
  destruct (SUM (bounds nDim)) as (S1 & S2). rewrite <- EQ, W. split; [|split; [destruct (0 <? _); lia|reflexivity]].
  destruct (Z.ltb_spec 0 (len oc X1 * len oc X2 * len oc X3)) as [V|V].
  - rewrite S2. split.
    + intros (a & s & _ & F). split; [intros b; apply LL; destruct b; nia|]. exists a, s. rewrite (some_flags oc of a s (pd_flags _ _ _ _ P)). exact F.
    + intros (_ & a & s & F). exists a, s. split; [|rewrite <- (some_flags oc of a s (pd_flags _ _ _ _ P)); exact F]. apply (in_bounds c nDim oc of P). apply (flagm c nDim oc of P a s F).
  - split; [lia|]. intros (Q & _). pose proof (proj1 (LL X1) (Q X1)). pose proof (proj1 (LL X2) (Q X2)). pose proof (proj1 (LL X3) (Q X3)).
    assert (0 < len oc X1 * len oc X2 * len oc X3) by (apply Z.mul_pos_pos; [apply Z.mul_pos_pos|]; assumption). lia.
Qed.
