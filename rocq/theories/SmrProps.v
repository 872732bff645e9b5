(** * RestrictCorrect: averages and corrections (C42) *)
From Coq Require Import Reals ZArith Bool Arith Lia Lra ZifyBool List.
From Verif Require Import CStr MeshModel SmrModel SmrOverlap SmrFacts.
Import ListNotations.
Open Scope Z_scope.

(** ** Specification *)
(** The fine indices, along an axis, of the coarse index that is [n] after the first one of
    the overlap: the two (or along axes with one cell, the one) from [s] + ratio * [n] on. *)
Definition cover (nDim : nat) (s : Z) (a : axis) (n : Z) : list Z :=
  upto (s + ratio nDim a * n) (s + ratio nDim a * n + ratio nDim a - 1).
Local Open Scope R_scope.
Definition mean (l : list R) : R := fold_right Rplus 0 l / INR (length l).
(** The average of the fine cells in a coarse cell; cells are counted from the beginning of
    the overlap. *)
Definition avgU (nDim : nat) (of : ovl) (g : gst) (p : Z * Z * Z) (v : var) : R :=
  let '(kk, jj, ii) := p in
  mean (map (fun q => at3 (gU g) q v) (cells3 (cover nDim (o_s of X3) X3 kk) (cover nDim (o_s of X2) X2 jj) (cover nDim (o_s of X1) X1 ii))).
(** The average of the fine faces in a coarse face. *)
Definition avgB1 (nDim : nat) (of : ovl) (B : Z -> Z -> Z -> R) (kk jj ii : Z) : R :=
  mean (map (at3 B) (cells3 (cover nDim (o_s of X3) X3 kk) (cover nDim (o_s of X2) X2 jj) [(o_s of X1 + ratio nDim X1 * ii)%Z])).
Definition avgB2 (nDim : nat) (of : ovl) (B : Z -> Z -> Z -> R) (kk jj ii : Z) : R :=
  mean (map (at3 B) (cells3 (cover nDim (o_s of X3) X3 kk) [(o_s of X2 + ratio nDim X2 * jj)%Z] (cover nDim (o_s of X1) X1 ii))).
Definition avgB3 (nDim : nat) (of : ovl) (B : Z -> Z -> Z -> R) (kk jj ii : Z) : R :=
  mean (map (at3 B) (cells3 [(o_s of X3 + ratio nDim X3 * kk)%Z] (cover nDim (o_s of X2) X2 jj) (cover nDim (o_s of X1) X1 ii))).
(** The average of the stored fine fluxes in a coarse face. *)
Definition avgF (nDim : nat) (b1 b2 : axis) (F : Z -> Z -> var -> R) (p : Z * Z) (v : var) : R :=
  mean (map (fun '(x, y) => F x y v) (cells2 (cover nDim 0 b1 (fst p)) (cover nDim 0 b2 (snd p)))).
(** The average of the stored fine EMFs along a coarse edge in direction [a]; [b] is the other
    direction in the face. *)
Definition avgE_fast (nDim : nat) (b a : axis) (E : Z -> Z -> R) (x y : Z) : R :=
  mean (map (fun n => E (ratio nDim b * x)%Z n) (cover nDim 0 a y)).
Definition avgE_slow (nDim : nat) (a b : axis) (E : Z -> Z -> R) (x y : Z) : R :=
  mean (map (fun n => E n (ratio nDim b * y)%Z) (cover nDim 0 a x)).

(** Two entries that belong together; [C72_paired] shows that those made by init_grid do. *)
Record paired (c : cfg) (nDim : nat) (oc of : ovl) : Prop := Paired {
  pd_dim : (1 <= nDim <= 3)%nat;
  pd_len : forall a, len of a = (ratio nDim a * len oc a)%Z /\ (0 <= len oc a)%Z;
  pd_flat : forall a, ratio nDim a = 1%Z -> len oc a = 1%Z /\ o_s of a = 0%Z /\ o_s oc a = 0%Z;
  pd_flags : flags oc of;
  pd_flx : forall a s, ratio nDim a = 1%Z -> o_flx oc a s = None;
  pd_emf12 : (nDim < 2)%nat -> forall a s, o_emf1 oc a s = None /\ o_emf2 oc a s = None /\ o_emf3 oc a s = None;
  pd_emf3 : (nDim < 3)%nat -> forall s, o_emf1 oc X3 s = None;
  pd_same : (2 <= nDim)%nat -> c_mhd c = true -> forall s, some (o_emf3 oc X1 s) = some (o_flx oc X1 s) /\ some (o_emf3 oc X2 s) = some (o_flx oc X2 s) /\ some (o_emf1 oc X3 s) = some (o_flx oc X3 s);
  pd_hyd : c_mhd c = false -> forall a s, o_emf1 oc a s = None /\ o_emf2 oc a s = None /\ o_emf3 oc a s = None;
  pd_emf2 : nDim = 3%nat -> c_mhd c = true -> forall s, some (o_emf2 oc X1 s) = some (o_flx oc X1 s) /\ some (o_emf1 oc X2 s) = some (o_flx oc X2 s) /\ some (o_emf2 oc X3 s) = some (o_flx oc X3 s);
  pd_tr : forall a s b, some (o_flx oc a s) = true -> b <> a -> (0 < len oc b)%Z;
  pd_one : forall a, len oc a = 0%Z -> some (o_flx oc a false) && some (o_flx oc a true) = false;
}.
(** The overlap is not one coarse cell wide. *)
Definition wide (c : cfg) (nDim : nat) (oc : ovl) : Prop :=
  c_mhd c = true -> (2 <= nDim)%nat -> forall a, ratio nDim a = 2%Z -> len oc a <> 1%Z.
Definition inside (o : ovl) (k j i : Z) : Prop :=
  ((o_s o X3 <= k <= o_e o X3) /\ (o_s o X2 <= j <= o_e o X2) /\ (o_s o X1 <= i <= o_e o X1))%Z.

(** ** Messages as lists of averages *)
Lemma cover2 : forall nDim s a n, ratio nDim a = 2%Z -> cover nDim s a n = [s + 2 * n; s + 2 * n + 1]%Z.
Proof.
  intros nDim s a n H. unfold cover. rewrite H. rewrite upto_cons by lia. rewrite upto_cons by lia. rewrite upto_nil by lia. reflexivity.
Qed.
Lemma cover1 : forall nDim s a n, ratio nDim a = 1%Z -> cover nDim s a n = [s + n]%Z.
Proof.
  intros nDim s a n H. unfold cover. rewrite H. rewrite upto_cons by lia. rewrite upto_nil by lia. f_equal. lia.
Qed.
Lemma ratio_cases : forall nDim, (1 <= nDim <= 3)%nat ->
  (nDim = 1%nat /\ ratio nDim X1 = 2 /\ ratio nDim X2 = 1 /\ ratio nDim X3 = 1)%Z \/
  (nDim = 2%nat /\ ratio nDim X1 = 2 /\ ratio nDim X2 = 2 /\ ratio nDim X3 = 1)%Z \/
  (nDim = 3%nat /\ ratio nDim X1 = 2 /\ ratio nDim X2 = 2 /\ ratio nDim X3 = 2)%Z.
Proof.
  intros n H. assert (n = 1 \/ n = 2 \/ n = 3)%nat by lia. destruct H0 as [->|[->| ->]]; cbn; tauto.
Qed.
Lemma map_ext_cells : forall {A : Type} (f g : A -> R) l, (forall x, f x = g x) -> map f l = map g l.
Proof. intros. apply map_ext. auto. Qed.

Definition n_of (oc : ovl) : Z * Z * Z := (len oc X3, len oc X2, len oc X1).
Definition base3 (oc : ovl) : list (Z * Z * Z) := cells3 (offs (len oc X3)) (offs (len oc X2)) (offs (len oc X1)).

Lemma upto2_2 : forall nDim oc of a, ratio nDim a = 2%Z -> len of a = (ratio nDim a * len oc a)%Z -> (0 <= len oc a)%Z ->
  upto2 (o_s of a) (o_e of a) = map (fun x => o_s of a + 2 * x)%Z (offs (len oc a)) /\
  upto2 (o_s of a) (o_e of a + 1) = map (fun x => o_s of a + 2 * x)%Z (offs (len oc a + 1)) /\
  upto2 0 (o_e of a - o_s of a) = map (fun x => 2 * x)%Z (offs (len oc a)) /\
  upto2 0 (o_e of a - o_s of a + 1) = map (fun x => 2 * x)%Z (offs (len oc a + 1)).
Proof.
  intros nDim oc of a Q L N. rewrite Q in L. unfold len in *.
  split; [apply upto2_offs; lia|]. split; [apply upto2_offs; lia|].
  split; (etransitivity; [apply upto2_offs|]); try (apply map_ext; intros; ring); lia.
Qed.
Lemma upto2_1 : forall nDim oc of a, ratio nDim a = 1%Z -> len of a = (ratio nDim a * len oc a)%Z -> len oc a = 1%Z ->
  upto2 (o_s of a) (o_e of a) = map (fun x => o_s of a + x)%Z (offs (len oc a)) /\
  upto2 0 (o_e of a - o_s of a) = map (fun x => x)%Z (offs (len oc a)).
Proof.
  intros nDim oc of a Q L N. rewrite Q, N in L. rewrite N. unfold len in *. replace (o_e of a) with (o_s of a) by lia.
  unfold upto2. rewrite !Z.sub_diag. cbn. auto.
Qed.

Ltac dims P :=
  let D := fresh "D" in let L1 := fresh "L1" in let L2 := fresh "L2" in let L3 := fresh "L3" in
  let F1 := fresh "F1" in let F2 := fresh "F2" in let F3 := fresh "F3" in
  let N1 := fresh "N1" in let N2 := fresh "N2" in let N3 := fresh "N3" in
  pose proof (pd_dim _ _ _ _ P) as D; pose proof (pd_len _ _ _ _ P X1) as [L1 N1]; pose proof (pd_len _ _ _ _ P X2) as [L2 N2]; pose proof (pd_len _ _ _ _ P X3) as [L3 N3];
  pose proof (pd_flat _ _ _ _ P X1) as F1; pose proof (pd_flat _ _ _ _ P X2) as F2; pose proof (pd_flat _ _ _ _ P X3) as F3.

Lemma len_vars_nat : forall c, length (vars c) = Z.to_nat (NVAR c).
Proof. intros c. rewrite <- length_vars. lia. Qed.
Lemma NVAR_pos : forall c, (0 < NVAR c)%Z.
Proof. intros c. unfold NVAR. destruct (c_baro c), (c_mhd c); lia. Qed.

Lemma pack_cons_eq : forall c nDim oc of g, paired c nDim oc of ->
  pack_cons c nDim of g = map (fun '(p, v) => avgU nDim of g p v) (cells2 (base3 oc) (vars c)).
Proof.
  intros c nDim oc of g P. dims P. pose proof (NVAR_pos c) as NV. unfold pack_cons. cbv zeta.
  destruct (ratio_cases nDim D) as [(-> & R1 & R2 & R3)|[(-> & R1 & R2 & R3)|(-> & R1 & R2 & R3)]]; cbn [Nat.leb].
  - destruct (upto2_2 _ _ _ _ R1 L1 N1) as (-> & _). destruct (F2 R2) as (E2 & _). destruct (F3 R3) as (E3 & _).
    destruct (upto2_1 _ _ _ _ R2 L2 E2) as (-> & _). destruct (upto2_1 _ _ _ _ R3 L3 E3) as (-> & _).
    rewrite cells3_map, cells2_map_l, !map_map. fold (base3 oc).
    rewrite scale_all.
    + rewrite map_map. apply map_ext. intros [[[kk jj] ii] v]. cbn [fst snd]. unfold avgU.
      rewrite (cover2 1 _ X1), (cover1 1 _ X2), (cover1 1 _ X3) by assumption. unfold mean. cbn. field.
    + rewrite map_length, length_cells2, len_vars_nat. unfold base3. rewrite length_cells3, !length_offs.
      replace (o_e of X1 - o_s of X1 + 1)%Z with (len of X1) by reflexivity. rewrite L1, R1, E2, E3.
      replace (2 * len oc X1 * NVAR c)%Z with ((len oc X1 * NVAR c) * 2)%Z by ring. rewrite Z.div_mul by lia. nia.
  - destruct (upto2_2 _ _ _ _ R1 L1 N1) as (-> & _). destruct (upto2_2 _ _ _ _ R2 L2 N2) as (-> & _). destruct (F3 R3) as (E3 & _).
    destruct (upto2_1 _ _ _ _ R3 L3 E3) as (-> & _).
    rewrite cells3_map, cells2_map_l, !map_map, addl_map. fold (base3 oc).
    rewrite scale_all.
    + rewrite map_map. apply map_ext. intros [[[kk jj] ii] v]. cbn [fst snd]. unfold avgU.
      rewrite (cover2 2 _ X1), (cover2 2 _ X2), (cover1 2 _ X3) by assumption. unfold mean. cbn. field.
    + rewrite map_length, length_cells2, len_vars_nat. unfold base3. rewrite length_cells3, !length_offs.
      replace (o_e of X1 - o_s of X1 + 1)%Z with (len of X1) by reflexivity. replace (o_e of X2 - o_s of X2 + 1)%Z with (len of X2) by reflexivity. rewrite L1, R1, L2, R2, E3.
      replace (2 * len oc X2 * (2 * len oc X1) * NVAR c)%Z with ((len oc X2 * len oc X1 * NVAR c) * 4)%Z by ring. rewrite Z.div_mul by lia. nia.
  - destruct (upto2_2 _ _ _ _ R1 L1 N1) as (-> & _). destruct (upto2_2 _ _ _ _ R2 L2 N2) as (-> & _). destruct (upto2_2 _ _ _ _ R3 L3 N3) as (-> & _).
    rewrite cells3_map, cells2_map_l, !map_map, !addl_map. fold (base3 oc).
    rewrite scale_all.
    + rewrite map_map. apply map_ext. intros [[[kk jj] ii] v]. cbn [fst snd]. unfold avgU.
      rewrite (cover2 3 _ X1), (cover2 3 _ X2), (cover2 3 _ X3) by assumption. unfold mean. cbn. field.
    + rewrite map_length, length_cells2, len_vars_nat. unfold base3. rewrite length_cells3, !length_offs.
      replace (o_e of X1 - o_s of X1 + 1)%Z with (len of X1) by reflexivity. replace (o_e of X2 - o_s of X2 + 1)%Z with (len of X2) by reflexivity.
      replace (o_e of X3 - o_s of X3 + 1)%Z with (len of X3) by reflexivity. rewrite L1, R1, L2, R2, L3, R3.
      replace (2 * len oc X3 * (2 * len oc X2) * (2 * len oc X1) * NVAR c)%Z with ((len oc X3 * len oc X2 * len oc X1 * NVAR c) * 8)%Z by ring. rewrite Z.div_mul by lia. nia.
Qed.

(** The face-centred fields. *)
Definition base (n3 n2 n1 : Z) : list (Z * Z * Z) := cells3 (offs n3) (offs n2) (offs n1).
Definition pk1 (nDim : nat) (oc of : ovl) (B : Z -> Z -> Z -> R) : list R :=
  if (len oc X1 =? 0)%Z then [] else map (fun '(kk, jj, ii) => avgB1 nDim of B kk jj ii) (base (len oc X3) (len oc X2) (len oc X1 + 1)).
Definition pk2 (nDim : nat) (oc of : ovl) (B : Z -> Z -> Z -> R) : list R :=
  if (len oc X2 =? 0)%Z then [] else map (fun '(kk, jj, ii) => avgB2 nDim of B kk jj ii) (base (len oc X3) (len oc X2 + 1) (len oc X1)).
Definition pk3 (nDim : nat) (oc of : ovl) (B : Z -> Z -> Z -> R) : list R :=
  if (len oc X3 =? 0)%Z then [] else map (fun '(kk, jj, ii) => avgB3 nDim of B kk jj ii) (base (len oc X3 + 1) (len oc X2) (len oc X1)).
Lemma cells3_one : forall k J I (f : Z * Z * Z -> R), map f (cells3 [k] J I) = map (fun '(j, i) => f (k, j, i)) (cells2 J I).
Proof.
  intros. unfold cells3. change (cells2 [k] J) with (map (fun q => (k, q)) J ++ []). rewrite app_nil_r, cells2_map_l, map_map. apply map_ext. intros [j i]. reflexivity.
Qed.
Lemma pack_fld_eq : forall c nDim oc of g, paired c nDim oc of -> (2 <= nDim)%nat ->
  pack_fld nDim of g = pk1 nDim oc of (gB1 g) ++ pk2 nDim oc of (gB2 g) ++ (if (nDim =? 3)%nat then pk3 nDim oc of (gB3 g) else []).
Proof.
  intros c nDim oc of g P TD. dims P. unfold pack_fld, pk1, pk2, pk3, base. cbv zeta.
  assert (T : forall a, ratio nDim a = 2%Z -> (o_s of a <? o_e of a)%Z = negb (len oc a =? 0)%Z).
  { intros a Q. destruct (pd_len _ _ _ _ P a) as [L N]. rewrite Q in L. unfold len in *. lia. }
  destruct (ratio_cases nDim D) as [(-> & R1 & R2 & R3)|[(-> & R1 & R2 & R3)|(-> & R1 & R2 & R3)]]; [lia| |]; cbn [Nat.eqb].
  - rewrite !T by assumption. rewrite app_nil_r.
    destruct (upto2_2 _ _ _ _ R1 L1 N1) as (A1 & A2 & _). destruct (upto2_2 _ _ _ _ R2 L2 N2) as (B1 & B2 & _). destruct (F3 R3) as (E3 & Z3 & _).
    rewrite A1, A2, B1, B2, E3. change (offs 1) with [0%Z].
    f_equal.
    + destruct (len oc X1 =? 0)%Z; [reflexivity|]. cbn [negb]. rewrite cells2_map, map_map, cells3_one. apply map_ext. intros [jj ii]. cbn [fst snd].
      unfold avgB1. rewrite (cover2 2 _ X2), (cover1 2 _ X3), R1 by assumption. unfold mean. cbn [cells3 cells2 flat_map map app at3 length fold_right]. rewrite Z3. cbn. field.
    + destruct (len oc X2 =? 0)%Z; [reflexivity|]. cbn [negb]. rewrite cells2_map, map_map, cells3_one. apply map_ext. intros [jj ii]. cbn [fst snd].
      unfold avgB2. rewrite (cover2 2 _ X1), (cover1 2 _ X3), R2 by assumption. unfold mean. cbn [cells3 cells2 flat_map map app at3 length fold_right]. rewrite Z3. cbn. field.
  - rewrite !T by assumption.
    destruct (upto2_2 _ _ _ _ R1 L1 N1) as (A1 & A2 & _). destruct (upto2_2 _ _ _ _ R2 L2 N2) as (B1 & B2 & _). destruct (upto2_2 _ _ _ _ R3 L3 N3) as (C1 & C2 & _).
    rewrite A1, A2, B1, B2, C1, C2.
    f_equal; [|f_equal].
    + destruct (len oc X1 =? 0)%Z; [reflexivity|]. cbn [negb]. rewrite cells3_map, map_map. apply map_ext. intros [[kk jj] ii].
      unfold avgB1. rewrite (cover2 3 _ X2), (cover2 3 _ X3), R1 by assumption. unfold mean. cbn. field.
    + destruct (len oc X2 =? 0)%Z; [reflexivity|]. cbn [negb]. rewrite cells3_map, map_map. apply map_ext. intros [[kk jj] ii].
      unfold avgB2. rewrite (cover2 3 _ X1), (cover2 3 _ X3), R2 by assumption. unfold mean. cbn. field.
    + destruct (len oc X3 =? 0)%Z; [reflexivity|]. cbn [negb]. rewrite cells3_map, map_map. apply map_ext. intros [[kk jj] ii].
      unfold avgB3. rewrite (cover2 3 _ X1), (cover2 3 _ X2), R3 by assumption. unfold mean. cbn. field.
Qed.

(** The fluxes. *)
Lemma some_flags : forall oc of a s, flags oc of -> some (o_flx of a s) = some (o_flx oc a s).
Proof. intros oc of a s F. symmetry. apply F. Qed.
Lemma none_some : forall {A : Type} (o : option A), o = None -> some o = false.
Proof. intros A o ->. reflexivity. Qed.
Definition flxs (c : cfg) (nDim : nat) (oc : ovl) (F : Z -> Z -> var -> R) (a b1 b2 : axis) (s : bool) : list R :=
  if some (o_flx oc a s) then map (fun '(p, v) => avgF nDim b1 b2 F p v) (cells2 (cells2 (offs (len oc b1)) (offs (len oc b2))) (vars c)) else [].
Lemma pack_flx1_eq : forall c nDim oc of f s, paired c nDim oc of -> pack_flx1 c nDim of f s = flxs c nDim oc (f_flx f X1 s) X1 X3 X2 s.
Proof.
  intros c nDim oc of f s P. dims P. unfold pack_flx1, flxs. cbv zeta. rewrite (some_flags _ _ _ _ (pd_flags _ _ _ _ P)).
  pose proof (NVAR_pos c) as NV.
  destruct (some (o_flx oc X1 s)); [|reflexivity]. cbn [negb].
  destruct (ratio_cases nDim D) as [(-> & R1 & R2 & R3)|[(-> & R1 & R2 & R3)|(-> & R1 & R2 & R3)]]; cbn [Nat.eqb].
  - destruct (F2 R2) as (E2 & Z2 & _). destruct (F3 R3) as (E3 & Z3 & _). rewrite E2, E3, Z2, Z3. change (offs 1) with [0%Z].
    unfold cells2 at 1. cbn [flat_map]. cbn [cells2 flat_map map app]. rewrite app_nil_r, map_map. apply map_ext. intros v. cbn [fst snd].
    unfold avgF. cbn [fst snd]. rewrite (cover1 1 _ X2), (cover1 1 _ X3) by assumption. unfold mean. cbn. field.
  - destruct (upto2_2 _ _ _ _ R2 L2 N2) as (_ & _ & -> & _). destruct (F3 R3) as (E3 & Z3 & _). destruct (upto2_1 _ _ _ _ R3 L3 E3) as (_ & ->).
    rewrite cells2_map, cells2_map_l, !map_map. rewrite scale_all.
    + rewrite map_map. apply map_ext. intros [[kk jj] v]. cbn [fst snd]. unfold avgF. cbn [fst snd]. rewrite (cover2 2 _ X2), (cover1 2 _ X3) by assumption. unfold mean. cbn. field.
    + rewrite map_length, !length_cells2, !length_offs, len_vars_nat.
      replace (o_e of X2 - o_s of X2 + 1)%Z with (len of X2) by reflexivity. rewrite L2, R2, E3. replace (2 * len oc X2)%Z with (len oc X2 * 2)%Z by ring. rewrite Z.div_mul by lia. nia.
  - destruct (upto2_2 _ _ _ _ R2 L2 N2) as (_ & _ & -> & _). destruct (upto2_2 _ _ _ _ R3 L3 N3) as (_ & _ & -> & _).
    rewrite cells2_map, cells2_map_l, !map_map, addl_map. rewrite scale_all.
    + rewrite map_map. apply map_ext. intros [[kk jj] v]. cbn [fst snd]. unfold avgF. cbn [fst snd]. rewrite (cover2 3 _ X2), (cover2 3 _ X3) by assumption. unfold mean. cbn. field.
    + rewrite map_length, !length_cells2, !length_offs, len_vars_nat.
      replace (o_e of X2 - o_s of X2 + 1)%Z with (len of X2) by reflexivity. replace (o_e of X3 - o_s of X3 + 1)%Z with (len of X3) by reflexivity.
      rewrite L2, R2, L3, R3. replace (2 * len oc X3 * (2 * len oc X2))%Z with (len oc X3 * len oc X2 * 4)%Z by ring. rewrite Z.div_mul by lia. nia.
Qed.
Lemma pack_flx2_eq : forall c nDim oc of f s, paired c nDim oc of -> pack_flx2 c nDim of f s = flxs c nDim oc (f_flx f X2 s) X2 X3 X1 s.
Proof.
  intros c nDim oc of f s P. dims P. unfold pack_flx2, flxs. cbv zeta. rewrite (some_flags _ _ _ _ (pd_flags _ _ _ _ P)).
  pose proof (NVAR_pos c) as NV.
  destruct (ratio_cases nDim D) as [(-> & R1 & R2 & R3)|[(-> & R1 & R2 & R3)|(-> & R1 & R2 & R3)]]; cbn [Nat.eqb].
  - rewrite (none_some _ (pd_flx _ _ _ _ P X2 s R2)). reflexivity.
  - destruct (some (o_flx oc X2 s)); [|reflexivity]. cbn [negb].
    destruct (upto2_2 _ _ _ _ R1 L1 N1) as (_ & _ & -> & _). destruct (F3 R3) as (E3 & Z3 & _). destruct (upto2_1 _ _ _ _ R3 L3 E3) as (_ & ->).
    rewrite cells2_map, cells2_map_l, !map_map. rewrite scale_all.
    + rewrite map_map. apply map_ext. intros [[kk jj] v]. cbn [fst snd]. unfold avgF. cbn [fst snd]. rewrite (cover2 2 _ X1), (cover1 2 _ X3) by assumption. unfold mean. cbn. field.
    + rewrite map_length, !length_cells2, !length_offs, len_vars_nat.
      replace (o_e of X1 - o_s of X1 + 1)%Z with (len of X1) by reflexivity. rewrite L1, R1, E3. replace (2 * len oc X1)%Z with (len oc X1 * 2)%Z by ring. rewrite Z.div_mul by lia. nia.
  - destruct (some (o_flx oc X2 s)); [|reflexivity]. cbn [negb].
    destruct (upto2_2 _ _ _ _ R1 L1 N1) as (_ & _ & -> & _). destruct (upto2_2 _ _ _ _ R3 L3 N3) as (_ & _ & -> & _).
    rewrite cells2_map, cells2_map_l, !map_map, addl_map. rewrite scale_all.
    + rewrite map_map. apply map_ext. intros [[kk jj] v]. cbn [fst snd]. unfold avgF. cbn [fst snd]. rewrite (cover2 3 _ X1), (cover2 3 _ X3) by assumption. unfold mean. cbn. field.
    + rewrite map_length, !length_cells2, !length_offs, len_vars_nat.
      replace (o_e of X1 - o_s of X1 + 1)%Z with (len of X1) by reflexivity. replace (o_e of X3 - o_s of X3 + 1)%Z with (len of X3) by reflexivity.
      rewrite L1, R1, L3, R3. replace (2 * len oc X3 * (2 * len oc X1))%Z with (len oc X3 * len oc X1 * 4)%Z by ring. rewrite Z.div_mul by lia. nia.
Qed.
Lemma pack_flx3_eq : forall c nDim oc of f s, paired c nDim oc of -> pack_flx3 c of f s = flxs c nDim oc (f_flx f X3 s) X3 X2 X1 s.
Proof.
  intros c nDim oc of f s P. dims P. unfold pack_flx3, flxs. cbv zeta. rewrite (some_flags _ _ _ _ (pd_flags _ _ _ _ P)).
  pose proof (NVAR_pos c) as NV.
  destruct (ratio_cases nDim D) as [(-> & R1 & R2 & R3)|[(-> & R1 & R2 & R3)|(-> & R1 & R2 & R3)]].
  - rewrite (none_some _ (pd_flx _ _ _ _ P X3 s R3)). reflexivity.
  - rewrite (none_some _ (pd_flx _ _ _ _ P X3 s R3)). reflexivity.
  - destruct (some (o_flx oc X3 s)); [|reflexivity]. cbn [negb].
    destruct (upto2_2 _ _ _ _ R1 L1 N1) as (_ & _ & -> & _). destruct (upto2_2 _ _ _ _ R2 L2 N2) as (_ & _ & -> & _).
    rewrite cells2_map, cells2_map_l, !map_map, addl_map. rewrite scale_all.
    + rewrite map_map. apply map_ext. intros [[kk jj] v]. cbn [fst snd]. unfold avgF. cbn [fst snd]. rewrite (cover2 3 _ X1), (cover2 3 _ X2) by assumption. unfold mean. cbn. field.
    + rewrite map_length, !length_cells2, !length_offs, len_vars_nat.
      replace (o_e of X1 - o_s of X1 + 1)%Z with (len of X1) by reflexivity. replace (o_e of X2 - o_s of X2 + 1)%Z with (len of X2) by reflexivity.
      rewrite L1, R1, L2, R2. replace (2 * len oc X2 * (2 * len oc X1))%Z with (len oc X2 * len oc X1 * 4)%Z by ring. rewrite Z.div_mul by lia. nia.
Qed.

(** The EMFs. *)
Definition emfl (h : Z -> Z -> R) (n2 n1 : Z) : list R := map (fun '(x, y) => h x y) (cells2 (offs n2) (offs n1)).
Lemma pack_emf1_eq : forall c nDim oc of f s, paired c nDim oc of -> (2 <= nDim)%nat ->
  pack_emf1 nDim of f s =
  if some (o_emf3 oc X1 s) then
    emfl (avgE_slow nDim X3 X2 (f_emf3 f X1 s)) (len oc X3) (len oc X2 + 1) ++
    (if (nDim =? 3)%nat then emfl (avgE_fast nDim X3 X2 (f_emf2 f X1 s)) (len oc X3 + 1) (len oc X2) else [])
  else [].
Proof.
  intros c nDim oc of f s P TD. dims P. unfold pack_emf1, emfl. cbv zeta.
  replace (some (o_emf3 of X1 s)) with (some (o_emf3 oc X1 s)) by apply (pd_flags _ _ _ _ P).
  destruct (some (o_emf3 oc X1 s)); [|reflexivity]. cbn [negb].
  destruct (ratio_cases nDim D) as [(-> & R1 & R2 & R3)|[(-> & R1 & R2 & R3)|(-> & R1 & R2 & R3)]]; [lia| |]; cbn [Nat.eqb negb].
  - destruct (upto2_2 _ _ _ _ R2 L2 N2) as (_ & _ & _ & ->). destruct (F3 R3) as (E3 & Z3 & _). destruct (upto2_1 _ _ _ _ R3 L3 E3) as (_ & ->).
    rewrite cells2_map, map_map, app_nil_r. apply map_ext. intros [kk jj]. cbn [fst snd]. unfold avgE_slow. rewrite (cover1 2 _ X3), R2 by assumption. unfold mean. cbn. field.
  - destruct (upto2_2 _ _ _ _ R2 L2 N2) as (_ & _ & -> & ->). destruct (upto2_2 _ _ _ _ R3 L3 N3) as (_ & _ & -> & ->).
    rewrite !cells2_map, !map_map. f_equal; apply map_ext; intros [kk jj]; cbn [fst snd].
    + unfold avgE_slow. rewrite (cover2 3 _ X3), R2 by assumption. unfold mean. cbn. field.
    + unfold avgE_fast. rewrite (cover2 3 _ X2), R3 by assumption. unfold mean. cbn. field.
Qed.
Lemma pack_emf2_eq : forall c nDim oc of f s, paired c nDim oc of -> (2 <= nDim)%nat ->
  pack_emf2 nDim of f s =
  if some (o_emf3 oc X2 s) then
    emfl (avgE_slow nDim X3 X1 (f_emf3 f X2 s)) (len oc X3) (len oc X1 + 1) ++
    (if (nDim =? 3)%nat then emfl (avgE_fast nDim X3 X1 (f_emf1 f X2 s)) (len oc X3 + 1) (len oc X1) else [])
  else [].
Proof.
  intros c nDim oc of f s P TD. dims P. unfold pack_emf2, emfl. cbv zeta.
  replace (some (o_emf3 of X2 s)) with (some (o_emf3 oc X2 s)) by apply (pd_flags _ _ _ _ P).
  destruct (some (o_emf3 oc X2 s)); [|reflexivity]. cbn [negb].
  destruct (ratio_cases nDim D) as [(-> & R1 & R2 & R3)|[(-> & R1 & R2 & R3)|(-> & R1 & R2 & R3)]]; [lia| |]; cbn [Nat.eqb negb].
  - destruct (upto2_2 _ _ _ _ R1 L1 N1) as (_ & _ & _ & ->). destruct (F3 R3) as (E3 & Z3 & _). destruct (upto2_1 _ _ _ _ R3 L3 E3) as (_ & ->).
    rewrite cells2_map, map_map, app_nil_r. apply map_ext. intros [kk jj]. cbn [fst snd]. unfold avgE_slow. rewrite (cover1 2 _ X3), R1 by assumption. unfold mean. cbn. field.
  - destruct (upto2_2 _ _ _ _ R1 L1 N1) as (_ & _ & -> & ->). destruct (upto2_2 _ _ _ _ R3 L3 N3) as (_ & _ & -> & ->).
    rewrite !cells2_map, !map_map. f_equal; apply map_ext; intros [kk jj]; cbn [fst snd].
    + unfold avgE_slow. rewrite (cover2 3 _ X3), R1 by assumption. unfold mean. cbn. field.
    + unfold avgE_fast. rewrite (cover2 3 _ X1), R3 by assumption. unfold mean. cbn. field.
Qed.
Lemma pack_emf3_eq : forall c nDim oc of f s, paired c nDim oc of -> (2 <= nDim)%nat ->
  pack_emf3 of f s =
  if some (o_emf1 oc X3 s) then
    emfl (avgE_fast nDim X2 X1 (f_emf1 f X3 s)) (len oc X2 + 1) (len oc X1) ++ emfl (avgE_slow nDim X2 X1 (f_emf2 f X3 s)) (len oc X2) (len oc X1 + 1)
  else [].
Proof.
  intros c nDim oc of f s P TD. dims P. unfold pack_emf3, emfl. cbv zeta.
  replace (some (o_emf1 of X3 s)) with (some (o_emf1 oc X3 s)) by apply (pd_flags _ _ _ _ P).
  destruct (ratio_cases nDim D) as [(-> & R1 & R2 & R3)|[(-> & R1 & R2 & R3)|(-> & R1 & R2 & R3)]]; [lia| |].
  - rewrite (none_some _ (pd_emf3 _ _ _ _ P ltac:(lia) s)). reflexivity.
  - destruct (some (o_emf1 oc X3 s)); [|reflexivity]. cbn [negb].
    destruct (upto2_2 _ _ _ _ R1 L1 N1) as (_ & _ & -> & ->). destruct (upto2_2 _ _ _ _ R2 L2 N2) as (_ & _ & -> & ->).
    rewrite !cells2_map, !map_map. f_equal; apply map_ext; intros [kk jj]; cbn [fst snd].
    + unfold avgE_fast. rewrite (cover2 3 _ X1), R2 by assumption. unfold mean. cbn. field.
    + unfold avgE_slow. rewrite (cover2 3 _ X2), R1 by assumption. unfold mean. cbn. field.
Qed.
