(** Deposits along one axis: the sum over all Grids has at most three terms for a cell. *)
From Coq Require Import ZArith Reals List Bool Lia Lra.
From Verif Require Import Loop BvalsModel BvalsSpec BvalsParModel BvalsParProps IntegSpec IntegFacts SumFacts GravFacts ExchSpec.
Import ListNotations.
Open Scope Z_scope.

Lemma lsum_zero : forall A (L : list A) f, (forall x, In x L -> f x = 0%R) -> lsum L f = 0%R.
Proof. intros A L f. induction L as [|a L IH]; intros H; [reflexivity|]. rewrite lsum_cons, H by (left; auto). rewrite IH by (intros; apply H; right; auto). lra. Qed.
Lemma lsum_one : forall A (L : list A) f x, NoDup L -> In x L -> (forall y, In y L -> y <> x -> f y = 0%R) -> lsum L f = f x.
Proof.
  intros A L f x. induction L as [|a L IH]; intros ND I H; [destruct I|]. inversion ND; subst. rewrite lsum_cons. destruct I as [->|I].
  - rewrite lsum_zero; [lra|]. intros y J. apply H; [right; auto|]. intros ->. auto.
  - rewrite IH; auto; [|intros; apply H; [right|]; auto]. rewrite (H a); [lra|left; auto|]. intros ->. auto.
Qed.
Lemma lsum_zr : forall l u f, lsum (zrange l u) f = sumZ l u f.
Proof. intros. apply lsum_zrange. Qed.
Lemma sumZ_null : forall l u f, (forall i, l <= i <= u -> f i = 0%R) -> sumZ l u f = 0%R.
Proof. intros l u f H. rewrite <- lsum_zr. apply lsum_zero. intros x I. apply in_zrange in I. auto. Qed.
(** The sum of a function that vanishes outside [y]. *)
Lemma sumZ_pick : forall l u f y, (forall i, l <= i <= u -> i <> y -> f i = 0%R) -> sumZ l u f = if (l <=? y) && (y <=? u) then f y else 0%R.
Proof.
  intros l u f y H. destruct (Z.leb_spec l y), (Z.leb_spec y u); cbn [andb].
  - apply sumZ_one; [lia|]. intros. apply H; auto.
  - apply sumZ_null. intros. apply H; lia.
  - apply sumZ_null. intros. apply H; lia.
  - apply sumZ_null. intros. apply H; lia.
Qed.
Lemma lsum_seq_first : forall n f, (0 < n)%nat -> lsum (seq 0 n) f = (f 0%nat + lsum (seq 1 (n - 1)) f)%R.
Proof. intros [|n] f H; [lia|]. cbn [seq]. rewrite lsum_cons. replace (S n - 1)%nat with n by lia. reflexivity. Qed.
Lemma lsum_seq_last : forall n f, (0 < n)%nat -> lsum (seq 0 n) f = (lsum (seq 0 (n - 1)) f + f (n - 1)%nat)%R.
Proof. intros [|n] f H; [lia|]. rewrite lsum_seq_S. replace (S n - 1)%nat with n by lia. reflexivity. Qed.
Lemma lsum_seq_pick : forall a n f x, (forall i, (a <= i < a + n)%nat -> i <> x -> f i = 0%R) -> lsum (seq a n) f = if ((a <=? x) && (x <? a + n))%nat then f x else 0%R.
Proof.
  intros a n f x H. destruct (Nat.leb_spec a x), (Nat.ltb_spec x (a + n)); cbn [andb].
  - apply lsum_one; [apply seq_NoDup|apply in_seq; lia|]. intros y I. apply in_seq in I. apply H. lia.
  - apply lsum_zero. intros y I. apply in_seq in I. apply H; lia.
  - apply lsum_zero. intros y I. apply in_seq in I. apply H; lia.
  - apply lsum_zero. intros y I. apply in_seq in I. apply H; lia.
Qed.

Section Sum.
Variables (bl br : axis -> bc) (D : decomp) (ne : Z) (a : axis).
Hypothesis OK : dec_ok D.
Hypothesis TW : 1 < total D a.
Hypothesis NE : 0 <= ne.
Hypothesis SZ : forall l, (l < d_NG D a)%nat -> ne <= d_size D a l.
Hypothesis BP : is_peri (bl a) = is_peri (br a).
Notation ng := (d_ng D).
Notation NG := (d_NG D a).
Notation sz := (d_size D a).
Notation dp := (disp D a).

Lemma sz1 : forall l, (l < NG)%nat -> 1 < sz l.
Proof. intros l L. apply (pos_facts D OK a l TW L). Qed.
Lemma gfst_eq : forall l, (l < NG)%nat -> gfst D a l = ng.
Proof. intros l L. unfold gfst. rewrite gt1 by (apply sz1; auto). reflexivity. Qed.
Lemma glst_eq : forall l, (l < NG)%nat -> glst D a l = sz l + ng - 1.
Proof. intros l L. unfold glst. rewrite gt1 by (apply sz1; auto). reflexivity. Qed.
Lemma reach_eq : forall l, (l < NG)%nat -> reach D ne a l = zrange (ng - ne) (sz l + ng - 1 + ne).
Proof. intros l L. unfold reach. rewrite gt1 by (apply sz1; auto). rewrite gfst_eq, glst_eq by auto. reflexivity. Qed.
Lemma place_eq : forall x, place bl br D a x = image (bl a) (br a) ng (total D a + ng - 1) x.
Proof. intros x. unfold place, fst_, lst_. rewrite g_N_dgeo, gt1 by auto. reflexivity. Qed.
Lemma NGpos : (0 < NG)%nat. Proof. destruct OK as (_ & _ & K). apply K. Qed.
Lemma dp_S : forall l, dp (S l) = dp l + sz l. Proof. reflexivity. Qed.
Lemma dp_top : dp NG = total D a. Proof. reflexivity. Qed.
Lemma in_dom : forall l x, (l < NG)%nat -> ng <= x <= sz l + ng - 1 -> ng <= x + dp l <= total D a + ng - 1.
Proof.
  intros l x L X. assert (N := disp_nonneg D OK a l ltac:(lia)). assert (M := disp_step D OK a (S l) NG ltac:(lia)). rewrite dp_S, dp_top in M. lia.
Qed.
Lemma place_in : forall x, ng <= x <= total D a + ng - 1 -> place bl br D a x = Some (false, x).
Proof. intros x X. rewrite place_eq. unfold image. replace (x <? ng) with false by lia. replace (x >? total D a + ng - 1) with false by lia. reflexivity. Qed.
(** A coordinate of the Domain belongs to one Grid. *)
Lemma owner : forall l l' x x', (l < NG)%nat -> (l' < NG)%nat -> ng <= x <= sz l + ng - 1 -> ng <= x' <= sz l' + ng - 1 -> x + dp l = x' + dp l' -> l = l' /\ x = x'.
Proof.
  intros l l' x x' L L' X X' E. destruct (Nat.lt_trichotomy l l') as [C|[C|C]].
  - assert (M := disp_step D OK a (S l) l' ltac:(lia)). rewrite dp_S in M. lia.
  - subst. lia.
  - assert (M := disp_step D OK a (S l') l ltac:(lia)). rewrite dp_S in M. lia.
Qed.

Section Cell.
Variables (v : nat) (f : nat -> Z -> R) (o : nat) (y : Z).
Hypothesis O : (o < NG)%nat.
Hypothesis Y : ng <= y <= sz o + ng - 1.
Definition Lnear : R := if y <? ng + ne then
  (if (0 <? o)%nat then f (o - 1)%nat (y + sz (o - 1)%nat)%Z
   else match bl a with Refl | Cond => (sgn a v true * f 0%nat (2 * ng - 1 - y)%Z)%R | Peri => f (NG - 1)%nat (y + sz (NG - 1)%nat)%Z | Outf => 0%R end) else 0%R.
Definition Rnear : R := if y >? sz o + ng - 1 - ne then
  (if (S o <? NG)%nat then f (S o) (y - sz o)%Z
   else match br a with Refl | Cond => (sgn a v true * f o (2 * (sz o + ng - 1) + 1 - y)%Z)%R | Peri => f 0%nat (y - sz o)%Z | Outf => 0%R end) else 0%R.
Notation z := (y + dp o).
Notation T l x := (share bl br D a v (x + dp l) z * f l x)%R.

Lemma zin : ng <= z <= total D a + ng - 1. Proof. apply in_dom; auto. Qed.
Lemma T_in : forall l x, ng <= x + dp l <= total D a + ng - 1 -> T l x = if x + dp l =? z then f l x else 0%R.
Proof. intros l x H. unfold share. rewrite place_in by auto. unfold sgn. cbn [andb]. destruct (x + dp l =? y + dp o); lra. Qed.

Lemma sum_active : lsum (seq 0 NG) (fun l => sumZ ng (sz l + ng - 1) (fun x => T l x)) = f o y.
Proof.
  rewrite (lsum_seq_pick 0 NG _ o).
  - replace ((0 <=? o) && (o <? 0 + NG))%nat with true by (symmetry; apply andb_true_iff; split; [apply Nat.leb_le; lia|apply Nat.ltb_lt; lia]).
    rewrite (sumZ_pick _ _ _ y).
    + replace (ng <=? y) with true by lia. replace (y <=? sz o + ng - 1) with true by lia. cbn [andb]. rewrite T_in by (apply in_dom; auto). rewrite Z.eqb_refl. reflexivity.
    + intros i I N. rewrite T_in by (apply in_dom; auto). replace (i + dp o =? z) with false by lia. reflexivity.
  - intros l L N. apply sumZ_null. intros i I. rewrite T_in by (apply in_dom; [lia|auto]). destruct (Z.eqb_spec (i + dp l) z) as [E|]; [|reflexivity].
    destruct (owner l o i y ltac:(lia) O I Y E). congruence.
Qed.

Definition Lself : R := match bl a with Refl | Cond => if ((o =? 0)%nat && (y <? ng + ne))%bool then (sgn a v true * f 0%nat (2 * ng - 1 - y)%Z)%R else 0%R | _ => 0%R end.
Definition Rself : R := match br a with Refl | Cond => if ((S o =? NG)%nat && (y >? sz o + ng - 1 - ne))%bool then (sgn a v true * f o (2 * (sz o + ng - 1) + 1 - y)%Z)%R else 0%R | _ => 0%R end.
Definition Rnext : R := if y >? sz o + ng - 1 - ne then if (S o <? NG)%nat then f (S o) (y - sz o)%Z else match bl a with Peri => f 0%nat (y - sz o)%Z | _ => 0%R end else 0%R.
Definition Lnext : R := if y <? ng + ne then if (0 <? o)%nat then f (o - 1)%nat (y + sz (o - 1)%nat)%Z else match br a with Peri => f (NG - 1)%nat (y + sz (NG - 1)%nat)%Z | _ => 0%R end else 0%R.

Lemma sum_left : lsum (seq 0 NG) (fun l => sumZ (ng - ne) (ng - 1) (fun x => T l x)) = (Lself + Rnext)%R.
Proof.
  assert (NP := NGpos). assert (ZI := zin). rewrite lsum_seq_first by auto.
  (* Grids with a left neighbour *)
  rewrite (lsum_seq_pick 1 (NG - 1) _ (S o)).
  2: { intros l L N. apply sumZ_null. intros i I. assert (S1 := SZ (l - 1)%nat ltac:(lia)). assert (DL : dp l = dp (l - 1)%nat + sz (l - 1)%nat) by (rewrite <- dp_S; f_equal; lia).
       assert (NN := disp_nonneg D OK a (l - 1)%nat ltac:(lia)). assert (M := disp_step D OK a l NG ltac:(lia)). rewrite dp_top in M.
       assert (SL := sz1 l ltac:(lia)).
       rewrite T_in by lia. destruct (Z.eqb_spec (i + dp l) z) as [E|]; [|reflexivity].
       destruct (owner (l - 1)%nat o (i + sz (l - 1)%nat) y ltac:(lia) O ltac:(lia) Y ltac:(lia)). lia. }
  assert (E1 : (if ((1 <=? S o) && (S o <? 1 + (NG - 1)))%nat then sumZ (ng - ne) (ng - 1) (fun x => T (S o) x) else 0%R)
    = if y >? sz o + ng - 1 - ne then if (S o <? NG)%nat then f (S o) (y - sz o)%Z else 0%R else 0%R).
  { cbn [Nat.leb andb]. replace (1 + (NG - 1))%nat with NG by lia. destruct (Nat.ltb_spec (S o) NG) as [L|L]; [|destruct (y >? _); reflexivity].
    assert (M := disp_step D OK a (S o) NG ltac:(lia)). rewrite dp_top, dp_S in M. assert (NN := disp_nonneg D OK a o ltac:(lia)). assert (S1 := SZ o O).
    rewrite (sumZ_pick _ _ _ (y - sz o)).
    - replace (y - sz o <=? ng - 1) with true by lia. rewrite andb_true_r. replace (ng - ne <=? y - sz o) with (y >? sz o + ng - 1 - ne) by lia.
      destruct (y >? sz o + ng - 1 - ne) eqn:C; [|reflexivity]. rewrite T_in by (rewrite dp_S; lia). rewrite dp_S. replace (y - sz o + (dp o + sz o) =? z) with true by lia. reflexivity.
    - intros i I N. rewrite T_in by (rewrite dp_S; lia). rewrite dp_S. replace (i + (dp o + sz o) =? z) with false by lia. reflexivity. }
  rewrite E1. clear E1.
  (* the first Grid *)
  assert (D0 : dp 0%nat = 0) by reflexivity. assert (S0 := SZ 0%nat NP).
  assert (SUM := disp_step D OK a 1%nat NG ltac:(lia)). rewrite dp_top, dp_S, D0 in SUM.
  assert (TL : forall i, ng - ne <= i <= ng - 1 -> share bl br D a v (i + dp 0%nat) z =
    match bl a with Refl | Cond => if 2 * ng - 1 - i =? z then sgn a v true else 0%R | Peri => if i + total D a =? z then 1%R else 0%R | Outf => 0%R end).
  { intros i I. unfold share. rewrite place_eq, D0, Z.add_0_r. unfold image. replace (i <? ng) with true by lia. destruct (bl a); try reflexivity.
    replace (i + (total D a + ng - 1 - ng + 1)) with (i + total D a) by lia. unfold sgn. cbn [andb]. reflexivity. }
  assert (E0 : sumZ (ng - ne) (ng - 1) (fun x => T 0%nat x) = (Lself + (if y >? sz o + ng - 1 - ne then if (S o <? NG)%nat then 0%R else match bl a with Peri => f 0%nat (y - sz o)%Z | _ => 0%R end else 0%R))%R).
  { unfold Lself. destruct (bl a) eqn:B.
    - (* Refl *) rewrite (sumZ_pick _ _ _ (2 * ng - 1 - z)).
      + replace (if y >? sz o + ng - 1 - ne then if (S o <? NG)%nat then 0%R else 0%R else 0%R) with 0%R by (destruct (y >? _), (S o <? NG)%nat; reflexivity). rewrite Rplus_0_r.
        replace (2 * ng - 1 - z <=? ng - 1) with true by lia. rewrite andb_true_r. destruct (Nat.eqb_spec o 0) as [E|E].
        * assert (ZY : z = y) by (subst o; rewrite D0; lia). cbn [andb]. replace (ng - ne <=? 2 * ng - 1 - z) with (y <? ng + ne) by lia. destruct (Z.ltb_spec y (ng + ne)); [|reflexivity].
          rewrite TL by lia. replace (2 * ng - 1 - (2 * ng - 1 - z) =? z) with true by lia. rewrite ZY. reflexivity.
        * cbn [andb]. assert (M := disp_step D OK a 1%nat o ltac:(lia)). rewrite dp_S, D0 in M. replace (ng - ne <=? 2 * ng - 1 - z) with false by lia. reflexivity.
      + intros i I N. rewrite TL by auto. replace (2 * ng - 1 - i =? z) with false by lia. lra.
    - (* Outf *) rewrite sumZ_null by (intros i I; rewrite TL by auto; lra). destruct (y >? _), (S o <? NG)%nat; lra.
    - (* Peri *) rewrite (sumZ_pick _ _ _ (z - total D a)).
      + rewrite Rplus_0_l. replace (z - total D a <=? ng - 1) with true by lia. rewrite andb_true_r. destruct (Nat.ltb_spec (S o) NG) as [L|L].
        * replace (ng - ne <=? z - total D a) with false; [destruct (y >? _); reflexivity|].
          assert (M := disp_step D OK a (S (S o)) NG ltac:(lia)). rewrite dp_top, !dp_S in M. assert (S1 := SZ (S o) L). lia.
        * assert (E : S o = NG) by lia. assert (M := dp_S o). rewrite E, dp_top in M. replace (ng - ne <=? z - total D a) with (y >? sz o + ng - 1 - ne) by lia.
          destruct (y >? sz o + ng - 1 - ne) eqn:C; [|reflexivity]. rewrite TL by lia. replace (z - total D a + total D a =? z) with true by lia. rewrite Rmult_1_l. f_equal. lia.
      + intros i I N. rewrite TL by auto. replace (i + total D a =? z) with false by lia. lra.
    - (* Cond *) rewrite (sumZ_pick _ _ _ (2 * ng - 1 - z)).
      + replace (if y >? sz o + ng - 1 - ne then if (S o <? NG)%nat then 0%R else 0%R else 0%R) with 0%R by (destruct (y >? _), (S o <? NG)%nat; reflexivity). rewrite Rplus_0_r.
        replace (2 * ng - 1 - z <=? ng - 1) with true by lia. rewrite andb_true_r. destruct (Nat.eqb_spec o 0) as [E|E].
        * assert (ZY : z = y) by (subst o; rewrite D0; lia). cbn [andb]. replace (ng - ne <=? 2 * ng - 1 - z) with (y <? ng + ne) by lia. destruct (Z.ltb_spec y (ng + ne)); [|reflexivity].
          rewrite TL by lia. replace (2 * ng - 1 - (2 * ng - 1 - z) =? z) with true by lia. rewrite ZY. reflexivity.
        * cbn [andb]. assert (M := disp_step D OK a 1%nat o ltac:(lia)). rewrite dp_S, D0 in M. replace (ng - ne <=? 2 * ng - 1 - z) with false by lia. reflexivity.
      + intros i I N. rewrite TL by auto. replace (2 * ng - 1 - i =? z) with false by lia. lra. }
  rewrite E0. unfold Rnext. destruct (y >? _), (S o <? NG)%nat; lra.
Qed.
Lemma sum_right : lsum (seq 0 NG) (fun l => sumZ (sz l + ng) (sz l + ng - 1 + ne) (fun x => T l x)) = (Rself + Lnext)%R.
Proof.
  assert (NP := NGpos). assert (ZI := zin). rewrite lsum_seq_last by auto.
  (* Grids with a right neighbour *)
  rewrite (lsum_seq_pick 0 (NG - 1) _ (if (0 <? o)%nat then (o - 1)%nat else NG)).
  2: { intros l L N. apply sumZ_null. intros i I. assert (S1 := SZ (S l) ltac:(lia)). assert (SL := sz1 l ltac:(lia)).
       assert (NN := disp_nonneg D OK a l ltac:(lia)). assert (M := disp_step D OK a (S (S l)) NG ltac:(lia)). rewrite dp_top, !dp_S in M.
       rewrite T_in by lia. destruct (Z.eqb_spec (i + dp l) z) as [E|]; [|reflexivity].
       destruct (owner (S l) o (i - sz l) y ltac:(lia) O ltac:(lia) Y ltac:(rewrite dp_S; lia)) as [E' _]. subst o. cbn [Nat.ltb Nat.leb] in N. lia. }
  assert (E1 : (if ((0 <=? (if (0 <? o)%nat then (o - 1)%nat else NG)) && ((if (0 <? o)%nat then (o - 1)%nat else NG) <? 0 + (NG - 1)))%nat
      then (fun l => sumZ (sz l + ng) (sz l + ng - 1 + ne) (fun x => T l x)) (if (0 <? o)%nat then (o - 1)%nat else NG) else 0%R)
    = if y <? ng + ne then if (0 <? o)%nat then f (o - 1)%nat (y + sz (o - 1)%nat)%Z else 0%R else 0%R).
  { cbn [Nat.leb andb]. cbn [Nat.add]. destruct (Nat.ltb_spec 0 o) as [L|L].
    - replace (o - 1 <? NG - 1)%nat with true by (symmetry; apply Nat.ltb_lt; lia).
      assert (S1 := SZ o O). assert (SL := sz1 (o - 1)%nat ltac:(lia)). assert (DO : dp o = dp (o - 1)%nat + sz (o - 1)%nat) by (rewrite <- dp_S; f_equal; lia).
      assert (NN := disp_nonneg D OK a (o - 1)%nat ltac:(lia)). assert (M := disp_step D OK a (S o) NG ltac:(lia)). rewrite dp_top, dp_S in M.
      rewrite (sumZ_pick _ _ _ (y + sz (o - 1)%nat)).
      + replace (sz (o - 1)%nat + ng <=? y + sz (o - 1)%nat) with true by lia. cbn [andb]. replace (y + sz (o - 1)%nat <=? sz (o - 1)%nat + ng - 1 + ne) with (y <? ng + ne) by lia.
        destruct (Z.ltb_spec y (ng + ne)); [|reflexivity]. rewrite T_in by lia. replace (y + sz (o - 1)%nat + dp (o - 1)%nat =? z) with true by lia. reflexivity.
      + intros i I N. rewrite T_in by lia. replace (i + dp (o - 1)%nat =? z) with false by lia. reflexivity.
    - replace (NG <? NG - 1)%nat with false by (symmetry; apply Nat.ltb_ge; lia). destruct (y <? _); reflexivity. }
  cbv beta in E1. rewrite E1. clear E1.
  (* the last Grid *)
  set (p := (NG - 1)%nat). assert (PL : (p < NG)%nat) by (unfold p; lia). assert (SP : S p = NG) by (unfold p; lia).
  assert (SS0 := SZ p PL). assert (DT := dp_S p). rewrite SP, dp_top in DT. assert (NN := disp_nonneg D OK a p ltac:(lia)). assert (SL := sz1 p PL).
  assert (TL : forall i, sz p + ng <= i <= sz p + ng - 1 + ne -> share bl br D a v (i + dp p) z =
    match br a with Refl | Cond => if 2 * (total D a + ng - 1) + 1 - (i + dp p) =? z then sgn a v true else 0%R | Peri => if i + dp p - total D a =? z then 1%R else 0%R | Outf => 0%R end).
  { intros i I. unfold share. rewrite place_eq. unfold image. replace (i + dp p <? ng) with false by lia. replace (i + dp p >? total D a + ng - 1) with true by lia. destruct (br a); try reflexivity.
    replace (i + dp p - (total D a + ng - 1 - ng + 1)) with (i + dp p - total D a) by lia. unfold sgn. cbn [andb]. reflexivity. }
  assert (E0 : sumZ (sz p + ng) (sz p + ng - 1 + ne) (fun x => T p x) = (Rself + (if y <? ng + ne then if (0 <? o)%nat then 0%R else match br a with Peri => f p (y + sz p)%Z | _ => 0%R end else 0%R))%R).
  { assert (MIR : br a = Refl \/ br a = Cond -> sumZ (sz p + ng) (sz p + ng - 1 + ne) (fun x => T p x) =
      if ((S o =? NG)%nat && (y >? sz o + ng - 1 - ne))%bool then (sgn a v true * f o (2 * (sz o + ng - 1) + 1 - y)%Z)%R else 0%R).
    { intros B. assert (TM : forall i, sz p + ng <= i <= sz p + ng - 1 + ne -> share bl br D a v (i + dp p) z = if 2 * (total D a + ng - 1) + 1 - (i + dp p) =? z then sgn a v true else 0%R).
      { intros i I. rewrite TL by auto. destruct B as [-> | ->]; reflexivity. }
      rewrite (sumZ_pick _ _ _ (2 * (total D a + ng - 1) + 1 - z - dp p)).
      2: { intros i I N. rewrite TM by auto. replace (2 * (total D a + ng - 1) + 1 - (i + dp p) =? z) with false by lia. lra. }
      replace (sz p + ng <=? 2 * (total D a + ng - 1) + 1 - z - dp p) with true by lia. cbn [andb].
      destruct (Nat.eqb_spec (S o) NG) as [E|E].
      - assert (OP : o = p) by lia. cbn [andb]. assert (SO : sz o = sz p) by (rewrite OP; reflexivity). assert (DO : dp o = dp p) by (rewrite OP; reflexivity).
        replace (2 * (total D a + ng - 1) + 1 - z - dp p <=? sz p + ng - 1 + ne) with (y >? sz o + ng - 1 - ne) by lia.
        destruct (y >? sz o + ng - 1 - ne) eqn:C; [|reflexivity]. rewrite TM by lia.
        replace (2 * (total D a + ng - 1) + 1 - (2 * (total D a + ng - 1) + 1 - z - dp p + dp p) =? z) with true by lia. rewrite <- OP. f_equal. f_equal. lia.
      - cbn [andb]. assert (M := disp_step D OK a (S o) p ltac:(lia)). rewrite dp_S in M. replace (_ <=? _) with false by lia. reflexivity. }
    unfold Rself. destruct (br a) eqn:B.
    - rewrite MIR by auto. destruct (y <? _), (0 <? o)%nat; lra.
    - rewrite sumZ_null by (intros i I; rewrite TL by auto; lra). destruct (y <? _), (0 <? o)%nat; lra.
    - rewrite (sumZ_pick _ _ _ (z + total D a - dp p)).
      + rewrite Rplus_0_l. replace (sz p + ng <=? z + total D a - dp p) with true by lia. cbn [andb]. destruct (Nat.ltb_spec 0 o) as [L|L].
        * replace (z + total D a - dp p <=? sz p + ng - 1 + ne) with false; [destruct (y <? _); reflexivity|].
          assert (M := disp_step D OK a 1%nat o ltac:(lia)). rewrite dp_S in M. assert (S1 := SZ 0%nat ltac:(lia)). cbn [disp] in M. lia.
        * assert (E : o = 0%nat) by lia. assert (ZY : z = y) by (subst o; cbn [disp]; lia). replace (z + total D a - dp p <=? sz p + ng - 1 + ne) with (y <? ng + ne) by lia.
          destruct (Z.ltb_spec y (ng + ne)); [|reflexivity]. rewrite TL by lia. replace (z + total D a - dp p + dp p - total D a =? z) with true by lia. rewrite Rmult_1_l. f_equal. lia.
      + intros i I N. rewrite TL by auto. replace (i + dp p - total D a =? z) with false by lia. lra.
    - rewrite MIR by auto. destruct (y <? _), (0 <? o)%nat; lra. }
  rewrite E0. unfold Lnext. fold p. destruct (y <? _), (0 <? o)%nat; lra.
Qed.

Lemma gathered_near : gathered bl br D ne a v f z = (f o y + Lnear + Rnear)%R.
Proof.
  transitivity (lsum (seq 0 NG) (fun l => (sumZ (ng - ne) (ng - 1) (fun x => T l x) + sumZ ng (sz l + ng - 1) (fun x => T l x) + sumZ (sz l + ng) (sz l + ng - 1 + ne) (fun x => T l x))%R)).
  - unfold gathered. apply lsum_ext. intros l L. apply in_seq in L. assert (SL := sz1 l ltac:(lia)). rewrite reach_eq by lia. rewrite lsum_zr.
    rewrite <- (sumZ_cat (ng - ne) (sz l + ng - 1) (sz l + ng - 1 + ne)) by lia. rewrite <- (sumZ_cat (ng - ne) (ng - 1) (sz l + ng - 1)) by lia.
    replace (ng - 1 + 1) with ng by lia. replace (sz l + ng - 1 + 1) with (sz l + ng) by lia. reflexivity.
  - rewrite !lsum_plus. rewrite sum_left, sum_active, sum_right. unfold Lself, Rself, Lnext, Rnext, Lnear, Rnear.
    assert (SL := sz1 o O). assert (NP := NGpos).
    destruct (y <? ng + ne), (y >? sz o + ng - 1 - ne); destruct (Nat.ltb_spec 0 o), (Nat.ltb_spec (S o) NG);
      destruct (Nat.eqb_spec o 0), (Nat.eqb_spec (S o) NG); try lia; cbn [andb]; destruct (bl a), (br a); try (cbn in BP; discriminate); lra.
Qed.
End Cell.
End Sum.
