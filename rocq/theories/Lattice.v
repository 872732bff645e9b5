(** * Sums over one period of periodic functions on a lattice *)
From Coq Require Import Reals ZArith List Bool Lia Lra Psatz.
From Verif Require Import GasModel IntegModel IntegSpec IntegFacts.
Open Scope R_scope.

Inductive dir := X1 | X2 | X3.
Section Lattice.
Variables (kl ku jl ju il iu : Z).
Hypothesis (Lk : (kl <= ku)%Z) (Lj : (jl <= ju)%Z) (Li : (il <= iu)%Z).
Notation fn := (Z -> Z -> Z -> R).
Definition S (f : fn) : R := sumZ kl ku (fun k => sumZ jl ju (fun j => sumZ il iu (fun i => f k j i))).
Definition inb (k j i : Z) : Prop := (kl <= k <= ku)%Z /\ (jl <= j <= ju)%Z /\ (il <= i <= iu)%Z.
Definition per (f : fn) : Prop := forall k j i,
  f (k + (ku - kl + 1))%Z j i = f k j i /\ f k (j + (ju - jl + 1))%Z i = f k j i /\ f k j (i + (iu - il + 1))%Z = f k j i.
Definition up (d : dir) (f : fn) : fn := fun k j i =>
  match d with X1 => f k j (i + 1)%Z | X2 => f k (j + 1)%Z i | X3 => f (k + 1)%Z j i end.
Definition dn (d : dir) (f : fn) : fn := fun k j i =>
  match d with X1 => f k j (i - 1)%Z | X2 => f k (j - 1)%Z i | X3 => f (k - 1)%Z j i end.
Definition Dp (d : dir) (f : fn) : fn := fun k j i => up d f k j i - f k j i.
Definition Dm (d : dir) (f : fn) : fn := fun k j i => f k j i - dn d f k j i.

Lemma S_ext : forall f g, (forall k j i, inb k j i -> f k j i = g k j i) -> S f = S g.
Proof. intros f g H. unfold S. apply sumZ_ext; intros k Hk. apply sumZ_ext; intros j Hj. apply sumZ_ext; intros i Hi. apply H. unfold inb. lia. Qed.
Lemma S_plus : forall f g, S (fun k j i => f k j i + g k j i) = S f + S g.
Proof.
  intros. unfold S. rewrite <- sumZ_plus. apply sumZ_ext; intros k Hk. rewrite <- sumZ_plus. apply sumZ_ext; intros j Hj. rewrite <- sumZ_plus. reflexivity.
Qed.
Lemma S_scal : forall a f, S (fun k j i => a * f k j i) = a * S f.
Proof.
  intros. unfold S. rewrite <- sumZ_scal. apply sumZ_ext; intros k Hk. rewrite <- sumZ_scal. apply sumZ_ext; intros j Hj. rewrite <- sumZ_scal. reflexivity.
Qed.
Lemma sumZ_nonneg : forall l u f, (forall i, (l <= i <= u)%Z -> 0 <= f i) -> 0 <= sumZ l u f.
Proof.
  intros l u f. apply (sumZ_ind (fun u => (forall i, (l <= i <= u)%Z -> 0 <= f i) -> 0 <= sumZ l u f) l).
  - intros. rewrite sumZ_empty by lia. lra.
  - intros v Hv IH H. rewrite sumZ_last by lia. assert (0 <= sumZ l (v - 1) f) by (apply IH; intros; apply H; lia). assert (0 <= f v) by (apply H; lia). lra.
Qed.
Lemma S_nonneg : forall f, (forall k j i, inb k j i -> 0 <= f k j i) -> 0 <= S f.
Proof. intros f H. unfold S. apply sumZ_nonneg; intros k Hk. apply sumZ_nonneg; intros j Hj. apply sumZ_nonneg; intros i Hi. apply H. unfold inb. lia. Qed.
Lemma S_le : forall f g, (forall k j i, inb k j i -> f k j i <= g k j i) -> S f <= S g.
Proof.
  intros f g H. assert (0 <= S (fun k j i => g k j i + (-1) * f k j i)). { apply S_nonneg. intros. specialize (H k j i H0). lra. }
  rewrite (S_plus g (fun k j i => (-1) * f k j i)), S_scal in H0. lra.
Qed.
Lemma S_up : forall d f, per f -> S (up d f) = S f.
Proof.
  intros d f P. assert (E : S (fun k j i => up d f k j i + (-1) * f k j i) = 0).
  { unfold S. destruct d; cbn [up].
    - rewrite (sumZ_ext kl ku _ (fun _ => 0)); [apply sumZ_zero|]. intros k Hk. rewrite (sumZ_ext jl ju _ (fun _ => 0)); [apply sumZ_zero|]. intros j Hj.
      rewrite (sumZ_ext il iu _ (fun i => f k j (i + 1)%Z - f k j i)) by (intros; ring). rewrite (sumZ_tele il iu (f k j)) by lia.
      replace (iu + 1)%Z with (il + (iu - il + 1))%Z by lia. destruct (P k j il) as (_ & _ & ->). ring.
    - rewrite (sumZ_ext kl ku _ (fun _ => 0)); [apply sumZ_zero|]. intros k Hk. rewrite sumZ_swap. rewrite (sumZ_ext il iu _ (fun _ => 0)); [apply sumZ_zero|]. intros i Hi.
      rewrite (sumZ_ext jl ju _ (fun j => f k (j + 1)%Z i - f k j i)) by (intros; ring). rewrite (sumZ_tele jl ju (fun j => f k j i)) by lia.
      replace (ju + 1)%Z with (jl + (ju - jl + 1))%Z by lia. destruct (P k jl i) as (_ & -> & _). ring.
    - rewrite (sumZ_ext kl ku _ (fun k => (fun k => sumZ jl ju (fun j => sumZ il iu (fun i => f k j i))) (k + 1)%Z - (fun k => sumZ jl ju (fun j => sumZ il iu (fun i => f k j i))) k)).
      + rewrite (sumZ_tele kl ku (fun k => sumZ jl ju (fun j => sumZ il iu (fun i => f k j i)))) by lia.
        replace (ku + 1)%Z with (kl + (ku - kl + 1))%Z by lia. rewrite (sumZ_ext jl ju _ (fun j => sumZ il iu (fun i => f kl j i))); [ring|].
        intros j Hj. apply sumZ_ext. intros i Hi. apply (P kl j i).
      + intros k Hk. cbv beta. rewrite <- sumZ_minus. apply sumZ_ext; intros j Hj. rewrite <- sumZ_minus. apply sumZ_ext; intros i Hi. ring. }
  rewrite (S_plus (up d f) (fun k j i => (-1) * f k j i)), S_scal in E. lra.
Qed.
Lemma per_up : forall d f, per f -> per (up d f).
Proof.
  intros d f P k j i. destruct d; cbn [up].
  - destruct (P k j (i + 1)%Z) as (A & B & C). rewrite A, B. replace (i + (iu - il + 1) + 1)%Z with (i + 1 + (iu - il + 1))%Z by lia. auto.
  - destruct (P k (j + 1)%Z i) as (A & B & C). rewrite A, C. replace (j + (ju - jl + 1) + 1)%Z with (j + 1 + (ju - jl + 1))%Z by lia. auto.
  - destruct (P (k + 1)%Z j i) as (A & B & C). rewrite B, C. replace (k + (ku - kl + 1) + 1)%Z with (k + 1 + (ku - kl + 1))%Z by lia. auto.
Qed.
Lemma per_dn : forall d f, per f -> per (dn d f).
Proof.
  intros d f P k j i. destruct d; cbn [dn].
  - destruct (P k j (i - 1)%Z) as (A & B & C). rewrite A, B. replace (i + (iu - il + 1) - 1)%Z with (i - 1 + (iu - il + 1))%Z by lia. auto.
  - destruct (P k (j - 1)%Z i) as (A & B & C). rewrite A, C. replace (j + (ju - jl + 1) - 1)%Z with (j - 1 + (ju - jl + 1))%Z by lia. auto.
  - destruct (P (k - 1)%Z j i) as (A & B & C). rewrite B, C. replace (k + (ku - kl + 1) - 1)%Z with (k - 1 + (ku - kl + 1))%Z by lia. auto.
Qed.
Lemma per_op : forall (op : R -> R -> R) f g, per f -> per g -> per (fun k j i => op (f k j i) (g k j i)).
Proof. intros op f g P Q k j i. destruct (P k j i) as (A & B & C), (Q k j i) as (A' & B' & C'). rewrite A, B, C, A', B', C'. auto. Qed.
Lemma per_Dp : forall d f, per f -> per (Dp d f).
Proof. intros. apply (per_op Rminus); auto using per_up. Qed.
Lemma per_Dm : forall d f, per f -> per (Dm d f).
Proof. intros. apply (per_op Rminus); auto using per_dn. Qed.
Lemma up_dn : forall d f k j i, up d (dn d f) k j i = f k j i.
Proof. intros. destruct d; cbn; f_equal; lia. Qed.
(** Summation by parts. *)
Lemma sbp : forall d f g, per f -> per g -> S (fun k j i => f k j i * Dp d g k j i) = - S (fun k j i => Dm d f k j i * g k j i).
Proof.
  intros d f g P Q. assert (E : S (fun k j i => f k j i * up d g k j i) = S (fun k j i => dn d f k j i * g k j i)).
  { rewrite <- (S_up d (fun k j i => dn d f k j i * g k j i)) by (apply (per_op Rmult); auto using per_dn).
    apply S_ext. intros k j i _. pose proof (up_dn d f k j i) as H. destruct d; cbn in *; rewrite H; reflexivity. }
  assert (E1 : S (fun k j i => f k j i * Dp d g k j i) = S (fun k j i => f k j i * up d g k j i) + (-1) * S (fun k j i => f k j i * g k j i)).
  { rewrite <- S_scal, <- S_plus. apply S_ext. intros. unfold Dp. ring. }
  assert (E2 : S (fun k j i => Dm d f k j i * g k j i) = S (fun k j i => f k j i * g k j i) + (-1) * S (fun k j i => dn d f k j i * g k j i)).
  { rewrite <- S_scal, <- S_plus. apply S_ext. intros. unfold Dm. ring. }
  lra.
Qed.
Lemma cross : forall l m f g, l <> m -> per f -> per g -> S (fun k j i => Dp l f k j i * Dp m g k j i) = S (fun k j i => Dm m f k j i * Dm l g k j i).
Proof.
  intros l m f g N P Q. rewrite sbp by auto using per_Dp.
  assert (E : forall k j i, Dm m (Dp l f) k j i = Dp l (Dm m f) k j i). { intros. destruct l, m; try congruence; unfold Dm, Dp, up, dn; ring. }
  rewrite (S_ext _ (fun k j i => g k j i * Dp l (Dm m f) k j i)) by (intros; rewrite E; ring). rewrite sbp by auto using per_Dm.
  rewrite Ropp_involutive. apply S_ext. intros. ring.
Qed.
Lemma norm_pm : forall d f, per f -> S (fun k j i => Dp d f k j i * Dp d f k j i) = S (fun k j i => Dm d f k j i * Dm d f k j i).
Proof.
  intros d f P. rewrite <- (S_up d (fun k j i => Dm d f k j i * Dm d f k j i)) by (apply (per_op Rmult); auto using per_Dm).
  apply S_ext. intros k j i _. pose proof (up_dn d f k j i) as H. destruct d; unfold Dp, Dm in *; cbn in *; rewrite H; reflexivity.
Qed.
Lemma norm_D : forall d f, per f -> S (fun k j i => Dp d f k j i * Dp d f k j i) <= 4 * S (fun k j i => f k j i * f k j i).
Proof.
  intros d f P. apply Rle_trans with (S (fun k j i => 2 * (up d f k j i * up d f k j i) + 2 * (f k j i * f k j i))).
  - apply S_le. intros k j i _. unfold Dp. set (x := up d f k j i). set (y := f k j i). pose proof (Rle_0_sqr (x + y)) as H. unfold Rsqr in H. lra.
  - rewrite (S_plus (fun k j i => 2 * (up d f k j i * up d f k j i)) (fun k j i => 2 * (f k j i * f k j i))), !S_scal.
    assert (E : S (fun k j i => up d f k j i * up d f k j i) = S (fun k j i => f k j i * f k j i)).
    { rewrite <- (S_up d (fun k j i => f k j i * f k j i)) by (apply (per_op Rmult); auto). apply S_ext. intros. destruct d; reflexivity. }
    rewrite E. lra.
Qed.

(** The curl of E on the faces and of B on the edges. *)
Variables (a1 a2 a3 : R).
Definition curlp1 (E2 E3 : fn) : fn := fun k j i => a2 * Dp X2 E3 k j i - a3 * Dp X3 E2 k j i.
Definition curlp2 (E1 E3 : fn) : fn := fun k j i => a3 * Dp X3 E1 k j i - a1 * Dp X1 E3 k j i.
Definition curlp3 (E1 E2 : fn) : fn := fun k j i => a1 * Dp X1 E2 k j i - a2 * Dp X2 E1 k j i.
Definition curlm1 (B2 B3 : fn) : fn := fun k j i => a2 * Dm X2 B3 k j i - a3 * Dm X3 B2 k j i.
Definition curlm2 (B1 B3 : fn) : fn := fun k j i => a3 * Dm X3 B1 k j i - a1 * Dm X1 B3 k j i.
Definition curlm3 (B1 B2 : fn) : fn := fun k j i => a1 * Dm X1 B2 k j i - a2 * Dm X2 B1 k j i.
Variables (B1 B2 B3 E1 E2 E3 : fn).
Hypothesis (P1 : per B1) (P2 : per B2) (P3 : per B3) (Q1 : per E1) (Q2 : per E2) (Q3 : per E3).
Notation ip f g := (S (fun k j i => f k j i * g k j i)).
Lemma parts : ip B1 (curlp1 E2 E3) + ip B2 (curlp2 E1 E3) + ip B3 (curlp3 E1 E2) = ip E1 (curlm1 B2 B3) + ip E2 (curlm2 B1 B3) + ip E3 (curlm3 B1 B2).
Proof.
  assert (L : forall (f : fn) a b d d' (g h : fn), ip f (fun k j i => a * Dp d g k j i - b * Dp d' h k j i) = a * ip f (Dp d g) + (- b) * ip f (Dp d' h)).
  { intros. rewrite <- !S_scal, <- S_plus. apply S_ext. intros. ring. }
  assert (L' : forall (f : fn) a b d d' (g h : fn), ip f (fun k j i => a * Dm d g k j i - b * Dm d' h k j i) = a * ip (Dm d g) f + (- b) * ip (Dm d' h) f).
  { intros. rewrite <- !S_scal, <- S_plus. apply S_ext. intros. ring. }
  unfold curlp1, curlp2, curlp3, curlm1, curlm2, curlm3. rewrite !L, !L', !sbp by assumption. ring.
Qed.
Lemma norm_curl : ip (curlp1 E2 E3) (curlp1 E2 E3) + ip (curlp2 E1 E3) (curlp2 E1 E3) + ip (curlp3 E1 E2) (curlp3 E1 E2)
  <= 4 * (a1 * a1 + a2 * a2 + a3 * a3) * (ip E1 E1 + ip E2 E2 + ip E3 E3).
Proof.
  set (dv := fun k j i => a1 * Dm X1 E1 k j i + a2 * Dm X2 E2 k j i + a3 * Dm X3 E3 k j i).
  assert (N : 0 <= ip dv dv). { apply S_nonneg. intros. apply Rle_0_sqr. }
  assert (V : ip dv dv = a1 * a1 * ip (Dm X1 E1) (Dm X1 E1) + (a2 * a2 * ip (Dm X2 E2) (Dm X2 E2) + (a3 * a3 * ip (Dm X3 E3) (Dm X3 E3)
     + (2 * a1 * a2 * ip (Dm X1 E1) (Dm X2 E2) + (2 * a1 * a3 * ip (Dm X1 E1) (Dm X3 E3) + 2 * a2 * a3 * ip (Dm X2 E2) (Dm X3 E3)))))).
  { rewrite <- !S_scal, <- !S_plus. apply S_ext. intros. unfold dv. ring. }
  assert (L : forall a b d d' (g h : fn), ip (fun k j i => a * Dp d g k j i - b * Dp d' h k j i) (fun k j i => a * Dp d g k j i - b * Dp d' h k j i)
     = a * a * ip (Dp d g) (Dp d g) + (b * b * ip (Dp d' h) (Dp d' h) + (- 2 * a * b) * ip (Dp d g) (Dp d' h))).
  { intros. rewrite <- !S_scal, <- !S_plus. apply S_ext. intros. ring. }
  unfold curlp1, curlp2, curlp3. rewrite !L.
  rewrite (cross X2 X3 E3 E2), (cross X3 X1 E1 E3), (cross X1 X2 E2 E1) by (auto; discriminate).
  assert (C1 : ip (Dm X3 E3) (Dm X2 E2) = ip (Dm X2 E2) (Dm X3 E3)) by (apply S_ext; intros; ring).
  assert (C3 : ip (Dm X2 E2) (Dm X1 E1) = ip (Dm X1 E1) (Dm X2 E2)) by (apply S_ext; intros; ring).
  rewrite C1, C3. rewrite <- !norm_pm in V by assumption.
  pose proof (norm_D X1 E1 Q1). pose proof (norm_D X1 E2 Q2). pose proof (norm_D X1 E3 Q3).
  pose proof (norm_D X2 E1 Q1). pose proof (norm_D X2 E2 Q2). pose proof (norm_D X2 E3 Q3).
  pose proof (norm_D X3 E1 Q1). pose proof (norm_D X3 E2 Q2). pose proof (norm_D X3 E3 Q3).
  assert (M : forall a x y, x <= y -> a * a * x <= a * a * y). { intros. apply Rmult_le_compat_l; auto. apply Rle_0_sqr. }
  pose proof (M a1 _ _ H). pose proof (M a1 _ _ H0). pose proof (M a1 _ _ H1). pose proof (M a2 _ _ H2). pose proof (M a2 _ _ H3). pose proof (M a2 _ _ H4).
  pose proof (M a3 _ _ H5). pose proof (M a3 _ _ H6). pose proof (M a3 _ _ H7). clear M H H0 H1 H2 H3 H4 H5 H6 H7. lra.
Qed.
(** One step of B' = B - h curl E loses as much energy as E.curl B says, up to the second
    order in h. *)
Lemma lattice_energy : forall h M, 0 <= h -> 0 <= M -> ip E1 E1 + ip E2 E2 + ip E3 E3 <= M * (ip E1 (curlm1 B2 B3) + ip E2 (curlm2 B1 B3) + ip E3 (curlm3 B1 B2)) ->
  let N1 := fun k j i => B1 k j i - h * curlp1 E2 E3 k j i in let N2 := fun k j i => B2 k j i - h * curlp2 E1 E3 k j i in let N3 := fun k j i => B3 k j i - h * curlp3 E1 E2 k j i in
  ip N1 N1 + ip N2 N2 + ip N3 N3 <= ip B1 B1 + ip B2 B2 + ip B3 B3
    - 2 * h * (1 - 2 * h * M * (a1 * a1 + a2 * a2 + a3 * a3)) * (ip E1 (curlm1 B2 B3) + ip E2 (curlm2 B1 B3) + ip E3 (curlm3 B1 B2)).
Proof.
  intros h M H0 HM HE N1 N2 N3.
  assert (L : forall (b C : fn), ip (fun k j i => b k j i - h * C k j i) (fun k j i => b k j i - h * C k j i) = ip b b + ((- 2 * h) * ip b C + h * h * ip C C)).
  { intros. rewrite <- !S_scal, <- !S_plus. apply S_ext. intros. ring. }
  unfold N1, N2, N3. rewrite !L. pose proof parts as PT. pose proof norm_curl as NC.
  set (W := ip E1 (curlm1 B2 B3) + ip E2 (curlm2 B1 B3) + ip E3 (curlm3 B1 B2)) in *.
  set (A := a1 * a1 + a2 * a2 + a3 * a3) in *. assert (HA : 0 <= A). { unfold A. pose proof (Rle_0_sqr a1); pose proof (Rle_0_sqr a2); pose proof (Rle_0_sqr a3). unfold Rsqr in *. lra. }
  set (EE := ip E1 E1 + ip E2 E2 + ip E3 E3) in *.
  set (CC := ip (curlp1 E2 E3) (curlp1 E2 E3) + ip (curlp2 E1 E3) (curlp2 E1 E3) + ip (curlp3 E1 E2) (curlp3 E1 E2)) in *.
  assert (T : h * h * CC <= h * h * (4 * A * (M * W))).
  { apply Rmult_le_compat_l; [apply Rle_0_sqr|]. eapply Rle_trans; [exact NC|]. apply Rmult_le_compat_l; [lra|exact HE]. }
  unfold CC in T. replace (ip B1 B1 + ip B2 B2 + ip B3 B3 - 2 * h * (1 - 2 * h * M * A) * W) with (ip B1 B1 + ip B2 B2 + ip B3 B3 - 2 * h * W + h * h * (4 * A * (M * W))) by ring.
  assert (PH : h * ip B1 (curlp1 E2 E3) + h * ip B2 (curlp2 E1 E3) + h * ip B3 (curlp3 E1 E2) = h * W) by (rewrite <- PT; ring).
  lra.
Qed.
End Lattice.
