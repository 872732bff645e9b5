(** * Finite Fourier sums *)
From Coq Require Import Reals ZArith List Bool Lia Lra.
From Verif Require Import IntegSpec IntegFacts SumFacts GravModel GravSpec.
From Verif Require Import IntegSpec IntegFacts.
Open Scope R_scope.

Lemma cos_2PI_Z : forall m, cos (2 * PI * IZR m) = 1.
Proof.
  intro m. replace (2 * PI * IZR m) with (2 * (IZR m * PI)) by ring. rewrite cos_2a_sin.
  rewrite (sin_eq_0_1 (IZR m * PI)) by (exists m; reflexivity). ring.
Qed.
Lemma sin_2PI_Z : forall m, sin (2 * PI * IZR m) = 0.
Proof. intro m. apply sin_eq_0_1. exists (2 * m)%Z. rewrite mult_IZR. ring. Qed.
Lemma sin_shift : forall x m, sin (x + 2 * PI * IZR m) = sin x.
Proof. intros. rewrite sin_plus, cos_2PI_Z, sin_2PI_Z. ring. Qed.
Lemma cos_shift : forall x m, cos (x + 2 * PI * IZR m) = cos x.
Proof. intros. rewrite cos_plus, cos_2PI_Z, sin_2PI_Z. ring. Qed.

Definition ang (N d : Z) : R := 2 * PI * (IZR d / IZR N).
Lemma half_sin : forall N d, (0 < N)%Z -> sin (ang N d / 2) = 0 -> (d mod N = 0)%Z.
Proof.
  intros N d HN H. apply sin_eq_0_0 in H. destruct H as [k K].
  assert (IZR N <> 0) by (apply not_0_IZR; lia). unfold ang in K.
  assert (E : IZR d = IZR k * IZR N).
  { apply Rmult_eq_reg_r with PI; [|apply PI_neq0]. replace (IZR k * IZR N * PI) with (IZR k * PI * IZR N) by ring. rewrite <- K. field. auto. }
  rewrite <- mult_IZR in E. apply eq_IZR in E. subst d. apply Z.mod_mul. lia.
Qed.
Lemma ang_mult : forall N d, (0 < N)%Z -> (d mod N = 0)%Z -> exists m, ang N d = 2 * PI * IZR m.
Proof.
  intros N d HN H. exists (d / N)%Z. unfold ang. f_equal. assert (IZR N <> 0) by (apply not_0_IZR; lia).
  rewrite (Z.div_mod d N) at 1 by lia. rewrite H, Z.add_0_r, mult_IZR. field. auto.
Qed.
(** The sums of cos and sin over one period. *)
Lemma sum_tele2 : forall (g : Z -> R) u, (-1 <= u)%Z -> sumZ 0 u (fun k => g (k + 1)%Z - g k) = g (u + 1)%Z - g 0%Z.
Proof.
  intros g u. apply (sumZ_ind (fun u => (-1 <= u)%Z -> sumZ 0 u (fun k => g (k + 1)%Z - g k) = g (u + 1)%Z - g 0%Z) 0).
  - intros v V H. assert (v = -1)%Z as -> by lia. rewrite sumZ_empty by lia. cbn. lra.
  - intros v V IH H. rewrite sumZ_last, IH by lia. replace (v - 1 + 1)%Z with v by lia. lra.
Qed.
Lemma cos_sum : forall N d u, (0 < N)%Z ->
  sumZ 0 (N - 1) (fun k => cos (u + ang N (k * d))) = if (d mod N =? 0)%Z then IZR N * cos u else 0.
Proof.
  intros N d u HN. assert (NN : IZR N <> 0) by (apply not_0_IZR; lia).
  destruct (Z.eqb_spec (d mod N) 0) as [E|E].
  - rewrite (sumZ_ext 0 (N - 1) _ (fun _ => cos u * 1)).
    2:{ intros k _. destruct (ang_mult N (k * d) HN) as [m M].
        - rewrite Z.mul_mod by lia. rewrite E, Z.mul_0_r. apply Z.mod_0_l. lia.
        - rewrite M, cos_shift. ring. }
    rewrite sumZ_scal. rewrite Rmult_comm. f_equal.
    assert (G : forall n, (-1 <= n)%Z -> sumZ 0 n (fun _ => 1) = IZR (n + 1)).
    { intro n. apply (sumZ_ind (fun n => (-1 <= n)%Z -> sumZ 0 n (fun _ => 1) = IZR (n + 1)) 0).
      - intros v V H. assert (v = -1)%Z as -> by lia. rewrite sumZ_empty by lia. cbn. lra.
      - intros v V IH H. rewrite sumZ_last, IH by lia. replace (v - 1 + 1)%Z with v by lia. rewrite plus_IZR. lra. }
    rewrite G by lia. f_equal. lia.
  - assert (S : sin (ang N d / 2) <> 0) by (intro H; apply E; apply half_sin; auto).
    apply Rmult_eq_reg_l with (2 * sin (ang N d / 2)); [|lra]. rewrite Rmult_0_r, <- sumZ_scal.
    set (g := fun k : Z => sin (u + ang N (k * d) - ang N d / 2)).
    rewrite (sumZ_ext 0 (N - 1) _ (fun k => g (k + 1)%Z - g k)).
    2:{ intros k _. unfold g. replace (u + ang N ((k + 1) * d) - ang N d / 2) with ((u + ang N (k * d)) + ang N d / 2).
        - unfold Rminus. rewrite !sin_plus, cos_neg, sin_neg. ring.
        - unfold ang. rewrite !mult_IZR, plus_IZR. field. auto. }
    rewrite (sum_tele2 g) by lia. replace (N - 1 + 1)%Z with N by lia. unfold g.
    replace (u + ang N (N * d) - ang N d / 2) with (u + ang N (0 * d) - ang N d / 2 + 2 * PI * IZR d).
    + rewrite sin_shift. ring.
    + unfold ang. rewrite !mult_IZR. field. auto.
Qed.
(** Laplacian of one mode. *)
Lemma cos_second : forall x d, cos (x + d) - 2 * cos x + cos (x - d) = (2 * cos d - 2) * cos x.
Proof. intros. unfold Rminus. rewrite !cos_plus, cos_neg, sin_neg. ring. Qed.
Lemma cos_le : forall N d, 2 * cos (ang N d) - 2 = - 4 * (sin (ang N d / 2) * sin (ang N d / 2)).
Proof. intros. replace (ang N d) with (2 * (ang N d / 2)) at 1 by field. rewrite cos_2a_sin. ring. Qed.

(** ** Triple sums *)
Lemma t3_ext : forall N1 N2 N3 f g, (forall a b c, in_domain N1 N2 N3 a b c -> f a b c = g a b c) -> total3 N1 N2 N3 f = total3 N1 N2 N3 g.
Proof.
  intros. unfold total3. apply sumZ_ext; intros a A. apply sumZ_ext; intros b B. apply sumZ_ext; intros c C. apply H. unfold in_domain. lia.
Qed.
Lemma t3_plus : forall N1 N2 N3 f g, total3 N1 N2 N3 (fun a b c => f a b c + g a b c) = total3 N1 N2 N3 f + total3 N1 N2 N3 g.
Proof.
  intros. unfold total3. rewrite <- sumZ_plus. apply sumZ_ext; intros a A. rewrite <- sumZ_plus. apply sumZ_ext; intros b B. apply sumZ_plus.
Qed.
Lemma t3_scal : forall N1 N2 N3 s f, total3 N1 N2 N3 (fun a b c => s * f a b c) = s * total3 N1 N2 N3 f.
Proof.
  intros. unfold total3. rewrite <- sumZ_scal. apply sumZ_ext; intros a A. rewrite <- sumZ_scal. apply sumZ_ext; intros b B. apply sumZ_scal.
Qed.
Lemma t3_zero : forall N1 N2 N3, total3 N1 N2 N3 (fun _ _ _ => 0) = 0.
Proof. intros. rewrite (t3_ext _ _ _ _ (fun a b c => 0 * 0)) by (intros; ring). rewrite t3_scal. ring. Qed.
Lemma t3_list : exists L : Z -> Z -> Z -> list (Z * Z * Z), forall N1 N2 N3 f, total3 N1 N2 N3 f = lsum (L N1 N2 N3) (fun p => f (fst (fst p)) (snd (fst p)) (snd p)).
Proof.
  set (rng := fun N : Z => map (fun n => (0 + Z.of_nat n)%Z) (seq 0 (Z.to_nat (N - 1 - 0 + 1)))).
  exists (fun N1 N2 N3 => flat_map (fun a => flat_map (fun b => map (fun c => (a, b, c)) (rng N3)) (rng N2)) (rng N1)).
  intros. rewrite lsum_flat. unfold total3. rewrite <- lsum_zrange. apply lsum_ext; intros a _.
  rewrite lsum_flat. rewrite <- lsum_zrange. apply lsum_ext; intros b _.
  rewrite lsum_map. rewrite <- lsum_zrange. reflexivity.
Qed.
Lemma t3_swap : forall N1 N2 N3 f,
  total3 N1 N2 N3 (fun a b c => total3 N1 N2 N3 (fun i j k => f a b c i j k)) =
  total3 N1 N2 N3 (fun i j k => total3 N1 N2 N3 (fun a b c => f a b c i j k)).
Proof.
  intros. destruct t3_list as [L HL].
  rewrite !HL. rewrite (lsum_ext _ _ _ (fun p => lsum (L N1 N2 N3) (fun q => f (fst (fst p)) (snd (fst p)) (snd p) (fst (fst q)) (snd (fst q)) (snd q)))) by (intros; apply HL).
  rewrite lsum_swap. apply lsum_ext. intros q _. symmetry. apply HL.
Qed.
Lemma t3_nonneg : forall N1 N2 N3 f, (forall a b c, in_domain N1 N2 N3 a b c -> 0 <= f a b c) -> 0 <= total3 N1 N2 N3 f.
Proof.
  assert (S1 : forall l u f, (forall i, (l <= i <= u)%Z -> 0 <= f i) -> 0 <= sumZ l u f).
  { intros l u f. apply (sumZ_ind (fun u => (forall i, (l <= i <= u)%Z -> 0 <= f i) -> 0 <= sumZ l u f) l).
    - intros. rewrite sumZ_empty by lia. lra.
    - intros v V IH H. rewrite sumZ_last by lia. assert (0 <= sumZ l (v - 1) f) by (apply IH; intros; apply H; lia). assert (0 <= f v) by (apply H; lia). lra. }
  intros. unfold total3. apply S1; intros a A. apply S1; intros b B. apply S1; intros c C. apply H. unfold in_domain. lia.
Qed.
Lemma sumZ_one : forall l u f x, (l <= x <= u)%Z -> (forall i, (l <= i <= u)%Z -> i <> x -> f i = 0) -> sumZ l u f = f x.
Proof.
  intros l u f x. apply (sumZ_ind (fun u => (l <= x <= u)%Z -> (forall i, (l <= i <= u)%Z -> i <> x -> f i = 0) -> sumZ l u f = f x) l).
  - intros v V H. lia.
  - intros v V IH H H0. rewrite sumZ_last by lia. destruct (Z.eq_dec v x) as [->|N].
    + rewrite (sumZ_ext l (x - 1) f (fun _ => 0 * 0)) by (intros; rewrite H0 by lia; ring). rewrite sumZ_scal. ring.
    + rewrite IH by (try lia; intros; apply H0; lia). rewrite (H0 v) by lia. ring.
Qed.
Lemma t3_one : forall N1 N2 N3 f x y z, in_domain N1 N2 N3 x y z ->
  (forall a b c, in_domain N1 N2 N3 a b c -> (a, b, c) <> (x, y, z) -> f a b c = 0) -> total3 N1 N2 N3 f = f x y z.
Proof.
  intros N1 N2 N3 f x y z [X [Y Z0]] H. unfold total3.
  rewrite (sumZ_one 0 (N1 - 1) _ x); [|lia|].
  - rewrite (sumZ_one 0 (N2 - 1) _ y); [|lia|].
    + rewrite (sumZ_one 0 (N3 - 1) _ z); [reflexivity|lia|]. intros k K NE. apply H; [unfold in_domain; lia|congruence].
    + intros j J NE. rewrite (sumZ_ext _ _ _ (fun _ => 0 * 0)). { rewrite sumZ_scal. ring. }
      intros k K. rewrite H; [ring|unfold in_domain; lia|congruence].
  - intros i I NE. rewrite (sumZ_ext _ _ _ (fun _ => 0 * 0)). { rewrite sumZ_scal. ring. }
    intros j J. rewrite (sumZ_ext _ _ _ (fun _ => 0 * 0)). { rewrite sumZ_scal. ring. }
    intros k K. rewrite H; [ring|unfold in_domain; lia|congruence].
Qed.

(** ** Orthogonality *)
Lemma angle_sum : forall N1 N2 N3 a b c i j k, angle N1 N2 N3 a b c i j k = ang N1 (i * a) + ang N2 (j * b) + ang N3 (k * c).
Proof. intros. unfold angle, ang. rewrite !(Z.mul_comm a), !(Z.mul_comm b), !(Z.mul_comm c). ring. Qed.
Lemma angle_sym : forall N1 N2 N3 a b c i j k, angle N1 N2 N3 a b c i j k = angle N1 N2 N3 i j k a b c.
Proof. intros. unfold angle. rewrite (Z.mul_comm a), (Z.mul_comm b), (Z.mul_comm c). reflexivity. Qed.
Lemma ortho : forall N1 N2 N3 u a b c, (0 < N1)%Z -> (0 < N2)%Z -> (0 < N3)%Z ->
  total3 N1 N2 N3 (fun i j k => cos (u + angle N1 N2 N3 a b c i j k)) =
  if ((a mod N1 =? 0) && (b mod N2 =? 0) && (c mod N3 =? 0))%Z then IZR (N1 * N2 * N3) * cos u else 0.
Proof.
  intros. unfold total3.
  rewrite (sumZ_ext 0 (N1 - 1) _ (fun i => (if (b mod N2 =? 0)%Z && (c mod N3 =? 0)%Z then IZR (N2 * N3) else 0) * cos (u + ang N1 (i * a)))).
  - rewrite sumZ_scal, cos_sum by lia. destruct (a mod N1 =? 0)%Z, (b mod N2 =? 0)%Z, (c mod N3 =? 0)%Z; cbn [andb]; rewrite ?mult_IZR; ring.
  - intros i _. rewrite (sumZ_ext 0 (N2 - 1) _ (fun j => (if (c mod N3 =? 0)%Z then IZR N3 else 0) * cos (u + ang N1 (i * a) + ang N2 (j * b)))).
    + rewrite sumZ_scal, cos_sum by lia. destruct (b mod N2 =? 0)%Z, (c mod N3 =? 0)%Z; cbn [andb]; rewrite ?mult_IZR; ring.
    + intros j _. rewrite (sumZ_ext 0 (N3 - 1) _ (fun k => cos (u + ang N1 (i * a) + ang N2 (j * b) + ang N3 (k * c)))).
      * rewrite cos_sum by lia. destruct (c mod N3 =? 0)%Z; ring.
      * intros k _. rewrite angle_sum. f_equal. ring.
Qed.
