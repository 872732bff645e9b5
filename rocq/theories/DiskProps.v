(** * C99: the Poisson solver for a disk in 3D *)
From Coq Require Import Reals ZArith List Bool Arith Lia Lra.
From Verif Require Import SumFacts GravModel GravSpec GravFacts GravProps ObcModel ObcProps DiskModel DiskSpec DiskFacts.
From Verif Require Import IntegSpec IntegFacts.
Import ListNotations.
Open Scope R_scope.

Lemma KCOMP_least : forall N a, (0 <= a < N)%Z -> KCOMP a N = least N a.
Proof.
  intros N a A. unfold KCOMP, least. rewrite Z.quot_div_nonneg by lia. destruct (Z.ltb_spec (2 * a) N).
  - rewrite Z.div_small by lia. lia.
  - replace (2 * a / N)%Z with 1%Z; [lia|]. apply Z.div_unique with (2 * a - N)%Z; lia.
Qed.
Lemma least_cos : forall N a, (0 < N)%Z -> cos (IZR (least N a) * (2 * PI / IZR N)) = cos (ang N a).
Proof.
  intros N a HN. assert (IZR N <> 0) by (apply not_0_IZR; lia). unfold least, ang. destruct (2 * a <? N)%Z; [f_equal; field; auto|].
  rewrite <- (cos_shift _ 1). f_equal. rewrite minus_IZR. field. auto.
Qed.

(** ** Sums over a box doubled in the third direction *)
Lemma t3_split3 : forall N1 N2 N3 f, (0 <= N3)%Z ->
  total3 N1 N2 (2 * N3) f = total3 N1 N2 N3 (fun a b c => f a b (2 * c + 0)%Z) + total3 N1 N2 N3 (fun a b c => f a b (2 * c + 1)%Z).
Proof.
  intros. rewrite <- t3_plus. unfold total3. apply sumZ_ext; intros a _. apply sumZ_ext; intros b _. rewrite sum_split by auto. rewrite <- sumZ_plus. reflexivity.
Qed.
Lemma t3_halves : forall N1 N2 N3 f, (0 <= N3)%Z ->
  total3 N1 N2 (2 * N3) f = total3 N1 N2 N3 f + total3 N1 N2 N3 (fun a b c => f a b (c + N3)%Z).
Proof.
  intros. rewrite <- t3_plus. unfold total3. apply sumZ_ext; intros a _. apply sumZ_ext; intros b _. rewrite sumZ_plus.
  rewrite <- (sumZ_cat 0 (N3 - 1) (2 * N3 - 1)) by lia. f_equal.
  rewrite (sumZ_ext 0 (N3 - 1) (fun c => f a b (c + N3)%Z) (fun c => f a b (N3 + (c - 0))%Z)) by (intros; f_equal; lia).
  rewrite sumZ_move. f_equal; lia.
Qed.
Lemma t3_layers : forall N1 N2 N3 f, total3 N1 N2 N3 f = sumZ 0 (N3 - 1) (fun c => total2 N1 N2 (fun a b => f a b c)).
Proof.
  intros. unfold total3, total2.
  rewrite (sumZ_ext 0 (N1 - 1) _ (fun a => sumZ 0 (N3 - 1) (fun c => sumZ 0 (N2 - 1) (fun b => f a b c)))) by (intros; apply sumZ_swap).
  apply sumZ_swap.
Qed.
Lemma t2_ext : forall N1 N2 f g, (forall a b, (0 <= a < N1)%Z -> (0 <= b < N2)%Z -> f a b = g a b) -> total2 N1 N2 f = total2 N1 N2 g.
Proof. intros. unfold total2. apply sumZ_ext; intros. apply sumZ_ext; intros. apply H; lia. Qed.
Lemma t2_plus : forall N1 N2 f g, total2 N1 N2 (fun a b => f a b + g a b) = total2 N1 N2 f + total2 N1 N2 g.
Proof. intros. unfold total2. rewrite <- sumZ_plus. apply sumZ_ext; intros. apply sumZ_plus. Qed.
Lemma t2_scal : forall N1 N2 s f, total2 N1 N2 (fun a b => s * f a b) = s * total2 N1 N2 f.
Proof. intros. unfold total2. rewrite <- sumZ_scal. apply sumZ_ext; intros. apply sumZ_scal. Qed.

(** ** Damping of horizontal modes *)
Section Damp.
Variables (N1 N2 : Z).
Hypothesis P1 : (0 < N1)%Z. Hypothesis P2 : (0 < N2)%Z.
Definition ang2 (a b i j : Z) : R := 2 * PI * (IZR (a * i) / IZR N1 + IZR (b * j) / IZR N2).
Lemma mode_phase : forall f a b W,
  total2 N1 N2 (fun i j => f i j * cos (W - ang2 a b i j)) = cos W * mode_cos N1 N2 f a b + sin W * mode_sin N1 N2 f a b.
Proof.
  intros. unfold mode_cos, mode_sin. rewrite <- !t2_scal, <- t2_plus. apply t2_ext. intros. rewrite cos_minus. unfold ang2. ring.
Qed.
Lemma ortho2 : forall u a b, total2 N1 N2 (fun i j => cos (u + ang2 a b i j)) = if ((a mod N1 =? 0) && (b mod N2 =? 0))%Z then IZR (N1 * N2) * cos u else 0.
Proof.
  intros. pose proof (ortho N1 N2 1 u a b 0 P1 P2 ltac:(lia)) as H. rewrite Z.mod_1_r in H. cbn [Z.eqb] in H. rewrite andb_true_r, Z.mul_1_r in H. rewrite <- H.
  rewrite t3_flat. apply t2_ext. intros. f_equal. unfold angle, ang2. rewrite Z.mul_0_l. unfold Rdiv. ring.
Qed.
Lemma t2_one : forall f x y, (0 <= x < N1)%Z -> (0 <= y < N2)%Z ->
  (forall a b, (0 <= a < N1)%Z -> (0 <= b < N2)%Z -> (a, b) <> (x, y) -> f a b = 0) -> total2 N1 N2 f = f x y.
Proof.
  intros f x y X Y H. transitivity (total3 N1 N2 1 (fun a b _ => f a b)); [rewrite t3_flat; reflexivity|]. rewrite (t3_one N1 N2 1 _ x y 0); auto.
  - unfold in_domain. lia.
  - intros a b c [A [B C]] NE. apply H; auto. intro E. injection E as -> ->. apply NE. f_equal. lia.
Qed.
Lemma t2_swap : forall f, total2 N1 N2 (fun a b => total2 N1 N2 (fun i j => f a b i j)) = total2 N1 N2 (fun i j => total2 N1 N2 (fun a b => f a b i j)).
Proof.
  intros. rewrite <- (t3_flat N1 N2 (fun a b _ => total2 N1 N2 (fun i j => f a b i j))), <- (t3_flat N1 N2 (fun i j _ => total2 N1 N2 (fun a b => f a b i j))).
  rewrite (t3_ext _ _ _ _ (fun a b _ => total3 N1 N2 1 (fun i j _ => f a b i j))) by (intros; rewrite t3_flat; reflexivity).
  rewrite (t3_swap N1 N2 1 (fun a b _ i j _ => f a b i j)). apply t3_ext. intros. rewrite t3_flat. reflexivity.
Qed.
(** Picking the modes congruent to (x,y). *)
Lemma t2_pick : forall (f : Z -> Z -> R) x y,
  total2 N1 N2 (fun a b => if (((a - x) mod N1 =? 0) && ((b - y) mod N2 =? 0))%Z then f a b else 0) = f (x mod N1)%Z (y mod N2)%Z.
Proof.
  intros f x y. pose proof (Z.mod_pos_bound x N1 P1). pose proof (Z.mod_pos_bound y N2 P2).
  assert (Q : forall N u v, (0 < N)%Z -> (0 <= u < N)%Z -> ((u - v) mod N = 0)%Z -> u = (v mod N)%Z).
  { intros N u v HN U E. rewrite Zminus_mod in E. rewrite (Z.mod_small u N U) in E. pose proof (Z.mod_pos_bound v N HN).
    apply Z.mod_divide in E; [|lia]. destruct E as [q E]. assert (q = 0)%Z by nia. subst q. lia. }
  assert (Q' : forall N v, (0 < N)%Z -> ((v mod N - v) mod N = 0)%Z).
  { intros N v HN. rewrite Zminus_mod, Z.mod_mod, Z.sub_diag by lia. apply Z.mod_0_l. lia. }
  rewrite (t2_one _ (x mod N1) (y mod N2)); auto.
  - rewrite !Q' by auto. reflexivity.
  - intros a b A B NE. destruct (Z.eqb_spec ((a - x) mod N1) 0) as [E1|]; cbn [andb]; auto. destruct (Z.eqb_spec ((b - y) mod N2) 0) as [E2|]; auto.
    apply Q in E1, E2; auto. subst. congruence.
Qed.
Variable E : Z -> Z -> R.
Hypothesis EV : forall a b, (0 <= a < N1)%Z -> (0 <= b < N2)%Z -> E ((- a) mod N1) ((- b) mod N2) = E a b.
Definition filter (f : Z -> Z -> R) (x y : Z) : R :=
  / IZR (N1 * N2) * total2 N1 N2 (fun a b => E a b * total2 N1 N2 (fun i j => f i j * cos (- ang2 a b i j + ang2 a b x y))).
Lemma NN2 : IZR (N1 * N2) <> 0. Proof. apply not_0_IZR. nia. Qed.
Lemma ang2_mod : forall a b i j, exists q, ang2 (a mod N1) (b mod N2) i j = ang2 a b i j + 2 * PI * IZR q.
Proof.
  intros. exists (- (a / N1 * i) - (b / N2 * j))%Z. unfold ang2.
  assert (IZR N1 <> 0) by (apply not_0_IZR; lia). assert (IZR N2 <> 0) by (apply not_0_IZR; lia).
  rewrite (Zmod_eq_full a N1), (Zmod_eq_full b N2) by lia. rewrite minus_IZR, opp_IZR, !mult_IZR, !minus_IZR, !mult_IZR. field. auto.
Qed.
Lemma filter_mode : forall f a b W, (0 <= a < N1)%Z -> (0 <= b < N2)%Z ->
  total2 N1 N2 (fun x y => filter f x y * cos (W - ang2 a b x y)) = E a b * total2 N1 N2 (fun i j => f i j * cos (W - ang2 a b i j)).
Proof.
  intros f a b W A B. unfold filter.
  rewrite (t2_ext _ _ _ (fun x y => / IZR (N1 * N2) * total2 N1 N2 (fun a' b' => E a' b' * total2 N1 N2 (fun i j => f i j * (cos (- ang2 a' b' i j + ang2 a' b' x y) * cos (W - ang2 a b x y)))))).
  2:{ intros x y _ _. rewrite Rmult_assoc. f_equal. rewrite Rmult_comm, <- t2_scal. apply t2_ext. intros a' b' _ _.
      rewrite <- Rmult_assoc, (Rmult_comm _ (E a' b')), Rmult_assoc. f_equal. rewrite <- t2_scal. apply t2_ext. intros. ring. }
  rewrite t2_scal, t2_swap.
  assert (INNER : forall a' b' i j, total2 N1 N2 (fun x y => cos (- ang2 a' b' i j + ang2 a' b' x y) * cos (W - ang2 a b x y)) =
     (if (((a' - a) mod N1 =? 0) && ((b' - b) mod N2 =? 0))%Z then IZR (N1 * N2) / 2 * cos (- ang2 a' b' i j + W) else 0) +
     (if (((a' - - a) mod N1 =? 0) && ((b' - - b) mod N2 =? 0))%Z then IZR (N1 * N2) / 2 * cos (- ang2 a' b' i j - W) else 0)).
  { intros. rewrite (t2_ext _ _ _ (fun x y => 1/2 * cos ((- ang2 a' b' i j + W) + ang2 (a' - a) (b' - b) x y) + 1/2 * cos ((- ang2 a' b' i j - W) + ang2 (a' - - a) (b' - - b) x y))).
    - rewrite t2_plus, !t2_scal, !ortho2. destruct (_ && _)%bool, (_ && _)%bool; field.
    - intros x y _ _.
      assert (S : ang2 (a' - a) (b' - b) x y = ang2 a' b' x y - ang2 a b x y) by (unfold ang2, Rdiv; rewrite !mult_IZR, !minus_IZR; ring).
      assert (S' : ang2 (a' - - a) (b' - - b) x y = ang2 a' b' x y + ang2 a b x y) by (unfold ang2, Rdiv; rewrite !mult_IZR, !minus_IZR, !opp_IZR; ring).
      rewrite S, S'. set (u := - ang2 a' b' i j). set (v := ang2 a' b' x y). set (w := ang2 a b x y).
      replace (u + W + (v - w)) with ((u + v) + (W - w)) by ring. replace (u - W + (v + w)) with ((u + v) - (W - w)) by ring.
      generalize (u + v) (W - w). intros X Y. rewrite cos_plus, cos_minus. field. }
  rewrite (t2_ext _ _ _ (fun a' b' => E a' b' * total2 N1 N2 (fun i j => f i j * ((if (((a' - a) mod N1 =? 0) && ((b' - b) mod N2 =? 0))%Z then IZR (N1 * N2) / 2 * cos (- ang2 a' b' i j + W) else 0) +
     (if (((a' - - a) mod N1 =? 0) && ((b' - - b) mod N2 =? 0))%Z then IZR (N1 * N2) / 2 * cos (- ang2 a' b' i j - W) else 0))))).
  2:{ intros a' b' _ _. rewrite t2_scal. f_equal. rewrite t2_swap. apply t2_ext. intros i j _ _. rewrite t2_scal. rewrite INNER. reflexivity. }
  set (g := fun a' b' => E a' b' * total2 N1 N2 (fun i j => f i j * (IZR (N1 * N2) / 2 * cos (- ang2 a' b' i j + W)))).
  set (h := fun a' b' => E a' b' * total2 N1 N2 (fun i j => f i j * (IZR (N1 * N2) / 2 * cos (- ang2 a' b' i j - W)))).
  rewrite (t2_ext _ _ _ (fun a' b' => (if (((a' - a) mod N1 =? 0) && ((b' - b) mod N2 =? 0))%Z then g a' b' else 0) + (if (((a' - - a) mod N1 =? 0) && ((b' - - b) mod N2 =? 0))%Z then h a' b' else 0))).
  2:{ intros a' b' _ _. rewrite (t2_ext _ _ _ (fun i j => f i j * (if (((a' - a) mod N1 =? 0) && ((b' - b) mod N2 =? 0))%Z then IZR (N1 * N2) / 2 * cos (- ang2 a' b' i j + W) else 0) +
        f i j * (if (((a' - - a) mod N1 =? 0) && ((b' - - b) mod N2 =? 0))%Z then IZR (N1 * N2) / 2 * cos (- ang2 a' b' i j - W) else 0))) by (intros; ring).
      rewrite t2_plus, Rmult_plus_distr_l. unfold g, h.
      assert (Z0 : total2 N1 N2 (fun i j => f i j * 0) = 0) by (rewrite (t2_ext _ _ _ (fun i j => 0 * f i j)) by (intros; ring); rewrite t2_scal; ring).
      destruct (((a' - a) mod N1 =? 0) && ((b' - b) mod N2 =? 0))%Z, (((a' - - a) mod N1 =? 0) && ((b' - - b) mod N2 =? 0))%Z; rewrite ?Z0; ring. }
  rewrite t2_plus, !t2_pick. unfold g, h. rewrite EV by auto. rewrite !Z.mod_small by auto.
  rewrite (t2_ext _ _ (fun i j => f i j * (_ * cos (- ang2 a b i j + W))) (fun i j => IZR (N1 * N2) / 2 * (f i j * cos (W - ang2 a b i j)))) by (intros; replace (- ang2 a b a0 b0 + W) with (W - ang2 a b a0 b0) by ring; ring).
  rewrite (t2_ext _ _ (fun i j => f i j * (_ * cos (- ang2 _ _ i j - W))) (fun i j => IZR (N1 * N2) / 2 * (f i j * cos (W - ang2 a b i j)))).
  2:{ intros i j _ _. destruct (ang2_mod (- a) (- b) i j) as [q ->]. assert (S : ang2 (- a) (- b) i j = - ang2 a b i j) by (unfold ang2, Rdiv; rewrite !mult_IZR, !opp_IZR; ring). rewrite S.
      replace (- (- ang2 a b i j + 2 * PI * IZR q) - W) with (- ((W - ang2 a b i j) + 2 * PI * IZR q)) by ring. rewrite cos_neg, cos_shift. ring. }
  rewrite !t2_scal. field. apply NN2.
Qed.
End Damp.

(** ** The image exists *)
Section Image.
Variables (dx1 dx2 L : R) (N1 N2 N3 : Z).
Hypothesis P1 : (0 < N1)%Z. Hypothesis P2 : (0 < N2)%Z.
Definition weight (a b : Z) : R := exp (- (wavenumber dx1 dx2 N1 N2 a b * L)).
Lemma least_neg : forall N a, (0 < N)%Z -> (0 <= a < N)%Z -> (least N ((- a) mod N) = - least N a \/ least N ((- a) mod N) = least N a)%Z.
Proof.
  intros N a HN A. unfold least. destruct (Z.eq_dec a 0) as [->|A0]; [rewrite Z.mod_0_l by lia; auto|].
  replace ((- a) mod N)%Z with (N - a)%Z by (apply Z.mod_unique with (-1)%Z; lia).
  destruct (Z.ltb_spec (2 * a) N), (Z.ltb_spec (2 * (N - a)) N); lia.
Qed.
Lemma weight_even : forall a b, (0 <= a < N1)%Z -> (0 <= b < N2)%Z -> weight ((- a) mod N1) ((- b) mod N2) = weight a b.
Proof.
  intros a b A B. unfold weight, wavenumber. f_equal. f_equal. f_equal. f_equal.
  assert (S : forall x y d, (x = - y \/ x = y)%Z -> (2 * PI * IZR x / d) * (2 * PI * IZR x / d) = (2 * PI * IZR y / d) * (2 * PI * IZR y / d)).
  { intros x y d [->| ->]; [rewrite opp_IZR; unfold Rdiv; ring|reflexivity]. }
  f_equal; apply S; apply least_neg; auto.
Qed.
Lemma weight_0 : weight 0 0 = 1.
Proof.
  unfold weight, wavenumber, least. replace (2 * 0 <? N1)%Z with true by (symmetry; apply Z.ltb_lt; lia). replace (2 * 0 <? N2)%Z with true by (symmetry; apply Z.ltb_lt; lia).
  unfold Rdiv. replace (_ + _) with 0 by ring. rewrite sqrt_0, Rmult_0_l, Ropp_0. apply exp_0.
Qed.
Lemma damped_phase : forall rho g, damped dx1 dx2 L N1 N2 N3 rho g -> forall a b c W, in_domain N1 N2 N3 a b c ->
  total2 N1 N2 (fun i j => g i j c * cos (W - ang2 N1 N2 a b i j)) = weight a b * total2 N1 N2 (fun i j => rho i j c * cos (W - ang2 N1 N2 a b i j)).
Proof.
  intros rho g H a b c W I. destruct (H a b c I) as [H1 H2]. fold (weight a b) in H1, H2.
  rewrite (mode_phase N1 N2 (fun i j => g i j c)), (mode_phase N1 N2 (fun i j => rho i j c)). rewrite H1, H2. ring.
Qed.
End Image.
(** The image the specification speaks of exists for every density. *)
Theorem C99_image : forall dx1 dx2 L N1 N2 N3 rho, (0 < N1)%Z -> (0 < N2)%Z -> exists g, damped dx1 dx2 L N1 N2 N3 rho g.
Proof.
  intros dx1 dx2 L N1 N2 N3 rho P1 P2.
  exists (fun i j c => filter N1 N2 (weight dx1 dx2 L N1 N2) (fun i j => rho i j c) i j).
  intros a b c [A [B C]]. cbv zeta. fold (weight dx1 dx2 L N1 N2 a b).
  assert (F := filter_mode N1 N2 P1 P2 (weight dx1 dx2 L N1 N2) (weight_even dx1 dx2 L N1 N2 P1 P2) (fun i j => rho i j c) a b).
  split.
  - specialize (F 0 A B). rewrite !mode_phase in F. rewrite cos_0, sin_0 in F. rewrite !Rmult_1_l, !Rmult_0_l, !Rplus_0_r in F. exact F.
  - specialize (F (PI / 2) A B). rewrite !mode_phase in F. rewrite cos_PI2, sin_PI2 in F. rewrite !Rmult_1_l, !Rmult_0_l, !Rplus_0_l in F. exact F.
Qed.
Print Assumptions C99_image.

(** ** One transform there and back *)
Section Pass.
Variables (N1 N2 N3 : Z) (ng : nat) (D : decomp).
Hypothesis P1 : (0 < N1)%Z. Hypothesis P2 : (0 < N2)%Z. Hypothesis P3 : (0 < N3)%Z.
Hypothesis TL : tiles N1 N2 N3 ng D.
Let ang3 := angle N1 N2 (2 * N3).
Variables (o : Z) (s : Z -> Z -> Z -> R) (C : Z -> Z -> Z -> R) (LD : nat -> Z -> Z -> Z -> R * R).
Definition tilt (c : Z) : R := 1/2 * IZR (o * c) * (2 * PI / IZR N3).
Hypothesis HL : forall a b c, in_domain N1 N2 N3 a b c -> gather D LD a b c = (s a b c * cos (tilt c), s a b c * - sin (tilt c)).
Lemma tilt_spec : forall a b c x y z, angle N1 N2 N3 a b c x y z + tilt z = ang3 a b (2 * c + o)%Z x y z.
Proof.
  intros. unfold tilt, ang3, angle.
  assert (IZR N1 <> 0) by (apply not_0_IZR; lia). assert (IZR N2 <> 0) by (apply not_0_IZR; lia). assert (IZR N3 <> 0) by (apply not_0_IZR; lia).
  rewrite !mult_IZR, !plus_IZR, !mult_IZR. field. auto.
Qed.
Lemma disk_pass : forall p i j k, 
  let work := scatter D (dft3 (-1) N1 N2 N3 (gather D LD)) in
  let work := fun p i j k => times D C p i j k (work p i j k) in
  let work := scatter D (dft3 1 N1 N2 N3 (gather D work)) in
  cos (tilt (k + d3 (Disp D p))) * fst (work p i j k) - sin (tilt (k + d3 (Disp D p))) * snd (work p i j k) =
  total3 N1 N2 N3 (fun a b c => C a b c * total3 N1 N2 N3 (fun x y z => s x y z *
     cos (ang3 a b (2 * c + o)%Z (i + d1 (Disp D p)) (j + d2 (Disp D p)) (k + d3 (Disp D p)) - ang3 a b (2 * c + o)%Z x y z))).
Proof.
  intros p i j k. cbv zeta. destruct TL as [TA [TD TB]].
  set (FW := dft3 (-1) N1 N2 N3 (gather D LD)).
  assert (FT : forall a b c, FW a b c =
     (total3 N1 N2 N3 (fun x y z => s x y z * cos (ang3 a b (2 * c + o)%Z x y z)), total3 N1 N2 N3 (fun x y z => s x y z * - sin (ang3 a b (2 * c + o)%Z x y z)))).
  { intros a b c. unfold FW, dft3. cbv zeta. f_equal; apply t3_ext; intros i0 j0 k0 A; rewrite HL by auto; cbn [fst snd]; rewrite <- tilt_spec, ?cos_plus, ?sin_plus; ring. }
  set (W := fun p i j k => times D C p i j k (scatter D FW p i j k)).
  assert (GW : forall a b c, gather D W a b c = (C a b c * fst (FW a b c), C a b c * snd (FW a b c))).
  { intros a b c. unfold gather at 1, W, times, scatter, scale. cbv zeta. rewrite !Z.sub_add. f_equal; ring. }
  unfold scatter. unfold dft3. cbv zeta. cbn [fst snd].
  set (x := (i + d1 (Disp D p))%Z). set (y := (j + d2 (Disp D p))%Z). set (z := (k + d3 (Disp D p))%Z). set (t := tilt z).
  change (cos t * total3 N1 N2 N3 (fun a b c => fst (gather D W a b c) * cos (angle N1 N2 N3 x y z a b c) - 1 * (snd (gather D W a b c) * sin (angle N1 N2 N3 x y z a b c))) -
          sin t * total3 N1 N2 N3 (fun a b c => snd (gather D W a b c) * cos (angle N1 N2 N3 x y z a b c) + 1 * (fst (gather D W a b c) * sin (angle N1 N2 N3 x y z a b c))) =
          total3 N1 N2 N3 (fun a b c => C a b c * total3 N1 N2 N3 (fun x0 y0 z0 => s x0 y0 z0 * cos (ang3 a b (2 * c + o)%Z x y z - ang3 a b (2 * c + o)%Z x0 y0 z0)))).
  unfold Rminus at 1. rewrite <- t3_scal, Ropp_mult_distr_l, <- t3_scal, <- t3_plus.
  apply t3_ext. intros a b c A. rewrite GW, FT. cbn [fst snd]. rewrite (angle_sym N1 N2 N3 x y z a b c).
  assert (U : angle N1 N2 N3 a b c x y z + t = ang3 a b (2 * c + o)%Z x y z) by apply tilt_spec.
  rewrite (t3_ext _ _ _ (fun x0 y0 z0 => s x0 y0 z0 * cos (_ - _)) (fun x0 y0 z0 =>
      cos (angle N1 N2 N3 a b c x y z + t) * (s x0 y0 z0 * cos (ang3 a b (2 * c + o)%Z x0 y0 z0)) +
      (- sin (angle N1 N2 N3 a b c x y z + t)) * (s x0 y0 z0 * - sin (ang3 a b (2 * c + o)%Z x0 y0 z0)))) by (intros; rewrite U, cos_minus; ring).
  rewrite t3_plus, !t3_scal, cos_plus, sin_plus.
  set (S1 := total3 _ _ _ _). set (S2 := total3 _ _ _ _). set (u := angle _ _ _ _ _ _ _ _ _). clearbody S1 S2 u t. ring.
Qed.
End Pass.

(** ** The stored potential *)
Section Main.
Variables (G4 dx1 dx2 dx3 L : R) (N1 N2 N3 : Z) (ng : nat) (D : decomp) (rhoG : nat -> Z -> Z -> Z -> R) (rho g : Z -> Z -> Z -> R).
Hypothesis P1 : (0 < N1)%Z. Hypothesis P2 : (0 < N2)%Z. Hypothesis P3 : (0 < N3)%Z.
Hypothesis X1 : 0 < dx1. Hypothesis X2 : 0 < dx2.
Hypothesis TL : tiles N1 N2 N3 ng D.
Hypothesis HR : holds ng D rhoG rho.
Hypothesis HG : damped dx1 dx2 L N1 N2 N3 rho g.
Lemma damping_weight : forall a b, (0 <= a < N1)%Z -> (0 <= b < N2)%Z -> damping dx1 dx2 L N1 N2 a b = weight dx1 dx2 L N1 N2 a b.
Proof.
  intros a b A B. unfold damping, weight, wavenumber, kxtdx, kydy. rewrite !KCOMP_least by auto.
  assert (IZR N1 <> 0) by (apply not_0_IZR; lia). assert (IZR N2 <> 0) by (apply not_0_IZR; lia).
  rewrite Ropp_mult_distr_l_reverse. f_equal. f_equal. f_equal. f_equal. field. repeat split; auto; lra.
Qed.
Lemma den_lam : forall a b m x, (0 <= a < N1)%Z -> (0 <= b < N2)%Z -> x * (2 * PI / IZR N3) = ang (2 * N3) m ->
  (2 * cos (kxtdx N1 a) - 2) / (dx1 * dx1) + (2 * cos (kydy N2 b) - 2) / (dx2 * dx2) + (2 * cos (x * (2 * PI / IZR N3)) - 2) / (dx3 * dx3) =
  lam dx1 dx2 dx3 N1 N2 (2 * N3) a b m.
Proof.
  intros a b m x A B E. unfold lam, kxtdx, kydy. rewrite !KCOMP_least, !least_cos, E by auto. reflexivity.
Qed.
Lemma A_cf : forall a b c, in_domain N1 N2 N3 a b c -> Acoeff dx1 dx2 dx3 L N1 N2 N3 a b c = 1/2 * (1 - weight dx1 dx2 L N1 N2 a b) * cf dx1 dx2 dx3 N1 N2 (2 * N3) a b (2 * c + 0).
Proof.
  intros a b c [A [B C]]. unfold Acoeff, cf. rewrite damping_weight by auto.
  assert (IZR N3 <> 0) by (apply not_0_IZR; lia).
  rewrite (den_lam a b (2 * c + 0) (IZR c)) by (auto; unfold ang; rewrite plus_IZR, !mult_IZR; field; auto).
  replace (2 * c + 0 =? 0)%Z with (c =? 0)%Z by (destruct (Z.eqb_spec c 0), (Z.eqb_spec (2 * c + 0) 0); auto; lia).
  replace ((c =? 0) && (b =? 0) && (a =? 0))%Z with ((a =? 0) && (b =? 0) && (c =? 0))%Z by (destruct (a =? 0)%Z, (b =? 0)%Z, (c =? 0)%Z; reflexivity).
  destruct ((a =? 0) && (b =? 0) && (c =? 0))%Z; unfold Rdiv; ring.
Qed.
Lemma B_cf : forall a b c, in_domain N1 N2 N3 a b c -> Bcoeff dx1 dx2 dx3 L N1 N2 N3 a b c = 1/2 * (1 + weight dx1 dx2 L N1 N2 a b) * cf dx1 dx2 dx3 N1 N2 (2 * N3) a b (2 * c + 1).
Proof.
  intros a b c [A [B C]]. unfold Bcoeff, cf. rewrite damping_weight by auto.
  assert (IZR N3 <> 0) by (apply not_0_IZR; lia).
  rewrite (den_lam a b (2 * c + 1) (1/2 + IZR c)) by (auto; unfold ang; rewrite plus_IZR, !mult_IZR; field; auto).
  replace (2 * c + 1 =? 0)%Z with false by (symmetry; apply Z.eqb_neq; lia). rewrite andb_false_r. unfold Rdiv; ring.
Qed.
(** What the image contributes to a mode. *)
Lemma T_image : forall x y z a b c o, in_domain N1 N2 N3 a b c -> (o = 0 \/ o = 1)%Z ->
  T N1 N2 (2 * N3) (imaged N3 rho g) x y z a b (2 * c + o) =
  (1 - (1 - 2 * IZR o) * weight dx1 dx2 L N1 N2 a b) *
  total3 N1 N2 N3 (fun i j k => rho i j k * cos (angle N1 N2 (2 * N3) a b (2 * c + o) x y z - angle N1 N2 (2 * N3) a b (2 * c + o) i j k)).
Proof.
  intros x y z a b c o I O. unfold T. rewrite t3_halves by lia.
  set (U := angle N1 N2 (2 * N3) a b (2 * c + o) x y z).
  assert (IZR N3 <> 0) by (apply not_0_IZR; lia).
  rewrite (t3_ext N1 N2 N3 (fun i j k => imaged N3 rho g i j k * _) (fun i j k => rho i j k * cos (U - angle N1 N2 (2 * N3) a b (2 * c + o) i j k))).
  2:{ intros i j k [_ [_ K]]. unfold imaged. destruct (Z.ltb_spec k N3); [reflexivity|lia]. }
  rewrite (t3_ext N1 N2 N3 (fun i j k => imaged N3 rho g i j (k + N3)%Z * _) (fun i j k => - (1 - 2 * IZR o) * (g i j k * cos (U - angle N1 N2 (2 * N3) a b (2 * c + o) i j k)))).
  2:{ intros i j k [_ [_ K]]. unfold imaged. destruct (Z.ltb_spec (k + N3) N3); [lia|]. replace (k + N3 - N3)%Z with k by lia.
      set (v := angle N1 N2 (2 * N3) a b (2 * c + o) i j k).
      assert (V : angle N1 N2 (2 * N3) a b (2 * c + o) i j (k + N3) = v + 2 * PI * IZR c + IZR o * PI).
      { unfold v, angle. rewrite !(mult_IZR (2 * c + o)), !plus_IZR, !mult_IZR. field. repeat split; auto; apply not_0_IZR; lia. }
      rewrite V. replace (U - (v + 2 * PI * IZR c + IZR o * PI)) with (U - v - IZR o * PI + 2 * PI * IZR (- c)) by (rewrite opp_IZR; ring).
      rewrite cos_shift. destruct O as [-> | ->].
      - replace (U - v - 0 * PI) with (U - v) by ring. ring.
      - replace (U - v - 1 * PI) with (- (PI - (U - v))) by ring. rewrite cos_neg, Rtrigo_facts.cos_pi_minus. ring. }
  rewrite t3_scal. rewrite !t3_layers.
  set (R0 := fun k => total2 N1 N2 (fun i j => rho i j k * cos (U - angle N1 N2 (2 * N3) a b (2 * c + o) i j k))).
  rewrite (sumZ_ext 0 (N3 - 1) (fun k => total2 N1 N2 (fun i j => g i j k * _)) (fun k => weight dx1 dx2 L N1 N2 a b * R0 k)).
  - rewrite sumZ_scal. unfold R0. ring.
  - intros k K. unfold R0.
    assert (Q : forall i j, U - angle N1 N2 (2 * N3) a b (2 * c + o) i j k = (U - ang (2 * N3) ((2 * c + o) * k)) - ang2 N1 N2 a b i j).
    { intros. unfold angle, ang, ang2. ring. }
    rewrite (t2_ext _ _ (fun i j => g i j k * _) (fun i j => g i j k * cos ((U - ang (2 * N3) ((2 * c + o) * k)) - ang2 N1 N2 a b i j))) by (intros; rewrite Q; reflexivity).
    rewrite (t2_ext _ _ (fun i j => rho i j k * _) (fun i j => rho i j k * cos ((U - ang (2 * N3) ((2 * c + o) * k)) - ang2 N1 N2 a b i j))) by (intros; rewrite Q; reflexivity).
    apply (damped_phase dx1 dx2 L N1 N2 N3 rho g HG). destruct I as [A [B _]]. unfold in_domain. lia.
Qed.
Lemma disk_active : forall p i j k, (p < ng)%nat -> in_grid D p i j k ->
  selfg_fft_disk_3d G4 dx1 dx2 dx3 L N1 N2 N3 D rhoG p i j k =
  pot G4 dx1 dx2 dx3 N1 N2 (2 * N3) (imaged N3 rho g) (i + d1 (Disp D p)) (j + d2 (Disp D p)) (k + d3 (Disp D p)).
Proof.
  intros p i j k Hp I. set (s := fun a b c => rho a b c * G4).
  assert (RG : forall a b c, in_domain N1 N2 N3 a b c -> gather D rhoG a b c = rho a b c).
  { intros a b c A. destruct TL as [TA _]. destruct (TA a b c A) as [Lt IG]. unfold gather. rewrite HR by auto. rewrite !Z.sub_add. reflexivity. }
  assert (L1 : forall a b c, in_domain N1 N2 N3 a b c -> gather D (load1 G4 rhoG) a b c = (s a b c * cos (tilt N3 0 c), s a b c * - sin (tilt N3 0 c))).
  { intros a b c A. specialize (RG a b c A). unfold gather, load1, s, tilt in *. rewrite Z.mul_0_l. replace (1/2 * 0 * _) with 0 by ring. rewrite cos_0, sin_0.
    rewrite RG. f_equal; ring. }
  assert (L2 : forall a b c, in_domain N1 N2 N3 a b c -> gather D (load2 G4 N3 D rhoG) a b c = (s a b c * cos (tilt N3 1 c), s a b c * - sin (tilt N3 1 c))).
  { intros a b c A. specialize (RG a b c A). unfold gather, load2, half, s, tilt in *. rewrite Z.mul_1_l, Z.sub_add. rewrite RG. f_equal; ring. }
  pose proof (disk_pass N1 N2 N3 ng D P1 P2 P3 TL 0 s (Acoeff dx1 dx2 dx3 L N1 N2 N3) _ L1 p i j k) as Q1. cbv zeta in Q1.
  pose proof (disk_pass N1 N2 N3 ng D P1 P2 P3 TL 1 s (Bcoeff dx1 dx2 dx3 L N1 N2 N3) _ L2 p i j k) as Q2. cbv zeta in Q2.
  assert (T0 : tilt N3 0 (k + d3 (Disp D p)) = 0) by (unfold tilt; rewrite Z.mul_0_l; ring). rewrite T0, cos_0, sin_0, Rmult_1_l, Rmult_0_l, Rminus_0_r in Q1.
  assert (T1 : tilt N3 1 (k + d3 (Disp D p)) = half N3 D p k) by (unfold tilt, half; rewrite Z.mul_1_l; reflexivity). rewrite T1 in Q2.
  unfold selfg_fft_disk_3d. cbv zeta. unfold Rminus at 1. rewrite Rplus_assoc. fold (Rminus (cos (half N3 D p k) * fst (scatter D (dft3 1 N1 N2 N3 (gather D (fun p0 i0 j0 k0 => times D (Bcoeff dx1 dx2 dx3 L N1 N2 N3) p0 i0 j0 k0 (scatter D (dft3 (-1) N1 N2 N3 (gather D (load2 G4 N3 D rhoG))) p0 i0 j0 k0)))) p i j k)) (sin (half N3 D p k) * snd (scatter D (dft3 1 N1 N2 N3 (gather D (fun p0 i0 j0 k0 => times D (Bcoeff dx1 dx2 dx3 L N1 N2 N3) p0 i0 j0 k0 (scatter D (dft3 (-1) N1 N2 N3 (gather D (load2 G4 N3 D rhoG))) p0 i0 j0 k0)))) p i j k))).
  rewrite Q1, Q2. clear Q1 Q2. unfold pot. rewrite t3_split3 by lia.
  set (x := (i + d1 (Disp D p))%Z). set (y := (j + d2 (Disp D p))%Z). set (z := (k + d3 (Disp D p))%Z).
  rewrite (t3_ext N1 N2 N3 (fun a b c => Acoeff _ _ _ _ _ _ _ a b c * _) (fun a b c => G4 / 2 * (cf dx1 dx2 dx3 N1 N2 (2 * N3) a b (2 * c + 0) * T N1 N2 (2 * N3) (imaged N3 rho g) x y z a b (2 * c + 0)))).
  2:{ intros a b c A. rewrite A_cf, T_image by auto. unfold s.
      rewrite (t3_ext _ _ _ _ (fun i j k => G4 * (rho i j k * cos (angle N1 N2 (2 * N3) a b (2 * c + 0) x y z - angle N1 N2 (2 * N3) a b (2 * c + 0) i j k)))) by (intros; ring).
      rewrite t3_scal. field. }
  rewrite (t3_ext N1 N2 N3 (fun a b c => Bcoeff _ _ _ _ _ _ _ a b c * _) (fun a b c => G4 / 2 * (cf dx1 dx2 dx3 N1 N2 (2 * N3) a b (2 * c + 1) * T N1 N2 (2 * N3) (imaged N3 rho g) x y z a b (2 * c + 1)))).
  2:{ intros a b c A. rewrite B_cf, T_image by auto. unfold s.
      rewrite (t3_ext _ _ _ _ (fun i j k => G4 * (rho i j k * cos (angle N1 N2 (2 * N3) a b (2 * c + 1) x y z - angle N1 N2 (2 * N3) a b (2 * c + 1) i j k)))) by (intros; ring).
      rewrite t3_scal. field. }
  rewrite !t3_scal. replace (N1 * N2 * (2 * N3))%Z with (2 * (N1 * N2 * N3))%Z by ring. rewrite (mult_IZR 2).
  field. apply NN; auto.
Qed.
End Main.

(** The stored potential is the mean-free potential, in a periodic box twice as thick, of the gas and a negative image whose
    horizontal modes are weakened by exp(-k L), L the thickness of the Domain. *)
Theorem C99_3d : forall G4 dx1 dx2 dx3 L N1 N2 N3 ng D rhoG rho g,
  (0 < N1)%Z -> (0 < N2)%Z -> (0 < N3)%Z -> 0 < dx1 -> 0 < dx2 -> 0 < dx3 -> tiles N1 N2 N3 ng D -> holds ng D rhoG rho ->
  damped dx1 dx2 L N1 N2 N3 rho g ->
  exists P, potential3 G4 dx1 dx2 dx3 N1 N2 (2 * N3) (imaged N3 rho g) P /\
    forall p i j k, (p < ng)%nat -> in_grid D p i j k ->
      selfg_fft_disk_3d G4 dx1 dx2 dx3 L N1 N2 N3 D rhoG p i j k = P (i + d1 (Disp D p))%Z (j + d2 (Disp D p))%Z (k + d3 (Disp D p))%Z.
Proof.
  intros G4 dx1 dx2 dx3 L N1 N2 N3 ng D rhoG rho g P1 P2 P3 X1 X2 X3 TL HR HG.
  exists (pot G4 dx1 dx2 dx3 N1 N2 (2 * N3) (imaged N3 rho g)). split.
  - split; [apply pot_periodic; lia|]. split; [apply pot_total; lia|]. intros. rewrite pot_poisson by (auto; lia). reflexivity.
  - intros. apply (disk_active G4 dx1 dx2 dx3 L N1 N2 N3 ng D rhoG rho g); auto.
Qed.
Print Assumptions C99_3d.
Lemma imaged_total : forall dx1 dx2 L N1 N2 N3 rho g, (0 < N1)%Z -> (0 < N2)%Z -> (0 < N3)%Z -> damped dx1 dx2 L N1 N2 N3 rho g ->
  (forall c, (0 <= c < N3)%Z -> total2 N1 N2 (fun a b => g a b c) = total2 N1 N2 (fun a b => rho a b c)) /\
  total3 N1 N2 (2 * N3) (imaged N3 rho g) = 0.
Proof.
  intros dx1 dx2 L N1 N2 N3 rho g P1 P2 P3 HG.
  assert (E : forall c, (0 <= c < N3)%Z -> total2 N1 N2 (fun a b => g a b c) = total2 N1 N2 (fun a b => rho a b c)).
  { intros c C. assert (I : in_domain N1 N2 N3 0 0 c) by (unfold in_domain; lia).
    pose proof (damped_phase dx1 dx2 L N1 N2 N3 rho g HG 0 0 c 0 I) as Q. rewrite weight_0, Rmult_1_l in Q by auto.
    assert (A : forall i j, cos (0 - ang2 N1 N2 0 0 i j) = 1).
    { intros. unfold ang2. rewrite !Z.mul_0_l. unfold Rdiv. replace (0 - _) with 0 by ring. apply cos_0. }
    rewrite (t2_ext _ _ _ (fun i j => g i j c)) in Q by (intros; rewrite A; ring).
    rewrite (t2_ext _ _ (fun i j => rho i j c * _) (fun i j => rho i j c)) in Q by (intros; rewrite A; ring). exact Q. }
  split; [exact E|]. rewrite t3_halves by lia.
  rewrite (t3_ext _ _ _ (imaged N3 rho g) rho) by (intros a b c [_ [_ C]]; unfold imaged; destruct (Z.ltb_spec c N3); [reflexivity|lia]).
  rewrite (t3_ext _ _ _ (fun a b c => imaged N3 rho g a b (c + N3)%Z) (fun a b c => -1 * g a b c)) by (intros a b c [_ [_ C]]; unfold imaged; destruct (Z.ltb_spec (c + N3) N3); [lia|]; replace (c + N3 - N3)%Z with c by lia; ring).
  rewrite t3_scal, !t3_layers. rewrite (sumZ_ext 0 (N3 - 1) (fun c => total2 N1 N2 (fun a b => g a b c)) (fun c => total2 N1 N2 (fun a b => rho a b c))) by (intros; apply E; lia). ring.
Qed.
(** Poisson's equation holds in every cell with the full density (no mean subtracted), the potential is periodic in the plane,
    and averaged over the plane it is the potential of sheets in vacuum, up to a constant. *)
Theorem C99_3d_poisson : forall G4 dx1 dx2 dx3 L N1 N2 N3 ng D rhoG rho,
  (0 < N1)%Z -> (0 < N2)%Z -> (0 < N3)%Z -> 0 < dx1 -> 0 < dx2 -> 0 < dx3 -> tiles N1 N2 N3 ng D -> holds ng D rhoG rho ->
  exists P, (forall p i j k, (p < ng)%nat -> in_grid D p i j k ->
      selfg_fft_disk_3d G4 dx1 dx2 dx3 L N1 N2 N3 D rhoG p i j k = P (i + d1 (Disp D p))%Z (j + d2 (Disp D p))%Z (k + d3 (Disp D p))%Z) /\
    (forall a b c, P (a + N1)%Z b c = P a b c /\ P a (b + N2)%Z c = P a b c) /\
    (forall a b c, in_domain N1 N2 N3 a b c -> lap3 dx1 dx2 dx3 P a b c = G4 * rho a b c) /\
    exists C, forall c, (-1 <= c <= N3)%Z ->
      total2 N1 N2 (fun a b => P a b c) = sheets G4 dx3 N3 (fun c => total2 N1 N2 (fun a b => rho a b c)) c + C.
Proof.
  intros G4 dx1 dx2 dx3 L N1 N2 N3 ng D rhoG rho P1 P2 P3 X1 X2 X3 TL HR.
  destruct (C99_image dx1 dx2 L N1 N2 N3 rho P1 P2) as [g HG].
  destruct (imaged_total dx1 dx2 L N1 N2 N3 rho g P1 P2 P3 HG) as [GT IT].
  destruct (C99_3d G4 dx1 dx2 dx3 L N1 N2 N3 ng D rhoG rho g P1 P2 P3 X1 X2 X3 TL HR HG) as [P [[PP [PT PL]] PE]].
  exists P. split; [exact PE|]. split; [intros a b c; destruct (PP a b c) as [A [B _]]; auto|]. split.
  { intros a b c [A [B C]]. rewrite PL by (unfold in_domain; lia). rewrite IT. unfold imaged. destruct (Z.ltb_spec c N3); [|lia]. unfold Rdiv. ring. }
  set (S := fun c => total2 N1 N2 (fun a b => P a b c)).
  set (sg := fun c => total2 N1 N2 (fun a b => imaged N3 rho g a b c)).
  assert (SP : forall c, S (c + 2 * N3)%Z = S c) by (intro c; unfold S; apply t2_ext; intros a b _ _; apply (PP a b c)).
  (* the second difference along the plane sums to nothing *)
  assert (CYC : forall N f, (0 < N)%Z -> (forall x, f (x + N)%Z = f x) -> sumZ 0 (N - 1) (fun x => f (x + 1)%Z - 2 * f x + f (x - 1)%Z) = 0).
  { intros N f HN FP. rewrite (sumZ_ext _ _ _ (fun x => (f (x + 1)%Z - f x) - (f (x + 1 - 1)%Z - f (x - 1)%Z))) by (intros; replace (i + 1 - 1)%Z with i by lia; ring).
    rewrite (sumZ_ext _ _ _ (fun x => (fun y => f y - f (y - 1)%Z) (x + 1)%Z - (fun y => f y - f (y - 1)%Z) x)) by (intros; cbv beta; replace (i + 1 - 1)%Z with i by lia; ring).
    rewrite (sumZ_tele 0 (N - 1) (fun y => f y - f (y - 1)%Z)) by lia. replace (N - 1 + 1)%Z with (0 + N)%Z by lia. replace (0 + N - 1)%Z with (0 - 1 + N)%Z by lia. rewrite !FP. ring. }
  assert (SEC : forall c, (0 <= c < 2 * N3)%Z -> S (c + 1)%Z - 2 * S c + S (c - 1)%Z = G4 * (dx3 * dx3) * sg c).
  { intros c C. unfold S, sg.
    assert (X0 : total2 N1 N2 (fun a b => P (a + 1)%Z b c - 2 * P a b c + P (a - 1)%Z b c) = 0).
    { unfold total2. rewrite sumZ_swap. rewrite (sumZ_ext _ _ _ (fun _ => 0)); [apply sumZ_zero|]. intros b _. apply (CYC N1 (fun a => P a b c)); auto. intro a. apply (PP a b c). }
    assert (Y0 : total2 N1 N2 (fun a b => P a (b + 1)%Z c - 2 * P a b c + P a (b - 1)%Z c) = 0).
    { unfold total2. rewrite (sumZ_ext _ _ _ (fun _ => 0)); [apply sumZ_zero|]. intros a _. apply (CYC N2 (fun b => P a b c)); auto. intro b. apply (PP a b c). }
    transitivity (total2 N1 N2 (fun a b => P a b (c + 1)%Z - 2 * P a b c + P a b (c - 1)%Z)).
    { rewrite (t2_ext _ _ (fun a b => P a b (c + 1)%Z - 2 * P a b c + P a b (c - 1)%Z) (fun a b => (P a b (c + 1)%Z + (-2) * P a b c) + P a b (c - 1)%Z)) by (intros; ring). rewrite !t2_plus, t2_scal. ring. }
    rewrite (t2_ext _ _ _ (fun a b => G4 * (dx3 * dx3) * imaged N3 rho g a b c +
       ((- (dx3 * dx3) / (dx1 * dx1)) * (P (a + 1)%Z b c - 2 * P a b c + P (a - 1)%Z b c) + (- (dx3 * dx3) / (dx2 * dx2)) * (P a (b + 1)%Z c - 2 * P a b c + P a (b - 1)%Z c)))).
    - rewrite !t2_plus, !t2_scal, X0, Y0. ring.
    - intros a b A B. specialize (PL a b c ltac:(unfold in_domain; lia)). rewrite IT in PL. unfold lap3 in PL.
      set (u := P (a + 1)%Z b c - 2 * P a b c + P (a - 1)%Z b c) in *. set (v := P a (b + 1)%Z c - 2 * P a b c + P a (b - 1)%Z c) in *. set (w := P a b (c + 1)%Z - 2 * P a b c + P a b (c - 1)%Z) in *.
      assert (W : w / (dx3 * dx3) = G4 * imaged N3 rho g a b c - u / (dx1 * dx1) - v / (dx2 * dx2)) by (unfold Rdiv in *; lra).
      replace w with (dx3 * dx3 * (w / (dx3 * dx3))) by (field; lra). rewrite W. unfold Rdiv. ring. }
  assert (SG : forall c, (0 <= c < N3)%Z -> sg c = total2 N1 N2 (fun a b => rho a b c) /\ sg (c + N3)%Z = - total2 N1 N2 (fun a b => rho a b c)).
  { intros c C. unfold sg. split.
    - apply t2_ext. intros. unfold imaged. destruct (Z.ltb_spec c N3); [reflexivity|lia].
    - rewrite <- GT by auto. replace (- total2 N1 N2 (fun a b => g a b c)) with (-1 * total2 N1 N2 (fun a b => g a b c)) by ring. rewrite <- t2_scal. apply t2_ext. intros. unfold imaged.
      destruct (Z.ltb_spec (c + N3) N3); [lia|]. replace (c + N3 - N3)%Z with c by lia. ring. }
  (* S changes sign over the thickness *)
  assert (AP : forall c, (0 <= c < 2 * N3)%Z -> S c + S (c + N3)%Z = 0).
  { intros c C. apply (harmonic_zero 1 1 dx3 1 1 (2 * N3) (fun _ _ z => S z + S (z + N3)%Z)) with (a := 0%Z) (b := 0%Z) (c := c); auto; try lia; try lra.
    - intros x y z. split; [reflexivity|]. split; [reflexivity|]. rewrite SP. replace (z + 2 * N3 + N3)%Z with (z + N3 + 2 * N3)%Z by lia. rewrite SP. reflexivity.
    - assert (ST : sumZ 0 (2 * N3 - 1) S = 0). { unfold S. rewrite <- t3_layers. exact PT. }
      assert (SH : sumZ 0 (2 * N3 - 1) (fun z => S (z + N3)%Z) = 0).
      { rewrite <- ST. rewrite <- (sumZ_cat 0 (N3 - 1) (2 * N3 - 1) S), <- (sumZ_cat 0 (N3 - 1) (2 * N3 - 1)) by lia. rewrite Rplus_comm. f_equal.
        - rewrite (sumZ_ext _ _ _ (fun z => S (0 + (z - (N3 - 1 + 1)))%Z)) by (intros z _; replace (z + N3)%Z with (0 + (z - (N3 - 1 + 1)) + 2 * N3)%Z by lia; apply SP). rewrite sumZ_move. f_equal. lia.
        - rewrite (sumZ_ext _ _ _ (fun z => S (N3 - 1 + 1 + (z - 0))%Z)) by (intros z _; f_equal; lia). rewrite sumZ_move. f_equal. lia. }
      unfold total3. rewrite (sumZ_one 0 (1 - 1) _ 0); [|lia|intros; lia]. rewrite (sumZ_one 0 (1 - 1) _ 0); [|lia|intros; lia]. rewrite sumZ_plus, ST, SH. ring.
    - intros x y z [_ [_ Hz]]. unfold lap3.
      assert (Z2 : S (z + N3 + 1)%Z - 2 * S (z + N3)%Z + S (z + N3 - 1)%Z = G4 * (dx3 * dx3) * - sg z).
      { destruct (Z.lt_ge_cases z N3).
        - rewrite SEC by lia. destruct (SG z ltac:(lia)) as [-> ->]. reflexivity.
        - pose proof (SEC (z - N3)%Z ltac:(lia)) as Q. destruct (SG (z - N3)%Z ltac:(lia)) as [S1 S2]. replace (z - N3 + N3)%Z with z in S2 by lia. rewrite S1 in Q. rewrite S2, Ropp_involutive, <- Q.
          replace (z + N3 + 1)%Z with (z - N3 + 1 + 2 * N3)%Z by lia. replace (z + N3)%Z with (z - N3 + 2 * N3)%Z by lia. replace (z - N3 + 2 * N3 - 1)%Z with (z - N3 - 1 + 2 * N3)%Z by lia. rewrite !SP. reflexivity. }
      specialize (SEC z Hz). replace (z + 1 + N3)%Z with (z + N3 + 1)%Z by lia. replace (z - 1 + N3)%Z with (z + N3 - 1)%Z by lia.
      replace (S z + S (z + N3)%Z - 2 * (S z + S (z + N3)%Z) + (S z + S (z + N3)%Z)) with 0 by ring.
      replace (S (z + 1)%Z + S (z + N3 + 1)%Z - 2 * (S z + S (z + N3)%Z) + (S (z - 1)%Z + S (z + N3 - 1)%Z)) with ((S (z + 1)%Z - 2 * S z + S (z - 1)%Z) + (S (z + N3 + 1)%Z - 2 * S (z + N3)%Z + S (z + N3 - 1)%Z)) by ring.
      rewrite SEC, Z2. unfold Rdiv. ring.
    - unfold in_domain. lia. }
  apply (sheets_only G4 dx3 N3 (fun c => total2 N1 N2 (fun a b => rho a b c)) S); [lia| |].
  - intros c C. rewrite SEC by lia. destruct (SG c C) as [-> _]. reflexivity.
  - pose proof (AP 0%Z ltac:(lia)) as A0. pose proof (AP (N3 - 1)%Z ltac:(lia)) as A1. replace (N3 - 1 + N3)%Z with (-1 + 2 * N3)%Z in A1 by lia. rewrite SP in A1. rewrite Z.add_0_l in A0. lra.
Qed.
Print Assumptions C99_3d_poisson.
Theorem C99_decomposition : forall G4 dx1 dx2 dx3 L N1 N2 N3 ng ng' D D' rhoG rhoG' rho,
  (0 < N1)%Z -> (0 < N2)%Z -> (0 < N3)%Z -> 0 < dx1 -> 0 < dx2 -> tiles N1 N2 N3 ng D -> tiles N1 N2 N3 ng' D' -> holds ng D rhoG rho -> holds ng' D' rhoG' rho ->
  forall p i j k p' i' j' k', (p < ng)%nat -> in_grid D p i j k -> (p' < ng')%nat -> in_grid D' p' i' j' k' ->
  (i + d1 (Disp D p) = i' + d1 (Disp D' p'))%Z -> (j + d2 (Disp D p) = j' + d2 (Disp D' p'))%Z -> (k + d3 (Disp D p) = k' + d3 (Disp D' p'))%Z ->
  selfg_fft_disk_3d G4 dx1 dx2 dx3 L N1 N2 N3 D rhoG p i j k = selfg_fft_disk_3d G4 dx1 dx2 dx3 L N1 N2 N3 D' rhoG' p' i' j' k'.
Proof.
  intros G4 dx1 dx2 dx3 L N1 N2 N3 ng ng' D D' rhoG rhoG' rho P1 P2 P3 X1 X2 TL TL' HR HR' p i j k p' i' j' k' Hp I Hp' I' E1 E2 E3.
  destruct (C99_image dx1 dx2 L N1 N2 N3 rho P1 P2) as [g HG].
  rewrite (disk_active G4 dx1 dx2 dx3 L N1 N2 N3 ng D rhoG rho g), (disk_active G4 dx1 dx2 dx3 L N1 N2 N3 ng' D' rhoG' rho g) by auto. rewrite E1, E2, E3. reflexivity.
Qed.
Print Assumptions C99_decomposition.
(** Eight Grids of 2 x 3 x 1 cells. *)
Example C99_example : exists P, lap3 (1/4) (1/6) (1/2) P 2 3 1 = 5.
Proof.
  destruct (C99_3d_poisson 1 (1/4) (1/6) (1/2) 1 4 6 2 8 exD (fun p i j k => if (i + d1 (Disp exD p) =? 2)%Z then 5 else 1) (fun a b c => if (a =? 2)%Z then 5 else 1))
    as [P [_ [_ [H _]]]]; try lia; try lra; [exact C92_example_tiles|intro; intros; reflexivity|].
  exists P. rewrite H by (unfold in_domain; lia). cbn. lra.
Qed.
Example C99_example_1d : exists C, forall i, (-1 <= i <= 3)%Z -> selfg_fft_disk_1d 1 1 3 (fun i => IZR i) i = sheets 1 1 3 (fun i => IZR i) i + C.
Proof. apply (C99_1d 1 1 3 (fun i => IZR i)). lia. Qed.
