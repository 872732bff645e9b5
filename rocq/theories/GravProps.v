(** * C92: the Poisson solvers *)
From Coq Require Import Reals ZArith List Bool Arith Lia Lra.
From Verif Require Import SumFacts GravModel GravSpec GravFacts.
From Verif Require Import IntegSpec IntegFacts.
Import ListNotations.
Open Scope R_scope.

(** The Grids 0 .. ng-1 are boxes that tile the Domain. *)
Definition in_grid (D : decomp) (p : nat) (i j k : Z) : Prop :=
  (0 <= i < d1 (Nx D p) /\ 0 <= j < d2 (Nx D p) /\ 0 <= k < d3 (Nx D p))%Z.
Definition tiles (N1 N2 N3 : Z) (ng : nat) (D : decomp) : Prop :=
  (forall a b c, in_domain N1 N2 N3 a b c -> (own D a b c < ng)%nat /\
     in_grid D (own D a b c) (a - d1 (Disp D (own D a b c))) (b - d2 (Disp D (own D a b c))) (c - d3 (Disp D (own D a b c)))) /\
  (forall p, (p < ng)%nat -> (0 <= d1 (Disp D p) /\ 0 <= d2 (Disp D p) /\ 0 <= d3 (Disp D p))%Z) /\
  (forall p i j k, (p < ng)%nat -> in_grid D p i j k ->
     in_domain N1 N2 N3 (i + d1 (Disp D p)) (j + d2 (Disp D p)) (k + d3 (Disp D p)) /\
     own D (i + d1 (Disp D p)) (j + d2 (Disp D p)) (k + d3 (Disp D p)) = p).

(** ** The potential as one sum *)
Section Conv.
Variables (G4 dx1 dx2 dx3 : R) (N1 N2 N3 : Z) (f : Z -> Z -> Z -> R).
Hypothesis P1 : (0 < N1)%Z. Hypothesis P2 : (0 < N2)%Z. Hypothesis P3 : (0 < N3)%Z.
Hypothesis X1 : 0 < dx1. Hypothesis X2 : 0 < dx2. Hypothesis X3 : 0 < dx3.
Definition lam (a b c : Z) : R :=
  (2 * cos (ang N1 a) - 2) / (dx1 * dx1) + (2 * cos (ang N2 b) - 2) / (dx2 * dx2) + (2 * cos (ang N3 c) - 2) / (dx3 * dx3).
Definition cf (a b c : Z) : R := if ((a =? 0) && (b =? 0) && (c =? 0))%Z then 0 else 1 / lam a b c.
Definition T (x y z a b c : Z) : R :=
  total3 N1 N2 N3 (fun i j k => f i j k * cos (angle N1 N2 N3 a b c x y z - angle N1 N2 N3 a b c i j k)).
Definition pot (x y z : Z) : R := G4 / IZR (N1 * N2 * N3) * total3 N1 N2 N3 (fun a b c => cf a b c * T x y z a b c).

Lemma NN : IZR (N1 * N2 * N3) <> 0.
Proof. apply not_0_IZR. nia. Qed.
Lemma lam_zero : forall a b c, in_domain N1 N2 N3 a b c -> lam a b c = 0 -> a = 0%Z /\ b = 0%Z /\ c = 0%Z.
Proof.
  intros a b c [A [B C]] L. unfold lam in L. rewrite !cos_le in L.
  assert (SQ : forall s d, 0 < d -> -4 * (s * s) / (d * d) <= 0 /\ (-4 * (s * s) / (d * d) = 0 -> s = 0)).
  { intros s d Hd. assert (0 < / (d * d)) by (apply Rinv_0_lt_compat; nra). unfold Rdiv. set (t := / (d * d)) in *. clearbody t. split.
    - assert (0 <= s * s) by nra. nra.
    - intro H0. destruct (Req_EM_T s 0) as [E|E]; auto. assert (0 < s * s) by nra. nra. }
  destruct (SQ (sin (ang N1 a / 2)) dx1 X1) as [Q1 R1]. destruct (SQ (sin (ang N2 b / 2)) dx2 X2) as [Q2 R2]. destruct (SQ (sin (ang N3 c / 2)) dx3 X3) as [Q3 R3].
  assert (A0 := half_sin N1 a P1 (R1 ltac:(lra))). assert (B0 := half_sin N2 b P2 (R2 ltac:(lra))). assert (C0 := half_sin N3 c P3 (R3 ltac:(lra))).
  rewrite Z.mod_small in A0, B0, C0 by lia. auto.
Qed.
Lemma lam_cf : forall a b c, in_domain N1 N2 N3 a b c -> cf a b c * lam a b c = if ((a =? 0) && (b =? 0) && (c =? 0))%Z then 0 else 1.
Proof.
  intros a b c I. unfold cf. destruct ((a =? 0) && (b =? 0) && (c =? 0))%Z eqn:E; [ring|].
  assert (lam a b c <> 0).
  { intro L. apply lam_zero in L; auto. destruct L as [-> [-> ->]]. discriminate. }
  field. auto.
Qed.
Lemma t3_three : forall f1 f2 f3, total3 N1 N2 N3 f1 - 2 * total3 N1 N2 N3 f2 + total3 N1 N2 N3 f3 = total3 N1 N2 N3 (fun a b c => f1 a b c - 2 * f2 a b c + f3 a b c).
Proof.
  intros. rewrite (t3_ext _ _ _ (fun a b c => f1 a b c - 2 * f2 a b c + f3 a b c) (fun a b c => (f1 a b c + (-2) * f2 a b c) + f3 a b c)) by (intros; ring).
  rewrite t3_plus. rewrite (t3_plus _ _ _ f1). rewrite t3_scal. ring.
Qed.
Lemma angle_step : forall a b c x y z dx dy dz,
  angle N1 N2 N3 a b c (x + dx) (y + dy) (z + dz) = angle N1 N2 N3 a b c x y z + (ang N1 (a * dx) + ang N2 (b * dy) + ang N3 (c * dz)).
Proof.
  intros. unfold angle, ang. rewrite !mult_IZR, !plus_IZR.
  assert (IZR N1 <> 0) by (apply not_0_IZR; lia). assert (IZR N2 <> 0) by (apply not_0_IZR; lia). assert (IZR N3 <> 0) by (apply not_0_IZR; lia).
  field. auto.
Qed.
Lemma ang_0 : forall N, ang N 0 = 0. Proof. intros. unfold ang, Rdiv. ring. Qed.
Lemma ang_opp : forall N d, ang N (- d) = - ang N d. Proof. intros. unfold ang, Rdiv. rewrite opp_IZR. ring. Qed.
Lemma T_second : forall a b c x y z dx dy dz,
  T (x + dx) (y + dy) (z + dz) a b c - 2 * T x y z a b c + T (x - dx) (y - dy) (z - dz) a b c =
  (2 * cos (ang N1 (a * dx) + ang N2 (b * dy) + ang N3 (c * dz)) - 2) * T x y z a b c.
Proof.
  intros. unfold T. rewrite t3_three, <- t3_scal. apply t3_ext. intros i j k _.
  change (x - dx)%Z with (x + - dx)%Z. change (y - dy)%Z with (y + - dy)%Z. change (z - dz)%Z with (z + - dz)%Z.
  rewrite !angle_step. rewrite <- !Zopp_mult_distr_r, !ang_opp.
  set (d := ang N1 (a * dx) + ang N2 (b * dy) + ang N3 (c * dz)).
  set (u := angle N1 N2 N3 a b c x y z). set (v := angle N1 N2 N3 a b c i j k).
  replace (u + d - v) with ((u - v) + d) by ring.
  replace (u + (- ang N1 (a * dx) + - ang N2 (b * dy) + - ang N3 (c * dz)) - v) with ((u - v) - d) by (unfold d; ring).
  pose proof (cos_second (u - v) d) as E. 
  replace ((2 * cos d - 2) * (f i j k * cos (u - v))) with (f i j k * ((2 * cos d - 2) * cos (u - v))) by ring.
  rewrite <- E. ring.
Qed.
Lemma pot_second : forall x y z dx dy dz,
  pot (x + dx) (y + dy) (z + dz) - 2 * pot x y z + pot (x - dx) (y - dy) (z - dz) =
  G4 / IZR (N1 * N2 * N3) * total3 N1 N2 N3 (fun a b c => cf a b c * ((2 * cos (ang N1 (a * dx) + ang N2 (b * dy) + ang N3 (c * dz)) - 2) * T x y z a b c)).
Proof.
  intros. unfold pot. set (g := G4 / IZR (N1 * N2 * N3)). clearbody g.
  rewrite <- !Rmult_assoc, (Rmult_comm 2 g), !Rmult_assoc, <- Rmult_minus_distr_l, <- Rmult_plus_distr_l. f_equal.
  rewrite t3_three. apply t3_ext. intros a b c _. rewrite <- T_second. ring.
Qed.
Lemma lap_pot : forall x y z, lap3 dx1 dx2 dx3 pot x y z =
  G4 / IZR (N1 * N2 * N3) * total3 N1 N2 N3 (fun a b c => cf a b c * lam a b c * T x y z a b c).
Proof.
  intros. unfold lap3.
  pose proof (pot_second x y z 1 0 0) as E1. pose proof (pot_second x y z 0 1 0) as E2. pose proof (pot_second x y z 0 0 1) as E3.
  rewrite ?Z.add_0_r, ?Z.sub_0_r in E1, E2, E3. rewrite E1, E2, E3. clear E1 E2 E3.
  set (g := G4 / IZR (N1 * N2 * N3)). clearbody g. unfold Rdiv at 1 2 3.
  set (t1 := / (dx1 * dx1)). set (t2 := / (dx2 * dx2)). set (t3 := / (dx3 * dx3)).
  rewrite !(Rmult_assoc g), <- !Rmult_plus_distr_l. f_equal.
  rewrite (Rmult_comm _ t1), (Rmult_comm _ t2), (Rmult_comm _ t3), <- !t3_scal, <- !t3_plus. apply t3_ext. intros a b c _.
  rewrite !Z.mul_0_r, !Z.mul_1_r, !ang_0, !Rplus_0_r, !Rplus_0_l. unfold lam, Rdiv. fold t1 t2 t3. ring.
Qed.
Lemma T_total : forall x y z, in_domain N1 N2 N3 x y z -> total3 N1 N2 N3 (fun a b c => T x y z a b c) = IZR (N1 * N2 * N3) * f x y z.
Proof.
  intros x y z I. unfold T. rewrite t3_swap.
  rewrite (t3_one N1 N2 N3 _ x y z I).
  - rewrite t3_scal. rewrite (t3_ext _ _ _ _ (fun a b c => cos (0 + angle N1 N2 N3 0 0 0 a b c))).
    + rewrite ortho by auto. rewrite !Z.mod_0_l by lia. cbn [Z.eqb andb]. rewrite cos_0. ring.
    + intros. f_equal. unfold angle. rewrite !Z.mul_0_l. unfold Rdiv. ring.
  - intros i j k J NE. rewrite t3_scal. rewrite (t3_ext _ _ _ _ (fun a b c => cos (0 + angle N1 N2 N3 (x - i) (y - j) (z - k) a b c))).
    + rewrite ortho by auto. destruct I as [I1 [I2 I3]], J as [J1 [J2 J3]].
      assert (M : forall N u v, (0 <= u < N)%Z -> (0 <= v < N)%Z -> ((u - v) mod N = 0)%Z -> u = v).
      { intros N u v U V Q. apply Z.mod_divide in Q; [|lia]. destruct Q as [q Q]. assert (q = 0)%Z by nia. subst q. lia. }
      destruct (Z.eqb_spec ((x - i) mod N1) 0) as [Q1|]; cbn [andb]; [|ring].
      destruct (Z.eqb_spec ((y - j) mod N2) 0) as [Q2|]; cbn [andb]; [|ring].
      destruct (Z.eqb_spec ((z - k) mod N3) 0) as [Q3|]; cbn [andb]; [|ring].
      exfalso. apply NE. apply M in Q1, Q2, Q3; try lia. subst. reflexivity.
    + intros a b c _. f_equal. rewrite (angle_sym _ _ _ (x - i)).
      replace x with (i + (x - i))%Z at 1 by lia. replace y with (j + (y - j))%Z at 1 by lia. replace z with (k + (z - k))%Z at 1 by lia.
      rewrite angle_step. unfold angle, ang, Rdiv. ring.
Qed.
Lemma T_000 : forall x y z, T x y z 0 0 0 = total3 N1 N2 N3 f.
Proof.
  intros. unfold T. apply t3_ext. intros. unfold angle. rewrite !Z.mul_0_l. unfold Rdiv. replace (_ - _) with 0 by ring. rewrite cos_0. ring.
Qed.
Lemma pot_poisson : forall x y z, in_domain N1 N2 N3 x y z ->
  lap3 dx1 dx2 dx3 pot x y z = G4 * (f x y z - total3 N1 N2 N3 f / IZR (N1 * N2 * N3)).
Proof.
  intros x y z I. rewrite lap_pot.
  rewrite (t3_ext _ _ _ _ (fun a b c => T x y z a b c + (-1) * (if ((a =? 0) && (b =? 0) && (c =? 0))%Z then T x y z a b c else 0))).
  2:{ intros a b c J. rewrite lam_cf by auto. destruct ((a =? 0) && (b =? 0) && (c =? 0))%Z; ring. }
  rewrite t3_plus, T_total, t3_scal by auto.
  rewrite (t3_one N1 N2 N3 (fun a b c => if ((a =? 0) && (b =? 0) && (c =? 0))%Z then T x y z a b c else 0) 0 0 0).
  - cbn [Z.eqb andb]. rewrite T_000. field. apply NN.
  - unfold in_domain. lia.
  - intros a b c _ NE. destruct (Z.eqb_spec a 0), (Z.eqb_spec b 0), (Z.eqb_spec c 0); cbn [andb]; auto. subst. congruence.
Qed.
Lemma pot_total : total3 N1 N2 N3 pot = 0.
Proof.
  unfold pot. rewrite t3_scal. rewrite t3_swap.
  rewrite (t3_ext _ _ _ _ (fun _ _ _ => 0)). { rewrite t3_zero. ring. }
  intros a b c I. rewrite t3_scal. unfold cf. destruct ((a =? 0) && (b =? 0) && (c =? 0))%Z eqn:E; [ring|].
  unfold T. rewrite t3_swap. rewrite (t3_ext _ _ _ _ (fun _ _ _ => 0)). { rewrite t3_zero. ring. }
  intros i j k J. rewrite t3_scal.
  rewrite (t3_ext _ _ _ _ (fun x y z => cos (- angle N1 N2 N3 a b c i j k + angle N1 N2 N3 a b c x y z))) by (intros; f_equal; ring).
  rewrite ortho by auto. destruct I as [I1 [I2 I3]]. rewrite !Z.mod_small by lia. rewrite E. ring.
Qed.
Lemma pot_periodic : periodic3 N1 N2 N3 pot.
Proof.
  assert (S : forall x y z dx dy dz m, (forall a b c, exists q, ang N1 (a * dx) + ang N2 (b * dy) + ang N3 (c * dz) = 2 * PI * IZR q) -> m = pot x y z -> pot (x + dx) (y + dy) (z + dz) = m).
  { intros x y z dx dy dz m H ->. unfold pot. f_equal. apply t3_ext. intros a b c _. f_equal. unfold T. apply t3_ext. intros i j k _. f_equal.
    rewrite angle_step. destruct (H a b c) as [q ->].
    replace (angle N1 N2 N3 a b c x y z + 2 * PI * IZR q - angle N1 N2 N3 a b c i j k) with (angle N1 N2 N3 a b c x y z - angle N1 N2 N3 a b c i j k + 2 * PI * IZR q) by ring.
    apply cos_shift. }
  intros x y z.
  assert (Z0 : forall N a, (0 < N)%Z -> ang N (a * N) = 2 * PI * IZR a).
  { intros N a HN. assert (IZR N <> 0) by (apply not_0_IZR; lia). unfold ang. rewrite mult_IZR. field. auto. }
  split; [|split].
  - rewrite <- (Z.add_0_r y) at 1. rewrite <- (Z.add_0_r z) at 1. apply S; auto. intros a b c. exists a. rewrite !Z.mul_0_r, !ang_0, Z0 by auto. ring.
  - rewrite <- (Z.add_0_r x) at 1. rewrite <- (Z.add_0_r z) at 1. apply S; auto. intros a b c. exists b. rewrite !Z.mul_0_r, !ang_0, Z0 by auto. ring.
  - rewrite <- (Z.add_0_r x) at 1. rewrite <- (Z.add_0_r y) at 1. apply S; auto. intros a b c. exists c. rewrite !Z.mul_0_r, !ang_0, Z0 by auto. ring.
Qed.
End Conv.

Lemma t3_const : forall N1 N2 N3 v, (0 < N1)%Z -> (0 < N2)%Z -> (0 < N3)%Z -> total3 N1 N2 N3 (fun _ _ _ => v) = IZR (N1 * N2 * N3) * v.
Proof.
  intros. rewrite (t3_ext _ _ _ _ (fun a b c => v * cos (0 + angle N1 N2 N3 0 0 0 a b c))).
  - rewrite t3_scal, ortho by auto. rewrite !Z.mod_0_l by lia. cbn [Z.eqb andb]. rewrite cos_0. ring.
  - intros. unfold angle. rewrite !Z.mul_0_l. unfold Rdiv. replace (0 + _) with 0 by ring. rewrite cos_0. ring.
Qed.

(** ** The code computes that sum *)
Lemma coeff3_spec : forall dx1 dx2 dx3 N1 N2 N3 D p i j k w,
  (0 <= i)%Z -> (0 <= j)%Z -> (0 <= k)%Z -> (0 <= d1 (Disp D p))%Z -> (0 <= d2 (Disp D p))%Z -> (0 <= d3 (Disp D p))%Z ->
  coeff3 dx1 dx2 dx3 N1 N2 N3 D p i j k w =
  (cf dx1 dx2 dx3 N1 N2 N3 (i + d1 (Disp D p)) (j + d2 (Disp D p)) (k + d3 (Disp D p)) * fst w,
   cf dx1 dx2 dx3 N1 N2 N3 (i + d1 (Disp D p)) (j + d2 (Disp D p)) (k + d3 (Disp D p)) * snd w).
Proof.
  intros dx1 dx2 dx3 N1 N2 N3 D p i j k w I J K Q1 Q2 Q3. unfold coeff3.
  destruct (Disp D p) as [[D1 D2] D3]. unfold d1, d2, d3 in *. cbn [fst snd] in *.
  assert (A : forall N x, IZR x * (2 * PI / IZR N) = ang N x) by (intros; unfold ang, Rdiv; ring).
  assert (G : forall a b c : Z, ((a =? 0) && (b =? 0) && (c =? 0))%Z = false ->
     scale (1 / ((2 * cos (IZR a * (2 * PI / IZR N1)) - 2) / (dx1 * dx1) + (2 * cos (IZR b * (2 * PI / IZR N2)) - 2) / (dx2 * dx2) + (2 * cos (IZR c * (2 * PI / IZR N3)) - 2) / (dx3 * dx3))) w =
     (cf dx1 dx2 dx3 N1 N2 N3 a b c * fst w, cf dx1 dx2 dx3 N1 N2 N3 a b c * snd w)).
  { intros a b c E. unfold cf. rewrite E. unfold lam, scale. rewrite !A. f_equal; ring. }
  destruct (Z.ltb_spec 0 i).
  { apply G. destruct (Z.eqb_spec (i + D1) 0); [lia|]. reflexivity. }
  replace i with 0%Z by lia.
  destruct (Z.ltb_spec 0 j).
  { apply G. destruct (Z.eqb_spec (j + D2) 0); [lia|]. rewrite andb_false_r. reflexivity. }
  replace j with 0%Z by lia.
  destruct (Z.ltb_spec 0 k).
  { apply G. destruct (Z.eqb_spec (k + D3) 0); [lia|]. rewrite andb_false_r. reflexivity. }
  replace k with 0%Z by lia. rewrite !Z.add_0_l.
  replace ((D3 =? 0) && (D2 =? 0) && (D1 =? 0))%Z with ((D1 =? 0) && (D2 =? 0) && (D3 =? 0))%Z
    by (destruct (D1 =? 0)%Z, (D2 =? 0)%Z, (D3 =? 0)%Z; reflexivity).
  destruct ((D1 =? 0) && (D2 =? 0) && (D3 =? 0))%Z eqn:E.
  - unfold cf. rewrite E. f_equal; ring.
  - apply G. exact E.
Qed.

(** Whatever [grav_mean_rho] is set to. *)
Theorem C92_3d : forall G4 mean dx1 dx2 dx3 N1 N2 N3 ng D rhoG rho,
  (0 < N1)%Z -> (0 < N2)%Z -> (0 < N3)%Z -> 0 < dx1 -> 0 < dx2 -> 0 < dx3 -> tiles N1 N2 N3 ng D ->
  (forall p i j k, (p < ng)%nat -> in_grid D p i j k -> rhoG p i j k = rho (i + d1 (Disp D p))%Z (j + d2 (Disp D p))%Z (k + d3 (Disp D p))%Z) ->
  exists P, potential3 G4 dx1 dx2 dx3 N1 N2 N3 rho P /\
    forall p i j k, (p < ng)%nat -> in_grid D p i j k ->
      selfg_fft_3d G4 mean dx1 dx2 dx3 N1 N2 N3 D rhoG p i j k = P (i + d1 (Disp D p))%Z (j + d2 (Disp D p))%Z (k + d3 (Disp D p))%Z.
Proof.
  intros G4 mean dx1 dx2 dx3 N1 N2 N3 ng D rhoG rho P1 P2 P3 X1 X2 X3 [TA [TD TB]] HR.
  exists (pot G4 dx1 dx2 dx3 N1 N2 N3 (fun a b c => rho a b c - mean)).
  assert (M : total3 N1 N2 N3 (fun a b c => rho a b c - mean) = total3 N1 N2 N3 rho - IZR (N1 * N2 * N3) * mean).
  { rewrite (t3_ext _ _ _ _ (fun a b c => rho a b c + (-1) * mean)) by (intros; ring). rewrite t3_plus, t3_const by auto. ring. }
  split.
  { split; [apply pot_periodic; auto|]. split; [apply pot_total; auto|].
    intros. rewrite pot_poisson by auto. rewrite M. field. apply NN; auto. }
  intros p i j k Hp I. unfold selfg_fft_3d. cbv zeta.
  assert (F : forall a b c, in_domain N1 N2 N3 a b c -> gather D (work0 mean rhoG) a b c = (rho a b c - mean, 0)).
  { intros a b c A. destruct (TA a b c A) as [L IG]. unfold gather, work0. rewrite HR by auto. rewrite !Z.sub_add. reflexivity. }
  assert (FT : forall a b c, dft3 (-1) N1 N2 N3 (gather D (work0 mean rhoG)) a b c =
     (total3 N1 N2 N3 (fun i j k => (rho i j k - mean) * cos (angle N1 N2 N3 a b c i j k)),
      total3 N1 N2 N3 (fun i j k => - ((rho i j k - mean) * sin (angle N1 N2 N3 a b c i j k))))).
  { intros a b c. unfold dft3. cbv zeta. f_equal; apply t3_ext; intros i0 j0 k0 A; rewrite F by auto; cbn [fst snd]; ring. }
  set (W := fun p i j k => coeff3 dx1 dx2 dx3 N1 N2 N3 D p i j k (scatter D (dft3 (-1) N1 N2 N3 (gather D (work0 mean rhoG))) p i j k)).
  assert (GW : forall a b c, in_domain N1 N2 N3 a b c -> gather D W a b c =
     (cf dx1 dx2 dx3 N1 N2 N3 a b c * fst (dft3 (-1) N1 N2 N3 (gather D (work0 mean rhoG)) a b c),
      cf dx1 dx2 dx3 N1 N2 N3 a b c * snd (dft3 (-1) N1 N2 N3 (gather D (work0 mean rhoG)) a b c))).
  { intros a b c A. destruct (TA a b c A) as [L [IG1 [IG2 IG3]]]. destruct (TD _ L) as [Q1 [Q2 Q3]].
    unfold gather at 1, W. cbv zeta. rewrite coeff3_spec by lia. unfold scatter. rewrite !Z.sub_add. reflexivity. }
  unfold scatter at 1. unfold dft3 at 1. cbv zeta. cbn [fst].
  set (x := (i + d1 (Disp D p))%Z). set (y := (j + d2 (Disp D p))%Z). set (z := (k + d3 (Disp D p))%Z).
  unfold pot. unfold Rdiv. rewrite Rmult_assoc, (Rmult_comm _ (/ _)), <- Rmult_assoc. f_equal.
  apply t3_ext. intros a b c A. rewrite GW by auto. rewrite FT. cbn [fst snd].
  rewrite Rmult_1_l, !(Rmult_assoc (cf _ _ _ _ _ _ _ _ _)). rewrite <- Rmult_minus_distr_l. f_equal.
  unfold T. rewrite (angle_sym N1 N2 N3 x y z a b c).
  set (u := angle N1 N2 N3 a b c x y z). clearbody u.
  rewrite (Rmult_comm _ (cos u)), (Rmult_comm _ (sin u)), <- !t3_scal.
  unfold Rminus at 1. rewrite <- (Rmult_1_l (- total3 _ _ _ _)), Ropp_mult_distr_r_reverse, Ropp_mult_distr_l, <- t3_scal, <- t3_plus.
  apply t3_ext. intros. rewrite cos_minus. ring.
Qed.
Print Assumptions C92_3d.

(** ** Only one potential *)
Lemma t3_shift : forall N1 N2 N3 g, (0 < N1)%Z -> (0 < N2)%Z -> (0 < N3)%Z -> periodic3 N1 N2 N3 g ->
  total3 N1 N2 N3 (fun a b c => g (a + 1)%Z b c) = total3 N1 N2 N3 g /\
  total3 N1 N2 N3 (fun a b c => g a (b + 1)%Z c) = total3 N1 N2 N3 g /\
  total3 N1 N2 N3 (fun a b c => g a b (c + 1)%Z) = total3 N1 N2 N3 g.
Proof.
  intros N1 N2 N3 g P1 P2 P3 PR.
  assert (S : forall N (F : Z -> R), (0 < N)%Z -> F N = F 0%Z -> sumZ 0 (N - 1) (fun a => F (a + 1)%Z) = sumZ 0 (N - 1) F).
  { intros N F HN E. pose proof (sum_tele2 F (N - 1) ltac:(lia)) as Q. rewrite sumZ_minus in Q. replace (N - 1 + 1)%Z with N in Q by lia. lra. }
  unfold total3. split; [|split].
  - apply (S N1 (fun a => sumZ 0 (N2 - 1) (fun b => sumZ 0 (N3 - 1) (fun c => g a b c)))); auto.
    apply sumZ_ext; intros. apply sumZ_ext; intros. apply (PR 0%Z).
  - apply sumZ_ext; intros. apply (S N2 (fun b => sumZ 0 (N3 - 1) (fun c => g i b c))); auto.
    apply sumZ_ext; intros. apply (PR i 0%Z).
  - apply sumZ_ext; intros. apply sumZ_ext; intros. apply (S N3 (fun c => g i i0 c)); auto. apply (PR i i0 0%Z).
Qed.
Lemma t3_terms : forall N1 N2 N3 f, (forall a b c, in_domain N1 N2 N3 a b c -> 0 <= f a b c) -> total3 N1 N2 N3 f = 0 ->
  forall a b c, in_domain N1 N2 N3 a b c -> f a b c = 0.
Proof.
  intros N1 N2 N3 f NNG Z0 a b c I.
  set (ind := fun x y z => if ((x =? a) && (y =? b) && (z =? c))%Z then f x y z else 0).
  assert (E : total3 N1 N2 N3 ind = f a b c).
  { rewrite (t3_one N1 N2 N3 ind a b c I).
    - unfold ind. rewrite !Z.eqb_refl. reflexivity.
    - intros x y z _ NE. unfold ind. destruct (Z.eqb_spec x a), (Z.eqb_spec y b), (Z.eqb_spec z c); cbn [andb]; auto. subst. congruence. }
  assert (Q : 0 <= total3 N1 N2 N3 (fun x y z => f x y z + (-1) * ind x y z)).
  { apply t3_nonneg. intros x y z J. unfold ind. specialize (NNG x y z J). destruct ((x =? a) && (y =? b) && (z =? c))%Z; lra. }
  rewrite t3_plus, t3_scal, E, Z0 in Q. specialize (NNG a b c I). lra.
Qed.
Lemma harmonic_zero : forall dx1 dx2 dx3 N1 N2 N3 W, (0 < N1)%Z -> (0 < N2)%Z -> (0 < N3)%Z -> 0 < dx1 -> 0 < dx2 -> 0 < dx3 ->
  periodic3 N1 N2 N3 W -> total3 N1 N2 N3 W = 0 -> (forall a b c, in_domain N1 N2 N3 a b c -> lap3 dx1 dx2 dx3 W a b c = 0) ->
  forall a b c, in_domain N1 N2 N3 a b c -> W a b c = 0.
Proof.
  intros dx1 dx2 dx3 N1 N2 N3 W P1 P2 P3 X1 X2 X3 PR TZ LZ.
  set (t1 := / (dx1 * dx1)). set (t2 := / (dx2 * dx2)). set (t3 := / (dx3 * dx3)).
  assert (I1 : 0 < t1) by (apply Rinv_0_lt_compat; nra). assert (I2 : 0 < t2) by (apply Rinv_0_lt_compat; nra). assert (I3 : 0 < t3) by (apply Rinv_0_lt_compat; nra).
  assert (per_m : forall a b c, W (a + N1 - 1)%Z b c = W (a - 1)%Z b c /\ W a (b + N2 - 1)%Z c = W a (b - 1)%Z c /\ W a b (c + N3 - 1)%Z = W a b (c - 1)%Z).
  { intros a b c. split; [|split].
    - replace (a + N1 - 1)%Z with (a - 1 + N1)%Z by lia. apply PR.
    - replace (b + N2 - 1)%Z with (b - 1 + N2)%Z by lia. apply PR.
    - replace (c + N3 - 1)%Z with (c - 1 + N3)%Z by lia. apply PR. }
  set (g1 := fun a b c => W a b c * W a b c - W (a - 1)%Z b c * W a b c).
  set (g2 := fun a b c => W a b c * W a b c - W a (b - 1)%Z c * W a b c).
  set (g3 := fun a b c => W a b c * W a b c - W a b (c - 1)%Z * W a b c).
  assert (PM : forall a b c, W (a - 1 + N1)%Z b c = W (a - 1)%Z b c) by (intros; apply PR).
  assert (G1 : periodic3 N1 N2 N3 g1).
  { intros a b c. unfold g1. destruct (PR a b c) as [E1 [E2 E3]]. destruct (PR (a - 1)%Z b c) as [_ [F2 F3]]. destruct (per_m a b c) as [M _]. rewrite M, E1, E2, E3, F2, F3. auto. }
  assert (G2 : periodic3 N1 N2 N3 g2).
  { intros a b c. unfold g2. destruct (PR a b c) as [E1 [E2 E3]]. destruct (PR a (b - 1)%Z c) as [F1 [_ F3]]. destruct (per_m a b c) as [_ [M _]]. rewrite M, E1, E2, E3, F1, F3. auto. }
  assert (G3 : periodic3 N1 N2 N3 g3).
  { intros a b c. unfold g3. destruct (PR a b c) as [E1 [E2 E3]]. destruct (PR a b (c - 1)%Z) as [F1 [F2 _]]. destruct (per_m a b c) as [_ [_ M]]. rewrite M, E1, E2, E3, F1, F2. auto. }
  destruct (t3_shift N1 N2 N3 g1 P1 P2 P3 G1) as [S1 _]. destruct (t3_shift N1 N2 N3 g2 P1 P2 P3 G2) as [_ [S2 _]]. destruct (t3_shift N1 N2 N3 g3 P1 P2 P3 G3) as [_ [_ S3]].
  set (q := fun a b c => t1 * ((W (a + 1)%Z b c - W a b c) * (W (a + 1)%Z b c - W a b c)) +
                         t2 * ((W a (b + 1)%Z c - W a b c) * (W a (b + 1)%Z c - W a b c)) +
                         t3 * ((W a b (c + 1)%Z - W a b c) * (W a b (c + 1)%Z - W a b c))).
  assert (QZ : total3 N1 N2 N3 q = 0).
  { rewrite (t3_ext _ _ _ q (fun a b c => (t1 * g1 (a + 1)%Z b c + (- t1) * g1 a b c) + (t2 * g2 a (b + 1)%Z c + (- t2) * g2 a b c) + (t3 * g3 a b (c + 1)%Z + (- t3) * g3 a b c))).
    - rewrite !t3_plus, !t3_scal, S1, S2, S3. ring.
    - intros a b c J. specialize (LZ a b c J). unfold lap3, Rdiv in LZ. fold t1 t2 t3 in LZ.
      unfold q, g1, g2, g3. replace (a + 1 - 1)%Z with a by lia. replace (b + 1 - 1)%Z with b by lia. replace (c + 1 - 1)%Z with c by lia.
      apply (f_equal (fun x => W a b c * x)) in LZ. rewrite Rmult_0_r in LZ.
      match goal with |- ?l = ?r => cut (l + W a b c * ((W (a + 1)%Z b c - 2 * W a b c + W (a - 1)%Z b c) * t1 + (W a (b + 1)%Z c - 2 * W a b c + W a (b - 1)%Z c) * t2 + (W a b (c + 1)%Z - 2 * W a b c + W a b (c - 1)%Z) * t3) = r) end.
      + rewrite LZ. intro H. rewrite <- H. ring.
      + ring. }
  assert (SQ : forall x : R, 0 <= x * x) by (intro; nra).
  assert (QP : forall a b c, in_domain N1 N2 N3 a b c -> W (a + 1)%Z b c = W a b c /\ W a (b + 1)%Z c = W a b c /\ W a b (c + 1)%Z = W a b c).
  { intros a b c J.
    assert (Q0 : q a b c = 0).
    { apply (t3_terms N1 N2 N3 q); auto. intros x y z _. unfold q.
      assert (H1 := SQ (W (x + 1)%Z y z - W x y z)). assert (H2 := SQ (W x (y + 1)%Z z - W x y z)). assert (H3 := SQ (W x y (z + 1)%Z - W x y z)). nra. }
    unfold q in Q0.
    assert (H1 := SQ (W (a + 1)%Z b c - W a b c)). assert (H2 := SQ (W a (b + 1)%Z c - W a b c)). assert (H3 := SQ (W a b (c + 1)%Z - W a b c)).
    assert (RT : forall x, x * x = 0 -> x = 0) by (intros; nra).
    split; [|split]; apply Rminus_diag_uniq; apply RT; nra. }
  assert (CON : forall a b c, in_domain N1 N2 N3 a b c -> W a b c = W 0%Z 0%Z 0%Z).
  { assert (C1 : forall n b c, in_domain N1 N2 N3 (Z.of_nat n) b c -> W (Z.of_nat n) b c = W 0%Z b c).
    { induction n; intros b c J; [reflexivity|]. unfold in_domain in J. rewrite <- (IHn b c) by (unfold in_domain; lia).
      replace (Z.of_nat (S n)) with (Z.of_nat n + 1)%Z by lia. apply QP. unfold in_domain; lia. }
    assert (C2 : forall n c, in_domain N1 N2 N3 0 (Z.of_nat n) c -> W 0%Z (Z.of_nat n) c = W 0%Z 0%Z c).
    { induction n; intros c J; [reflexivity|]. unfold in_domain in J. rewrite <- (IHn c) by (unfold in_domain; lia).
      replace (Z.of_nat (S n)) with (Z.of_nat n + 1)%Z by lia. apply QP. unfold in_domain; lia. }
    assert (C3 : forall n, in_domain N1 N2 N3 0 0 (Z.of_nat n) -> W 0%Z 0%Z (Z.of_nat n) = W 0%Z 0%Z 0%Z).
    { induction n; intros J; [reflexivity|]. unfold in_domain in J. rewrite <- IHn by (unfold in_domain; lia).
      replace (Z.of_nat (S n)) with (Z.of_nat n + 1)%Z by lia. apply QP. unfold in_domain; lia. }
    intros a b c J. assert (J' := J). destruct J' as [A [B C]].
    rewrite <- (Z2Nat.id a), C1 by (unfold in_domain; lia).
    rewrite <- (Z2Nat.id b), C2 by (unfold in_domain; lia).
    rewrite <- (Z2Nat.id c), C3 by (unfold in_domain; lia). reflexivity. }
  assert (W0 : W 0%Z 0%Z 0%Z = 0).
  { rewrite (t3_ext _ _ _ W (fun _ _ _ => W 0%Z 0%Z 0%Z)) in TZ by (intros; apply CON; auto). rewrite t3_const in TZ by auto.
    pose proof (NN N1 N2 N3 P1 P2 P3). apply Rmult_integral in TZ. tauto. }
  intros a b c J. rewrite CON by auto. exact W0.
Qed.
Theorem C92_unique : forall G4 dx1 dx2 dx3 N1 N2 N3 rho P Q,
  (0 < N1)%Z -> (0 < N2)%Z -> (0 < N3)%Z -> 0 < dx1 -> 0 < dx2 -> 0 < dx3 ->
  potential3 G4 dx1 dx2 dx3 N1 N2 N3 rho P -> potential3 G4 dx1 dx2 dx3 N1 N2 N3 rho Q ->
  forall a b c, in_domain N1 N2 N3 a b c -> P a b c = Q a b c.
Proof.
  intros G4 dx1 dx2 dx3 N1 N2 N3 rho P Q P1 P2 P3 X1 X2 X3 [PP [PT PL]] [QP [QT QL]] a b c I.
  apply Rminus_diag_uniq. apply (harmonic_zero dx1 dx2 dx3 N1 N2 N3 (fun x y z => P x y z - Q x y z)); auto.
  - intros x y z. destruct (PP x y z) as [A1 [A2 A3]], (QP x y z) as [B1 [B2 B3]]. rewrite A1, A2, A3, B1, B2, B3. auto.
  - rewrite (t3_ext _ _ _ _ (fun x y z => P x y z + (-1) * Q x y z)) by (intros; ring). rewrite t3_plus, t3_scal, PT, QT. ring.
  - intros x y z J. specialize (PL x y z J). specialize (QL x y z J). rewrite <- QL in PL. unfold lap3, Rdiv in *. lra.
Qed.
Print Assumptions C92_unique.
(** Two runs that cut the Domain differently, with different values of [grav_mean_rho], store the same potential in every cell. *)
Theorem C92_decomposition : forall G4 mean mean' dx1 dx2 dx3 N1 N2 N3 ng ng' D D' rhoG rhoG' rho,
  (0 < N1)%Z -> (0 < N2)%Z -> (0 < N3)%Z -> 0 < dx1 -> 0 < dx2 -> 0 < dx3 -> tiles N1 N2 N3 ng D -> tiles N1 N2 N3 ng' D' ->
  (forall p i j k, (p < ng)%nat -> in_grid D p i j k -> rhoG p i j k = rho (i + d1 (Disp D p))%Z (j + d2 (Disp D p))%Z (k + d3 (Disp D p))%Z) ->
  (forall p i j k, (p < ng')%nat -> in_grid D' p i j k -> rhoG' p i j k = rho (i + d1 (Disp D' p))%Z (j + d2 (Disp D' p))%Z (k + d3 (Disp D' p))%Z) ->
  forall p i j k p' i' j' k', (p < ng)%nat -> in_grid D p i j k -> (p' < ng')%nat -> in_grid D' p' i' j' k' ->
  (i + d1 (Disp D p) = i' + d1 (Disp D' p'))%Z -> (j + d2 (Disp D p) = j' + d2 (Disp D' p'))%Z -> (k + d3 (Disp D p) = k' + d3 (Disp D' p'))%Z ->
  selfg_fft_3d G4 mean dx1 dx2 dx3 N1 N2 N3 D rhoG p i j k = selfg_fft_3d G4 mean' dx1 dx2 dx3 N1 N2 N3 D' rhoG' p' i' j' k'.
Proof.
  intros G4 mean mean' dx1 dx2 dx3 N1 N2 N3 ng ng' D D' rhoG rhoG' rho P1 P2 P3 X1 X2 X3 TL TL' HR HR' p i j k p' i' j' k' Hp I Hp' I' E1 E2 E3.
  destruct (C92_3d G4 mean dx1 dx2 dx3 N1 N2 N3 ng D rhoG rho P1 P2 P3 X1 X2 X3 TL HR) as [P [PP PE]].
  destruct (C92_3d G4 mean' dx1 dx2 dx3 N1 N2 N3 ng' D' rhoG' rho P1 P2 P3 X1 X2 X3 TL' HR') as [Q [QQ QE]].
  rewrite PE, QE by auto. rewrite <- E1, <- E2, <- E3.
  apply (C92_unique G4 dx1 dx2 dx3 N1 N2 N3 rho P Q); auto. destruct TL as [_ [_ TB]]. apply TB; auto.
Qed.
Print Assumptions C92_decomposition.

(** ** Two dimensions *)
Lemma t3_flat : forall N1 N2 f, total3 N1 N2 1 f = total2 N1 N2 (fun a b => f a b 0%Z).
Proof.
  intros. unfold total3, total2. apply sumZ_ext; intros. apply sumZ_ext; intros. rewrite sumZ_last by lia. rewrite sumZ_empty by lia. cbn. ring.
Qed.
Lemma potential_flat : forall G4 dx1 dx2 N1 N2 rho P, potential3 G4 dx1 dx2 1 N1 N2 1 (fun a b _ => rho a b) P -> potential2 G4 dx1 dx2 N1 N2 rho (fun a b => P a b 0%Z).
Proof.
  intros G4 dx1 dx2 N1 N2 rho P [PP [PT PL]]. split; [|split].
  - intros a b. destruct (PP a b 0%Z) as [E1 [E2 _]]. auto.
  - rewrite <- PT, t3_flat. reflexivity.
  - intros a b A B. assert (I : in_domain N1 N2 1 a b 0) by (unfold in_domain; lia). specialize (PL a b 0%Z I).
    assert (E : P a b (0 + 1)%Z = P a b 0%Z) by apply (PP a b 0%Z).
    assert (F : P a b (0 - 1)%Z = P a b 0%Z). { destruct (PP a b (0 - 1)%Z) as [_ [_ Q]]. rewrite <- Q. f_equal. }
    unfold lap3 in PL. rewrite E, F in PL. rewrite t3_flat in PL. rewrite Z.mul_1_r in PL. transitivity (G4 * (rho a b - total2 N1 N2 (fun a b => rho a b) / IZR (N1 * N2))); [|reflexivity]. rewrite <- PL. unfold lap2, Rdiv. ring.
Qed.
Lemma coeff2_spec : forall dx1 dx2 N1 N2 D p i j w,
  (0 <= i)%Z -> (0 <= j)%Z -> (0 <= d1 (Disp D p))%Z -> (0 <= d2 (Disp D p))%Z ->
  coeff2 dx1 dx2 N1 N2 D p i j w =
  (cf dx1 dx2 1 N1 N2 1 (i + d1 (Disp D p)) (j + d2 (Disp D p)) 0 * fst w,
   cf dx1 dx2 1 N1 N2 1 (i + d1 (Disp D p)) (j + d2 (Disp D p)) 0 * snd w).
Proof.
  intros dx1 dx2 N1 N2 D p i j w I J Q1 Q2. unfold coeff2.
  destruct (Disp D p) as [[D1 D2] D3]. unfold d1, d2, d3 in *. cbn [fst snd] in *.
  assert (A : forall N x, IZR x * (2 * PI / IZR N) = ang N x) by (intros; unfold ang, Rdiv; ring).
  assert (G : forall a b : Z, ((a =? 0) && (b =? 0))%Z = false ->
     scale (1 / ((2 * cos (IZR a * (2 * PI / IZR N1)) - 2) / (dx1 * dx1) + (2 * cos (IZR b * (2 * PI / IZR N2)) - 2) / (dx2 * dx2))) w =
     (cf dx1 dx2 1 N1 N2 1 a b 0 * fst w, cf dx1 dx2 1 N1 N2 1 a b 0 * snd w)).
  { intros a b E. unfold cf. rewrite E. cbn [andb]. unfold lam, scale. rewrite !A, ang_0, cos_0.
    replace ((2 * 1 - 2) / (1 * 1)) with 0 by field. rewrite Rplus_0_r. f_equal; ring. }
  destruct (Z.ltb_spec 0 i).
  { apply G. destruct (Z.eqb_spec (i + D1) 0); [lia|]. reflexivity. }
  replace i with 0%Z by lia.
  destruct (Z.ltb_spec 0 j).
  { apply G. destruct (Z.eqb_spec (j + D2) 0); [lia|]. rewrite andb_false_r. reflexivity. }
  replace j with 0%Z by lia. rewrite !Z.add_0_l. rewrite (andb_comm (D2 =? 0)%Z).
  destruct ((D1 =? 0) && (D2 =? 0))%Z eqn:E.
  - unfold cf. rewrite E. cbn [andb Z.eqb]. f_equal; ring.
  - apply G. exact E.
Qed.
(** The third index of a two-dimensional Domain is 0 everywhere. *)
Theorem C92_2d : forall G4 mean dx1 dx2 N1 N2 ng D rhoG rho,
  (0 < N1)%Z -> (0 < N2)%Z -> 0 < dx1 -> 0 < dx2 -> tiles N1 N2 1 ng D ->
  (forall p i j, (p < ng)%nat -> in_grid D p i j 0 -> rhoG p i j = rho (i + d1 (Disp D p))%Z (j + d2 (Disp D p))%Z) ->
  exists P, potential2 G4 dx1 dx2 N1 N2 rho P /\
    forall p i j, (p < ng)%nat -> in_grid D p i j 0 ->
      selfg_fft_2d G4 mean dx1 dx2 N1 N2 D rhoG p i j = P (i + d1 (Disp D p))%Z (j + d2 (Disp D p))%Z.
Proof.
  intros G4 mean dx1 dx2 N1 N2 ng D rhoG rho P1 P2 X1 X2 [TA [TD TB]] HR.
  assert (P3 : (0 < 1)%Z) by lia. assert (X3 : 0 < 1) by lra.
  assert (Z3 : forall a b, (0 <= a < N1)%Z -> (0 <= b < N2)%Z -> d3 (Disp D (own D a b 0%Z)) = 0%Z).
  { intros a b A B. destruct (TA a b 0%Z) as [L [I1 [I2 I3]]]; [unfold in_domain; lia|]. destruct (TD _ L) as [_ [_ Q]]. lia. }
  exists (fun a b => pot G4 dx1 dx2 1 N1 N2 1 (fun a b c => rho a b - mean) a b 0).
  assert (M : total3 N1 N2 1 (fun a b c => rho a b - mean) = total3 N1 N2 1 (fun a b _ => rho a b) - IZR (N1 * N2 * 1) * mean).
  { rewrite (t3_ext _ _ _ _ (fun a b c => rho a b + (-1) * mean)) by (intros; ring). rewrite (t3_plus _ _ _ (fun a b c => rho a b)), t3_const by auto. ring. }
  split.
  { apply potential_flat. split; [apply pot_periodic; auto|]. split; [apply pot_total; auto|].
    intros. rewrite pot_poisson by auto. rewrite M. field. apply NN; auto. }
  intros p i j Hp I. unfold selfg_fft_2d. cbv zeta.
  assert (F : forall a b c, in_domain N1 N2 1 a b c -> gather2 D (work0_2 G4 mean rhoG) a b = (G4 * (rho a b - mean), 0)).
  { intros a b c A. assert (A' : in_domain N1 N2 1 a b 0) by (unfold in_domain in *; lia). destruct (TA a b 0%Z A') as [L IG].
    destruct A as [A1 [A2 A3]]. rewrite (Z3 a b A1 A2) in IG. unfold gather2, work0_2. cbv zeta. rewrite HR by auto. rewrite !Z.sub_add. reflexivity. }
  assert (FT : forall a b, dft2 (-1) N1 N2 (gather2 D (work0_2 G4 mean rhoG)) a b =
     (G4 * total3 N1 N2 1 (fun i j k => (rho i j - mean) * cos (angle N1 N2 1 a b 0 i j k)),
      G4 * total3 N1 N2 1 (fun i j k => - ((rho i j - mean) * sin (angle N1 N2 1 a b 0 i j k))))).
  { intros a b. unfold dft2. cbv zeta. rewrite <- !t3_scal.
    assert (AN : forall i j : Z, 2 * PI * (IZR (a * i) / IZR N1 + IZR (b * j) / IZR N2) = angle N1 N2 1 a b 0 i j 0).
    { intros. unfold angle. rewrite Z.mul_0_l. unfold Rdiv. ring. }
    f_equal; rewrite t3_flat; unfold total2; apply sumZ_ext; intros i0 A0; apply sumZ_ext; intros j0 B0;
      rewrite (F i0 j0 0%Z) by (unfold in_domain; lia); rewrite !AN; cbn [fst snd]; ring. }
  set (W := fun p i j => coeff2 dx1 dx2 N1 N2 D p i j (scatter2 D (dft2 (-1) N1 N2 (gather2 D (work0_2 G4 mean rhoG))) p i j)).
  assert (GW : forall a b, (0 <= a < N1)%Z -> (0 <= b < N2)%Z -> gather2 D W a b =
     (cf dx1 dx2 1 N1 N2 1 a b 0 * fst (dft2 (-1) N1 N2 (gather2 D (work0_2 G4 mean rhoG)) a b),
      cf dx1 dx2 1 N1 N2 1 a b 0 * snd (dft2 (-1) N1 N2 (gather2 D (work0_2 G4 mean rhoG)) a b))).
  { intros a b A B. destruct (TA a b 0%Z) as [L [IG1 [IG2 IG3]]]; [unfold in_domain; lia|]. destruct (TD _ L) as [Q1 [Q2 Q3]].
    unfold gather2 at 1, W. cbv zeta. rewrite coeff2_spec by lia. unfold scatter2. rewrite !Z.sub_add. reflexivity. }
  unfold scatter2 at 1. unfold dft2 at 1. cbv zeta. cbn [fst].
  set (x := (i + d1 (Disp D p))%Z). set (y := (j + d2 (Disp D p))%Z).
  unfold pot. rewrite t3_flat, Z.mul_1_r. unfold Rdiv. rewrite (Rmult_comm _ (/ _)), (Rmult_comm G4), Rmult_assoc. f_equal.
  unfold total2. rewrite <- sumZ_scal. apply sumZ_ext. intros a A. rewrite <- sumZ_scal. apply sumZ_ext. intros b B.
  rewrite GW by lia. rewrite FT. cbn [fst snd].
  replace (2 * PI * (IZR (x * a) * / IZR N1 + IZR (y * b) * / IZR N2)) with (angle N1 N2 1 a b 0 x y 0).
  2:{ unfold angle. rewrite Z.mul_0_l, (Z.mul_comm x), (Z.mul_comm y). unfold Rdiv. ring. }
  unfold T. set (u := angle N1 N2 1 a b 0 x y 0). clearbody u.
  set (S1 := total3 N1 N2 1 (fun i0 j0 k => (rho i0 j0 - mean) * cos (angle N1 N2 1 a b 0 i0 j0 k))).
  set (S2 := total3 N1 N2 1 (fun i0 j0 k => - ((rho i0 j0 - mean) * sin (angle N1 N2 1 a b 0 i0 j0 k)))).
  assert (E : total3 N1 N2 1 (fun i0 j0 k => (rho i0 j0 - mean) * cos (u - angle N1 N2 1 a b 0 i0 j0 k)) = cos u * S1 + (- sin u) * S2).
  { unfold S1, S2. rewrite <- !t3_scal, <- t3_plus. apply t3_ext. intros. rewrite cos_minus. ring. }
  rewrite E. ring.
Qed.
Print Assumptions C92_2d.
Theorem C92_unique_2d : forall G4 dx1 dx2 N1 N2 rho P Q, (0 < N1)%Z -> (0 < N2)%Z -> 0 < dx1 -> 0 < dx2 ->
  potential2 G4 dx1 dx2 N1 N2 rho P -> potential2 G4 dx1 dx2 N1 N2 rho Q ->
  forall a b, (0 <= a < N1)%Z -> (0 <= b < N2)%Z -> P a b = Q a b.
Proof.
  assert (LIFT : forall G4 dx1 dx2 N1 N2 rho P, potential2 G4 dx1 dx2 N1 N2 rho P -> potential3 G4 dx1 dx2 1 N1 N2 1 (fun a b _ => rho a b) (fun a b _ => P a b)).
  { intros G4 dx1 dx2 N1 N2 rho P [PP [PT PL]]. split; [|split].
    - intros a b c. destruct (PP a b). auto.
    - rewrite t3_flat. exact PT.
    - intros a b c [A [B C]]. rewrite t3_flat, Z.mul_1_r. transitivity (G4 * (rho a b - total2 N1 N2 rho / IZR (N1 * N2))); [|reflexivity]. rewrite <- (PL a b A B). unfold lap3, lap2, Rdiv. ring. }
  intros G4 dx1 dx2 N1 N2 rho P Q P1 P2 X1 X2 HP HQ a b A B. apply LIFT in HP. apply LIFT in HQ.
  assert (P3 : (0 < 1)%Z) by lia. assert (X3 : 0 < 1) by lra.
  apply (C92_unique G4 dx1 dx2 1 N1 N2 1 (fun a b _ => rho a b) (fun a b _ => P a b) (fun a b _ => Q a b) P1 P2 P3 X1 X2 X3 HP HQ a b 0%Z). unfold in_domain. lia.
Qed.
Print Assumptions C92_unique_2d.

(** ** One dimension *)
Fixpoint Sn (g : nat -> R) (n : nat) : R := match n with O => 0 | S m => Sn g m + g m end.
Lemma fold_Sn : forall g n, fold_left (fun s i => s + g i) (seq 0 n) 0 = Sn g n.
Proof.
  intros g n. induction n; [reflexivity|]. rewrite seq_S, fold_left_app, IHn. reflexivity.
Qed.
Lemma Sn_sum : forall g n, (0 < n)%nat -> sum_f_R0 g (n - 1) = Sn g n.
Proof.
  intros g n H. destruct n; [lia|]. cbn [Nat.sub]. rewrite Nat.sub_0_r. clear H. induction n; [cbn; ring|]. cbn [sum_f_R0 Sn] in *. rewrite IHn. reflexivity.
Qed.
Lemma Sn_ext : forall g h n, (forall i, g i = h i) -> Sn g n = Sn h n.
Proof. intros g h n H. induction n; cbn [Sn]; [reflexivity|]. rewrite IHn, H. reflexivity. Qed.
Lemma Sn_affine : forall g n a b, Sn (fun i => a * (g i - b)) n = a * (Sn g n - INR n * b).
Proof. intros g n a b. induction n; [cbn; ring|]. rewrite S_INR. cbn [Sn]. rewrite IHn. ring. Qed.
Section P1D.
Variables (G4 mean dx : R) (n : nat) (d : nat -> R).
Let a := src G4 mean dx d.
Let p m := fst (phi_up G4 mean dx n d m).
Let p0 := phi_first G4 mean dx n d.
Lemma p_step : forall m, p (S (S m)) = a (S m) + 2 * p (S m) - p m.
Proof.
  intro m. unfold p. cbn [phi_up]. fold a. destruct (phi_up G4 mean dx n d m) as [x y]. cbn [fst snd]. destruct m; reflexivity.
Qed.
Lemma p_form : forall m, p m = INR (m + 1) * p0 + INR (m + 1) * Sn a m - Sn (fun l => INR (l + 1) * a l) m /\
  p (S m) = INR (S m + 1) * p0 + INR (S m + 1) * Sn a (S m) - Sn (fun l => INR (l + 1) * a l) (S m).
Proof.
  induction m as [|m [I1 I2]].
  - split; [unfold p, p0; cbn; ring|]. unfold p, p0. cbn [phi_up fst Sn]. fold a. cbn. ring.
  - split; [exact I2|]. rewrite p_step, I2, I1. cbn [Sn]. rewrite !plus_INR, !S_INR. cbn [INR]. ring.
Qed.
Hypothesis n2 : (2 <= n)%nat.
Hypothesis hm : mean = Sn d n / INR n.
Lemma nn : INR n <> 0. Proof. apply not_0_INR. lia. Qed.
Lemma a_sum : Sn a n = 0.
Proof. unfold a, src. rewrite Sn_affine, hm. field. apply nn. Qed.
Lemma p0_sum : INR n * p0 = Sn (fun l => INR (l + 1) * a l) n.
Proof.
  unfold p0, phi_first. rewrite fold_Sn. rewrite (Sn_ext (fun l => INR (l + 1) * a l) (fun i => INR (i + 1) * G4 * (dx * dx) * (d i - mean))).
  - field. apply nn.
  - intro i. unfold a, src. ring.
Qed.
Lemma p_n : p n = p0.
Proof. destruct (p_form n) as [E _]. rewrite E, a_sum, <- p0_sum, plus_INR. cbn [INR]. ring. Qed.
Lemma p_last : p (n - 1) = 0.
Proof.
  destruct (p_form (n - 1)) as [E _]. rewrite E. replace (n - 1 + 1)%nat with n by lia.
  pose proof a_sum as A. pose proof p0_sum as B. destruct n as [|n']; [lia|]. replace (S n' - 1)%nat with n' by lia. cbn [Sn] in A, B.
  rewrite B. replace (n' + 1)%nat with (S n') by lia. replace (Sn a n') with (- a n') by lra. ring.
Qed.
Lemma p_poisson : forall i, (i < n)%nat -> p ((i + 1) mod n) - 2 * p i + p ((i + n - 1) mod n) = a i.
Proof.
  intros i I. destruct i as [|i].
  - rewrite (Nat.mod_small (0 + 1)) by lia. rewrite (Nat.mod_small (0 + n - 1)) by lia.
    replace (0 + n - 1)%nat with (n - 1)%nat by lia. rewrite p_last. unfold p. cbn [phi_up fst Nat.add]. fold a. ring.
  - replace (S i + n - 1)%nat with (i + 1 * n)%nat by lia. rewrite Nat.mod_add, (Nat.mod_small i) by lia.
    assert (E : p ((S i + 1) mod n) = p (S (S i))).
    { destruct (Nat.eq_dec (S (S i)) n) as [Q|Q].
      - replace (S i + 1)%nat with n by lia. rewrite Nat.mod_same by lia. rewrite Q, p_n. reflexivity.
      - rewrite Nat.mod_small by lia. f_equal. lia. }
    rewrite E, p_step. ring.
Qed.
End P1D.
(** One Grid; here [grav_mean_rho] must be the mean density. *)
Theorem C92_1d : forall G4 mean dx n rho, (2 <= n)%nat -> 0 < dx -> mean = sum_f_R0 rho (n - 1) / INR n ->
  potential1 G4 dx n rho (selfg_fft_1d G4 mean dx n rho).
Proof.
  intros G4 mean dx n rho N2 X HM. rewrite Sn_sum in HM by lia. split.
  - rewrite Sn_sum by lia. unfold selfg_fft_1d, total_phi. rewrite fold_Sn.
    set (c := Sn (fun i => fst (phi_up G4 mean dx n rho i)) n / INR n).
    rewrite (Sn_ext _ (fun i => 1 * (fst (phi_up G4 mean dx n rho i) - c))) by (intros; ring).
    rewrite (Sn_affine (fun i => fst (phi_up G4 mean dx n rho i))). unfold c. field. apply nn. exact N2.
  - intros i I. rewrite Sn_sum, <- HM by lia. unfold selfg_fft_1d.
    pose proof (p_poisson G4 mean dx n rho N2 HM i I) as E. cbv beta zeta in E. unfold src in E.
    set (t := total_phi G4 mean dx n rho). 
    replace (fst (phi_up G4 mean dx n rho ((i + 1) mod n)) - t - 2 * (fst (phi_up G4 mean dx n rho i) - t) + (fst (phi_up G4 mean dx n rho ((i + n - 1) mod n)) - t))
      with (G4 * (dx * dx) * (rho i - mean)) by (rewrite <- E; ring).
    field. lra.
Qed.
Print Assumptions C92_1d.
(** The 1D solver ignores that there may be other Grids: two Grids of two cells, density 2 in the first and 0 in the second. *)
Theorem C92_1d_several_grids_refuted : exists (rho : nat -> R) (mean : R),
  mean = sum_f_R0 rho 3 / 4 /\
  let left := selfg_fft_1d 1 mean 1 2 rho in let right := selfg_fft_1d 1 mean 1 2 (fun i => rho (i + 2)%nat) in
  ~ potential1 1 1 4 rho (fun i => if (i <? 2)%nat then left i else right (i - 2)%nat).
Proof.
  exists (fun i => if (i <? 2)%nat then 2 else 0), 1. split; [cbn; lra|]. cbv zeta. intros [_ H].
  specialize (H 1%nat ltac:(lia)). cbn in H. unfold selfg_fft_1d, total_phi, phi_first, src in H. cbn in H.
  unfold phi_first, src in H. cbn in H. lra.
Qed.
Print Assumptions C92_1d_several_grids_refuted.
(** With another value of [grav_mean_rho] the 1D solver does not return the potential: uniform density 1, constant 0. *)
Theorem C92_1d_mean_refuted : exists mean rho, ~ potential1 1 1 2 rho (selfg_fft_1d 1 mean 1 2 rho).
Proof.
  exists 0, (fun _ => 1). intros [_ H]. specialize (H 0%nat ltac:(lia)). cbn in H. unfold selfg_fft_1d, total_phi, phi_first, src in H. cbn in H.
  unfold phi_first, src in H. cbn in H. lra.
Qed.
Print Assumptions C92_1d_mean_refuted.

(** ** Examples: eight Grids of 2 x 3 x 1 cells; four Grids of 2 x 3 cells; three cells in a line *)
Definition two (n a : Z) : Z := if (a <? n)%Z then 0 else 1.
Definition exD : decomp := Decomp (fun a b c => Z.to_nat (4 * two 2 a + 2 * two 3 b + two 1 c)%Z)
  (fun p => ((Z.of_nat p / 4) * 2, (Z.of_nat p / 2 mod 2) * 3, Z.of_nat p mod 2)%Z) (fun _ => (2, 3, 1)%Z).
Example C92_example_tiles : tiles 4 6 2 8 exD.
Proof.
  split; [|split].
  - intros a b c [A [B C]].
    assert (E : exists p, own exD a b c = p /\ (p < 8)%nat /\ (d1 (Disp exD p) <= a < d1 (Disp exD p) + 2)%Z /\ (d2 (Disp exD p) <= b < d2 (Disp exD p) + 3)%Z /\ (d3 (Disp exD p) <= c < d3 (Disp exD p) + 1)%Z).
    { eexists; split; [reflexivity|]. unfold own, exD, two.
      destruct (Z.ltb_spec a 2), (Z.ltb_spec b 3), (Z.ltb_spec c 1);
        match goal with |- context [Z.to_nat ?x] => let v := eval vm_compute in (Z.to_nat x) in change (Z.to_nat x) with v end; cbn; lia. }
    destruct E as [p [-> [L [E1 [E2 E3]]]]]. split; [exact L|]. unfold in_grid. change (d1 (Nx exD p)) with 2%Z. change (d2 (Nx exD p)) with 3%Z. change (d3 (Nx exD p)) with 1%Z. lia.
  - intros p L. do 8 (destruct p; [cbn; lia|]). lia.
  - intros p i j k L [I [J K]]. change (Nx exD p) with (2, 3, 1)%Z in I, J, K. unfold d1, d2, d3 in I, J, K; cbn [fst snd] in I, J, K.
    do 8 (destruct p; [unfold in_domain, exD, d1, d2, d3, two; cbn [own Disp Nx fst snd Z.of_nat];
      match goal with |- context [(i + ?x)%Z] => let v := eval vm_compute in x in change x with v end;
      match goal with |- context [(j + ?x)%Z] => let v := eval vm_compute in x in change x with v end;
      match goal with |- context [(k + ?x)%Z] => let v := eval vm_compute in x in change x with v end;
      repeat match goal with |- context [(?x <? ?y)%Z] => destruct (Z.ltb_spec x y); try lia end|]). lia.
Qed.
Example C92_example : exists P, potential3 1 (1/4) (1/6) (1/2) 4 6 2 (fun a b c => if (a =? 2)%Z then 5 else 1) P.
Proof.
  destruct (C92_3d 1 3 (1/4) (1/6) (1/2) 4 6 2 8 exD (fun p i j k => if (i + d1 (Disp exD p) =? 2)%Z then 5 else 1) (fun a b c => if (a =? 2)%Z then 5 else 1))
    as [P [H _]]; try lia; try lra; [exact C92_example_tiles|reflexivity|]. exists P. exact H.
Qed.
Example C92_example_1d : potential1 1 1 3 (fun i => INR i) (selfg_fft_1d 1 1 1 3 (fun i => INR i)).
Proof. apply C92_1d; [lia|lra|cbn; lra]. Qed.
