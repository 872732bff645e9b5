(** * C98: the Poisson solver with open boundaries *)
From Coq Require Import Reals ZArith List Bool Arith Lia Lra.
From Verif Require Import SumFacts GravModel GravSpec GravFacts GravProps ObcModel.
From Verif Require Import IntegSpec IntegFacts.
Import ListNotations.
Open Scope R_scope.

(** ** Specification: the density continued by vacuum to a box of twice the size *)
Definition padded (N1 N2 N3 : Z) (rho : Z -> Z -> Z -> R) (a b c : Z) : R :=
  if ((0 <=? a) && (a <? N1) && (0 <=? b) && (b <? N2) && (0 <=? c) && (c <? N3))%Z then rho a b c else 0.

(** ** Sums over the doubled box *)
Lemma sum_split : forall N f, (0 <= N)%Z ->
  sumZ 0 (2 * N - 1) f = sumZ 0 (N - 1) (fun a => f (2 * a + 0)%Z) + sumZ 0 (N - 1) (fun a => f (2 * a + 1)%Z).
Proof.
  intros N f HN. pattern N. apply natlike_ind; auto.
  - rewrite !sumZ_empty by lia. ring.
  - intros x Hx IH. rewrite (sumZ_last 0 (2 * Z.succ x - 1)), (sumZ_last 0 (2 * Z.succ x - 1 - 1)) by lia.
    rewrite (sumZ_last 0 (Z.succ x - 1)), (sumZ_last 0 (Z.succ x - 1) (fun a => f (2 * a + 1)%Z)) by lia.
    replace (2 * Z.succ x - 1 - 1 - 1)%Z with (2 * x - 1)%Z by lia. rewrite IH.
    replace (Z.succ x - 1 - 1)%Z with (x - 1)%Z by lia.
    replace (2 * (Z.succ x - 1) + 0)%Z with (2 * Z.succ x - 1 - 1)%Z by lia.
    replace (2 * (Z.succ x - 1) + 1)%Z with (2 * Z.succ x - 1)%Z by lia. ring.
Qed.
Definition part (N1 N2 N3 : Z) (f : Z -> Z -> Z -> R) (o : Z * Z * Z) : R :=
  total3 N1 N2 N3 (fun a b c => f (2 * a + fst (fst o))%Z (2 * b + snd (fst o))%Z (2 * c + snd o)%Z).
Lemma t3_split : forall N1 N2 N3 f, (0 <= N1)%Z -> (0 <= N2)%Z -> (0 <= N3)%Z ->
  total3 (2 * N1) (2 * N2) (2 * N3) f = lsum offs (part N1 N2 N3 f).
Proof.
  intros N1 N2 N3 f P1 P2 P3. unfold offs. cbn [flat_map map app]. rewrite !lsum_cons, lsum_nil. unfold part. cbn [fst snd].
  unfold total3 at 1. rewrite sum_split by auto.
  assert (E : forall o, sumZ 0 (N1 - 1) (fun a => sumZ 0 (2 * N2 - 1) (fun b => sumZ 0 (2 * N3 - 1) (fun c => f (2 * a + o)%Z b c))) =
    total3 N1 N2 N3 (fun a b c => f (2 * a + o)%Z (2 * b + 0)%Z (2 * c + 0)%Z) + total3 N1 N2 N3 (fun a b c => f (2 * a + o)%Z (2 * b + 1)%Z (2 * c + 0)%Z) +
    (total3 N1 N2 N3 (fun a b c => f (2 * a + o)%Z (2 * b + 0)%Z (2 * c + 1)%Z) + total3 N1 N2 N3 (fun a b c => f (2 * a + o)%Z (2 * b + 1)%Z (2 * c + 1)%Z))).
  { intro o. rewrite <- !t3_plus. unfold total3. apply sumZ_ext; intros a _. rewrite sum_split by auto. rewrite <- sumZ_plus. apply sumZ_ext; intros b _.
    rewrite !(sum_split N3) by auto. rewrite <- !sumZ_plus. apply sumZ_ext; intros c _. ring. }
  rewrite !E. ring.
Qed.
Lemma sum_pad : forall N f, (0 <= N)%Z -> (forall a, (N <= a)%Z -> f a = 0) -> sumZ 0 (2 * N - 1) f = sumZ 0 (N - 1) f.
Proof.
  intros N f HN H. rewrite <- (sumZ_cat 0 (N - 1)) by lia. replace (N - 1 + 1)%Z with N by lia.
  rewrite (sumZ_ext N (2 * N - 1) f (fun _ => 0)) by (intros; apply H; lia). rewrite sumZ_zero. ring.
Qed.
Lemma t3_pad : forall N1 N2 N3 rho g, (0 <= N1)%Z -> (0 <= N2)%Z -> (0 <= N3)%Z ->
  total3 (2 * N1) (2 * N2) (2 * N3) (fun a b c => padded N1 N2 N3 rho a b c * g a b c) = total3 N1 N2 N3 (fun a b c => rho a b c * g a b c).
Proof.
  intros N1 N2 N3 rho g P1 P2 P3.
  assert (O : forall a b c, (N1 <= a \/ N2 <= b \/ N3 <= c)%Z -> padded N1 N2 N3 rho a b c = 0).
  { intros a b c H. unfold padded. destruct (Z.ltb_spec a N1), (Z.ltb_spec b N2), (Z.ltb_spec c N3); rewrite ?andb_false_r; try reflexivity. lia. }
  rewrite <- (t3_ext N1 N2 N3 (fun a b c => padded N1 N2 N3 rho a b c * g a b c)).
  - assert (AZ : forall l u f, (forall x, f x = 0) -> sumZ l u f = 0).
    { intros l u f H. rewrite (sumZ_ext l u f (fun _ => 0)) by (intros; apply H). apply sumZ_zero. }
    unfold total3. rewrite (sum_pad N1); auto.
    2:{ intros a H. apply AZ. intro. apply AZ. intro. rewrite O by lia. ring. }
    apply sumZ_ext; intros a _. rewrite (sum_pad N2); auto.
    2:{ intros b H. apply AZ. intro. rewrite O by lia. ring. }
    apply sumZ_ext; intros b _. apply sum_pad; auto. intros. rewrite O by lia. ring.
  - intros a b c [A [B C]]. unfold padded.
    destruct (Z.leb_spec 0 a), (Z.ltb_spec a N1), (Z.leb_spec 0 b), (Z.ltb_spec b N2), (Z.leb_spec 0 c), (Z.ltb_spec c N3); try lia. reflexivity.
Qed.

(** ** One pass *)
Section OnePass.
Variables (dx1 dx2 dx3 : R) (N1 N2 N3 : Z).
Hypothesis P1 : (0 < N1)%Z. Hypothesis P2 : (0 < N2)%Z. Hypothesis P3 : (0 < N3)%Z.
Let cf2 := cf dx1 dx2 dx3 (2 * N1) (2 * N2) (2 * N3).
Let ang2 := angle (2 * N1) (2 * N2) (2 * N3).
Lemma pcoeff_lam : forall a b c,
  pcoeff dx1 dx2 dx3 N1 N2 N3 (1/2 * IZR a) (1/2 * IZR b) (1/2 * IZR c) = 1 / lam dx1 dx2 dx3 (2 * N1) (2 * N2) (2 * N3) a b c.
Proof.
  intros. unfold pcoeff, lam.
  assert (A : forall N x, (0 < N)%Z -> 1/2 * IZR x * (2 * PI / IZR N) = ang (2 * N) x).
  { intros N x HN. assert (IZR N <> 0) by (apply not_0_IZR; lia). unfold ang. rewrite mult_IZR. field. auto. }
  rewrite !A by auto. unfold Rdiv.
  replace ((2 * cos (ang (2 * N1) a) - 2) * / (dx1 * dx1) + (2 * cos (ang (2 * N2) b) - 2) * / (dx2 * dx2) + (2 * cos (ang (2 * N3) c) - 2) * / (dx3 * dx3))
    with ((-2) * ((1 - cos (ang (2 * N1) a)) * (1 * / (dx1 * dx1)) + (1 - cos (ang (2 * N2) b)) * (1 * / (dx2 * dx2)) + (1 - cos (ang (2 * N3) c)) * (1 * / (dx3 * dx3)))) by ring.
  match goal with |- _ * / ?x = _ => set (t := x) end. clearbody t. rewrite Rinv_mult. replace (/ -2) with (- (1 * / 2)) by field. ring.
Qed.
Lemma coeff_spec : forall D io jo ko p i j k w, (io = 0 \/ io = 1)%Z -> (jo = 0 \/ jo = 1)%Z -> (ko = 0 \/ ko = 1)%Z ->
  (0 <= i)%Z -> (0 <= j)%Z -> (0 <= k)%Z -> (0 <= d1 (Disp D p))%Z -> (0 <= d2 (Disp D p))%Z -> (0 <= d3 (Disp D p))%Z ->
  coeff dx1 dx2 dx3 N1 N2 N3 D io jo ko p i j k w =
  (cf2 (2 * (i + d1 (Disp D p)) + io) (2 * (j + d2 (Disp D p)) + jo) (2 * (k + d3 (Disp D p)) + ko) * fst w,
   cf2 (2 * (i + d1 (Disp D p)) + io) (2 * (j + d2 (Disp D p)) + jo) (2 * (k + d3 (Disp D p)) + ko) * snd w).
Proof.
  intros D io jo ko p i j k w HI HJ HK I J K Q1 Q2 Q3. unfold coeff.
  destruct (Disp D p) as [[D1 D2] D3]. unfold d1, d2, d3 in *. cbn [fst snd] in *.
  assert (G : forall a b c x y z, ((a =? 0) && (b =? 0) && (c =? 0))%Z = false -> x = 1/2 * IZR a -> y = 1/2 * IZR b -> z = 1/2 * IZR c ->
     scale (pcoeff dx1 dx2 dx3 N1 N2 N3 x y z) w = (cf2 a b c * fst w, cf2 a b c * snd w)).
  { intros a b c x y z E -> -> ->. rewrite pcoeff_lam. unfold cf2, cf. rewrite E. unfold scale. f_equal; ring. }
  assert (ZF : forall a b c, (a <> 0 \/ b <> 0 \/ c <> 0)%Z -> ((a =? 0) && (b =? 0) && (c =? 0))%Z = false).
  { intros a b c H. destruct (Z.eqb_spec a 0), (Z.eqb_spec b 0), (Z.eqb_spec c 0); cbn; auto; lia. }
  destruct (Z.ltb_spec 0 i).
  { apply G; [apply ZF; lia| | |]; rewrite plus_IZR, mult_IZR, plus_IZR; field. }
  replace i with 0%Z by lia. destruct (Z.ltb_spec 0 j).
  { apply G; [apply ZF; lia| | |]; rewrite plus_IZR, mult_IZR, plus_IZR; field. }
  replace j with 0%Z by lia. destruct (Z.ltb_spec 0 k).
  { apply G; [apply ZF; lia| | |]; rewrite plus_IZR, mult_IZR, plus_IZR; field. }
  replace k with 0%Z by lia.
  destruct ((D1 =? 0) && (D2 =? 0) && (D3 =? 0) && (io =? 0) && (jo =? 0) && (ko =? 0))%Z eqn:E.
  - apply andb_prop in E as [E E6]. apply andb_prop in E as [E E5]. apply andb_prop in E as [E E4]. apply andb_prop in E as [E E3]. apply andb_prop in E as [E1 E2].
    apply Z.eqb_eq in E1, E2, E3, E4, E5, E6. subst. unfold cf2, cf. cbn. f_equal; ring.
  - apply G; [apply ZF| | |]; try (rewrite plus_IZR, mult_IZR, plus_IZR; field).
    destruct (Z.eqb_spec D1 0), (Z.eqb_spec D2 0), (Z.eqb_spec D3 0), (Z.eqb_spec io 0), (Z.eqb_spec jo 0), (Z.eqb_spec ko 0); cbn in E; try discriminate; lia.
Qed.
Lemma offset_spec : forall D io jo ko p i j k a b c,
  angle N1 N2 N3 a b c (i + d1 (Disp D p)) (j + d2 (Disp D p)) (k + d3 (Disp D p)) + offset N1 N2 N3 D io jo ko p i j k =
  ang2 (2 * a + io) (2 * b + jo) (2 * c + ko) (i + d1 (Disp D p)) (j + d2 (Disp D p)) (k + d3 (Disp D p)).
Proof.
  intros. unfold offset, ang2, angle. destruct (Disp D p) as [[D1 D2] D3]. unfold d1, d2, d3. cbn [fst snd].
  assert (IZR N1 <> 0) by (apply not_0_IZR; lia). assert (IZR N2 <> 0) by (apply not_0_IZR; lia). assert (IZR N3 <> 0) by (apply not_0_IZR; lia).
  rewrite !mult_IZR, !plus_IZR, !mult_IZR. field. auto.
Qed.
Variables (ng : nat) (D : decomp) (rhoG : nat -> Z -> Z -> Z -> R) (rho : Z -> Z -> Z -> R).
Hypothesis TL : tiles N1 N2 N3 ng D.
Hypothesis HR : forall p i j k, (p < ng)%nat -> in_grid D p i j k -> rhoG p i j k = rho (i + d1 (Disp D p))%Z (j + d2 (Disp D p))%Z (k + d3 (Disp D p))%Z.
Variables (io jo ko : Z).
Hypothesis HI : (io = 0 \/ io = 1)%Z. Hypothesis HJ : (jo = 0 \/ jo = 1)%Z. Hypothesis HK : (ko = 0 \/ ko = 1)%Z.
Lemma pass_spec : forall p i j k, (p < ng)%nat -> in_grid D p i j k ->
  pass dx1 dx2 dx3 N1 N2 N3 D rhoG io jo ko p i j k =
  part N1 N2 N3 (fun a b c => cf2 a b c * total3 N1 N2 N3 (fun x y z => rho x y z *
     cos (ang2 a b c (i + d1 (Disp D p)) (j + d2 (Disp D p)) (k + d3 (Disp D p)) - ang2 a b c x y z))) (io, jo, ko).
Proof.
  intros p i j k Hp I. destruct TL as [TA [TD TB]]. unfold pass. cbv zeta. unfold part. cbn [fst snd].
  set (off := fun a b c => offset N1 N2 N3 D io jo ko (own D a b c) (a - d1 (Disp D (own D a b c))) (b - d2 (Disp D (own D a b c))) (c - d3 (Disp D (own D a b c)))).
  assert (OF : forall a b c x y z, angle N1 N2 N3 a b c x y z + off x y z = ang2 (2 * a + io) (2 * b + jo) (2 * c + ko) x y z).
  { intros a b c x y z. pose proof (offset_spec D io jo ko (own D x y z) (x - d1 (Disp D (own D x y z))) (y - d2 (Disp D (own D x y z))) (z - d3 (Disp D (own D x y z))) a b c) as Q.
    rewrite !Z.sub_add in Q. exact Q. }
  assert (F : forall a b c, in_domain N1 N2 N3 a b c -> gather D (load N1 N2 N3 D rhoG io jo ko) a b c = (rho a b c * cos (off a b c), rho a b c * - sin (off a b c))).
  { intros a b c A. destruct (TA a b c A) as [L IG]. unfold gather, load. rewrite HR by auto. rewrite !Z.sub_add. reflexivity. }
  set (FW := dft3 (-1) N1 N2 N3 (gather D (load N1 N2 N3 D rhoG io jo ko))).
  assert (FT : forall a b c, FW a b c =
     (total3 N1 N2 N3 (fun x y z => rho x y z * cos (ang2 (2 * a + io) (2 * b + jo) (2 * c + ko) x y z)),
      total3 N1 N2 N3 (fun x y z => rho x y z * - sin (ang2 (2 * a + io) (2 * b + jo) (2 * c + ko) x y z)))).
  { intros a b c. unfold FW, dft3. cbv zeta. f_equal; apply t3_ext; intros i0 j0 k0 A; rewrite F by auto; cbn [fst snd]; rewrite <- OF, ?cos_plus, ?sin_plus; ring. }
  set (W := fun p i j k => coeff dx1 dx2 dx3 N1 N2 N3 D io jo ko p i j k (scatter D FW p i j k)).
  assert (GW : forall a b c, in_domain N1 N2 N3 a b c -> gather D W a b c =
     (cf2 (2 * a + io) (2 * b + jo) (2 * c + ko) * fst (FW a b c), cf2 (2 * a + io) (2 * b + jo) (2 * c + ko) * snd (FW a b c))).
  { intros a b c A. destruct (TA a b c A) as [L [IG1 [IG2 IG3]]]. destruct (TD _ L) as [Q1 [Q2 Q3]].
    unfold gather at 1, W. cbv zeta. rewrite coeff_spec by (auto; lia). unfold scatter. rewrite !Z.sub_add. reflexivity. }
  unfold scatter. unfold dft3. cbv zeta. cbn [fst snd].
  set (x := (i + d1 (Disp D p))%Z). set (y := (j + d2 (Disp D p))%Z). set (z := (k + d3 (Disp D p))%Z).
  set (o := offset N1 N2 N3 D io jo ko p i j k).
  change (cos o * total3 N1 N2 N3 (fun a b c => fst (gather D W a b c) * cos (angle N1 N2 N3 x y z a b c) - 1 * (snd (gather D W a b c) * sin (angle N1 N2 N3 x y z a b c))) -
          sin o * total3 N1 N2 N3 (fun a b c => snd (gather D W a b c) * cos (angle N1 N2 N3 x y z a b c) + 1 * (fst (gather D W a b c) * sin (angle N1 N2 N3 x y z a b c))) =
          total3 N1 N2 N3 (fun a b c => cf2 (2 * a + io) (2 * b + jo) (2 * c + ko) * total3 N1 N2 N3 (fun x0 y0 z0 => rho x0 y0 z0 *
             cos (ang2 (2 * a + io) (2 * b + jo) (2 * c + ko) x y z - ang2 (2 * a + io) (2 * b + jo) (2 * c + ko) x0 y0 z0)))).
  unfold Rminus at 1. rewrite <- t3_scal, Ropp_mult_distr_l, <- t3_scal, <- t3_plus.
  apply t3_ext. intros a b c A. rewrite GW by auto. rewrite FT. cbn [fst snd].
  rewrite (angle_sym N1 N2 N3 x y z a b c).
  assert (U : angle N1 N2 N3 a b c x y z + o = ang2 (2 * a + io) (2 * b + jo) (2 * c + ko) x y z) by apply offset_spec.
  rewrite (t3_ext _ _ _ (fun x0 y0 z0 => rho x0 y0 z0 * cos (_ - _)) (fun x0 y0 z0 =>
      cos (angle N1 N2 N3 a b c x y z + o) * (rho x0 y0 z0 * cos (ang2 (2 * a + io) (2 * b + jo) (2 * c + ko) x0 y0 z0)) +
      (- sin (angle N1 N2 N3 a b c x y z + o)) * (rho x0 y0 z0 * - sin (ang2 (2 * a + io) (2 * b + jo) (2 * c + ko) x0 y0 z0))))
    by (intros; rewrite U, cos_minus; ring).
  rewrite t3_plus, !t3_scal, cos_plus, sin_plus.
  set (S1 := total3 _ _ _ _). set (S2 := total3 _ _ _ _). set (u := angle _ _ _ _ _ _ _ _ _). clearbody S1 S2 u o. ring.
Qed.
End OnePass.

(** ** The potential stored in the active cells *)
Lemma fold_active : forall D (g : Z * Z * Z -> nat -> Z -> Z -> Z -> R) l phi p i j k,
  fold_left (fun phi o p i j k => if active D p i j k then phi p i j k + g o p i j k else phi p i j k) l phi p i j k =
  if active D p i j k then phi p i j k + lsum l (fun o => g o p i j k) else phi p i j k.
Proof.
  intros D g l. induction l as [|o l IH]; intros; cbn [fold_left].
  - rewrite lsum_nil. destruct (active D p i j k); ring.
  - rewrite IH. rewrite lsum_cons. destruct (active D p i j k); ring.
Qed.
Lemma active_grid : forall D p i j k, active D p i j k = true <-> in_grid D p i j k.
Proof.
  intros. unfold active, in_grid. rewrite !andb_true_iff, !Z.leb_le, !Z.ltb_lt. tauto.
Qed.
Lemma obc_active : forall G4 dx1 dx2 dx3 N1 N2 N3 ng D rhoG rho nghost Phi Phi_old p i j k,
  (0 < N1)%Z -> (0 < N2)%Z -> (0 < N3)%Z -> tiles N1 N2 N3 ng D ->
  (forall p i j k, (p < ng)%nat -> in_grid D p i j k -> rhoG p i j k = rho (i + d1 (Disp D p))%Z (j + d2 (Disp D p))%Z (k + d3 (Disp D p))%Z) ->
  (0 <= nghost)%Z -> (p < ng)%nat -> in_grid D p i j k ->
  fst (selfg_fft_obc_3d G4 dx1 dx2 dx3 N1 N2 N3 D rhoG nghost Phi Phi_old) p i j k =
  pot G4 dx1 dx2 dx3 (2 * N1) (2 * N2) (2 * N3) (padded N1 N2 N3 rho) (i + d1 (Disp D p)) (j + d2 (Disp D p)) (k + d3 (Disp D p)).
Proof.
  intros G4 dx1 dx2 dx3 N1 N2 N3 ng D rhoG rho nghost Phi Phi_old p i j k P1 P2 P3 TL HR HG Hp I.
  unfold selfg_fft_obc_3d. cbv zeta. cbn [fst].
  rewrite (fold_active D (fun o => pass dx1 dx2 dx3 N1 N2 N3 D rhoG (fst (fst o)) (snd (fst o)) (snd o))).
  assert (A : active D p i j k = true) by (apply active_grid; auto). rewrite A.
  assert (AL : allocated D nghost p i j k = true).
  { destruct I as [I1 [I2 I3]]. unfold allocated. rewrite !andb_true_iff, !Z.leb_le, !Z.ltb_lt. lia. }
  rewrite AL. rewrite Rplus_0_l. unfold pot.
  rewrite t3_split by lia. replace (2 * N1 * (2 * N2) * (2 * N3))%Z with (8 * (N1 * N2 * N3))%Z by ring. rewrite (mult_IZR 8 (N1 * N2 * N3)).
  rewrite Rmult_comm. f_equal. apply lsum_ext. intros [[io jo] ko] O. cbn [fst snd].
  assert (B : (io = 0 \/ io = 1)%Z /\ (jo = 0 \/ jo = 1)%Z /\ (ko = 0 \/ ko = 1)%Z).
  { unfold offs in O. cbn in O. repeat (destruct O as [O|O]; [inversion O; subst; lia|]). contradiction. }
  destruct B as [B1 [B2 B3]].
  rewrite (pass_spec dx1 dx2 dx3 N1 N2 N3 P1 P2 P3 ng D rhoG rho TL HR io jo ko B1 B2 B3 p i j k Hp I).
  unfold part. apply t3_ext. intros a b c _. f_equal. unfold T. rewrite t3_pad by lia. reflexivity.
Qed.

Definition holds (ng : nat) (D : decomp) (rhoG : nat -> Z -> Z -> Z -> R) (rho : Z -> Z -> Z -> R) : Prop :=
  forall p i j k, (p < ng)%nat -> in_grid D p i j k -> rhoG p i j k = rho (i + d1 (Disp D p))%Z (j + d2 (Disp D p))%Z (k + d3 (Disp D p))%Z.

(** The Grids store, cell by cell, the potential of the density continued by vacuum to a periodic box of twice the size;
    the previous potential is kept; the ghost zones are zero. *)
Theorem C98_potential : forall G4 dx1 dx2 dx3 N1 N2 N3 ng D rhoG rho nghost,
  (0 < N1)%Z -> (0 < N2)%Z -> (0 < N3)%Z -> 0 < dx1 -> 0 < dx2 -> 0 < dx3 -> (0 <= nghost)%Z -> tiles N1 N2 N3 ng D -> holds ng D rhoG rho ->
  exists P, potential3 G4 dx1 dx2 dx3 (2 * N1) (2 * N2) (2 * N3) (padded N1 N2 N3 rho) P /\
    forall Phi Phi_old p i j k, (p < ng)%nat -> in_grid D p i j k ->
      fst (selfg_fft_obc_3d G4 dx1 dx2 dx3 N1 N2 N3 D rhoG nghost Phi Phi_old) p i j k = P (i + d1 (Disp D p))%Z (j + d2 (Disp D p))%Z (k + d3 (Disp D p))%Z.
Proof.
  intros G4 dx1 dx2 dx3 N1 N2 N3 ng D rhoG rho nghost P1 P2 P3 X1 X2 X3 HG TL HR.
  exists (pot G4 dx1 dx2 dx3 (2 * N1) (2 * N2) (2 * N3) (padded N1 N2 N3 rho)). split.
  - split; [apply pot_periodic; lia|]. split; [apply pot_total; lia|]. intros. rewrite pot_poisson by (auto; lia). reflexivity.
  - intros. apply (obc_active G4 dx1 dx2 dx3 N1 N2 N3 ng); auto.
Qed.
Print Assumptions C98_potential.
(** The rest of the arrays: Phi_old holds the potential before the call, ghost zones of Phi are zero. *)
Theorem C98_old_and_ghosts : forall G4 dx1 dx2 dx3 N1 N2 N3 D rhoG nghost Phi Phi_old p i j k, (0 <= nghost)%Z ->
  (- nghost <= i < d1 (Nx D p) + nghost)%Z -> (- nghost <= j < d2 (Nx D p) + nghost)%Z -> (- nghost <= k < d3 (Nx D p) + nghost)%Z ->
  snd (selfg_fft_obc_3d G4 dx1 dx2 dx3 N1 N2 N3 D rhoG nghost Phi Phi_old) p i j k = Phi p i j k /\
  (~ in_grid D p i j k -> fst (selfg_fft_obc_3d G4 dx1 dx2 dx3 N1 N2 N3 D rhoG nghost Phi Phi_old) p i j k = 0).
Proof.
  intros G4 dx1 dx2 dx3 N1 N2 N3 D rhoG nghost Phi Phi_old p i j k HG I J K.
  assert (AL : allocated D nghost p i j k = true).
  { unfold allocated. rewrite !andb_true_iff, !Z.leb_le, !Z.ltb_lt. lia. }
  unfold selfg_fft_obc_3d. cbv zeta. cbn [fst snd]. rewrite AL. split; [reflexivity|]. intro NG.
  rewrite (fold_active D (fun o => pass dx1 dx2 dx3 N1 N2 N3 D rhoG (fst (fst o)) (snd (fst o)) (snd o))).
  destruct (active D p i j k) eqn:E; [apply active_grid in E; tauto|]. rewrite AL. reflexivity.
Qed.
Print Assumptions C98_old_and_ghosts.
(** However the Domain is cut and whatever Phi held before. *)
Theorem C98_decomposition : forall G4 dx1 dx2 dx3 N1 N2 N3 ng ng' D D' rhoG rhoG' rho nghost Phi Phi_old Phi' Phi_old',
  (0 < N1)%Z -> (0 < N2)%Z -> (0 < N3)%Z -> (0 <= nghost)%Z -> tiles N1 N2 N3 ng D -> tiles N1 N2 N3 ng' D' ->
  holds ng D rhoG rho -> holds ng' D' rhoG' rho ->
  forall p i j k p' i' j' k', (p < ng)%nat -> in_grid D p i j k -> (p' < ng')%nat -> in_grid D' p' i' j' k' ->
  (i + d1 (Disp D p) = i' + d1 (Disp D' p'))%Z -> (j + d2 (Disp D p) = j' + d2 (Disp D' p'))%Z -> (k + d3 (Disp D p) = k' + d3 (Disp D' p'))%Z ->
  fst (selfg_fft_obc_3d G4 dx1 dx2 dx3 N1 N2 N3 D rhoG nghost Phi Phi_old) p i j k =
  fst (selfg_fft_obc_3d G4 dx1 dx2 dx3 N1 N2 N3 D' rhoG' nghost Phi' Phi_old') p' i' j' k'.
Proof.
  intros G4 dx1 dx2 dx3 N1 N2 N3 ng ng' D D' rhoG rhoG' rho nghost Phi Phi_old Phi' Phi_old' P1 P2 P3 HG TL TL' HR HR' p i j k p' i' j' k' Hp I Hp' I' E1 E2 E3.
  rewrite (obc_active G4 dx1 dx2 dx3 N1 N2 N3 ng D rhoG rho), (obc_active G4 dx1 dx2 dx3 N1 N2 N3 ng' D' rhoG' rho) by auto. rewrite E1, E2, E3. reflexivity.
Qed.
Print Assumptions C98_decomposition.

(** ** Moving the mass *)
Lemma sum_supp : forall N l u f, (l <= 0)%Z -> (0 <= N)%Z -> (N - 1 <= u)%Z -> (forall a, ~ (0 <= a < N)%Z -> f a = 0) -> sumZ l u f = sumZ 0 (N - 1) f.
Proof.
  intros N l u f L HN U H.
  rewrite <- (sumZ_cat l (-1) u f) by lia. replace (-1 + 1)%Z with 0%Z by lia.
  rewrite <- (sumZ_cat 0 (N - 1) u f) by lia.
  rewrite (sumZ_ext l (-1) f (fun _ => 0)) by (intros; apply H; lia). rewrite (sumZ_ext (N - 1 + 1) u f (fun _ => 0)) by (intros; apply H; lia).
  rewrite !sumZ_zero. ring.
Qed.
Lemma sum_shift : forall N s f g, (0 <= N)%Z -> (forall a, ~ (0 <= a < N)%Z -> f a = 0) -> (forall a, ~ (0 <= a < N)%Z -> g a = 0) ->
  (forall a, f (a + s)%Z = g a) -> sumZ 0 (N - 1) f = sumZ 0 (N - 1) g.
Proof.
  intros N s f g HN F G E. set (M := (N + Z.abs s)%Z).
  rewrite <- (sum_supp N (- M + s) (M + s) f), <- (sum_supp N (- M) M g) by (auto; unfold M; lia).
  rewrite (sumZ_ext (- M) M g (fun a => f ((- M + s) + (a - - M))%Z)) by (intros; rewrite <- E; f_equal; lia).
  rewrite sumZ_move. f_equal. lia.
Qed.
Lemma pad_in : forall N1 N2 N3 rho a b c, in_domain N1 N2 N3 a b c -> padded N1 N2 N3 rho a b c = rho a b c.
Proof.
  intros N1 N2 N3 rho a b c [A [B C]]. unfold padded.
  destruct (Z.leb_spec 0 a), (Z.ltb_spec a N1), (Z.leb_spec 0 b), (Z.ltb_spec b N2), (Z.leb_spec 0 c), (Z.ltb_spec c N3); try lia. reflexivity.
Qed.
Lemma pad_out : forall N1 N2 N3 rho a b c, ~ in_domain N1 N2 N3 a b c -> padded N1 N2 N3 rho a b c = 0.
Proof.
  intros N1 N2 N3 rho a b c H. unfold padded, in_domain in *.
  destruct (Z.leb_spec 0 a), (Z.ltb_spec a N1), (Z.leb_spec 0 b), (Z.ltb_spec b N2), (Z.leb_spec 0 c), (Z.ltb_spec c N3); try reflexivity. exfalso. apply H. lia.
Qed.
Lemma t3_shift : forall N1 N2 N3 s1 s2 s3 rho rho' g, (0 <= N1)%Z -> (0 <= N2)%Z -> (0 <= N3)%Z ->
  (forall a b c, padded N1 N2 N3 rho' (a + s1) (b + s2) (c + s3) = padded N1 N2 N3 rho a b c) ->
  total3 N1 N2 N3 (fun a b c => rho' a b c * g a b c) = total3 N1 N2 N3 (fun a b c => rho a b c * g (a + s1)%Z (b + s2)%Z (c + s3)%Z).
Proof.
  intros N1 N2 N3 s1 s2 s3 rho rho' g P1 P2 P3 H.
  rewrite (t3_ext _ _ _ _ (fun a b c => padded N1 N2 N3 rho' a b c * g a b c)) by (intros; rewrite pad_in by auto; reflexivity).
  rewrite (t3_ext _ _ _ (fun a b c => rho a b c * _) (fun a b c => padded N1 N2 N3 rho a b c * g (a + s1)%Z (b + s2)%Z (c + s3)%Z)) by (intros; rewrite pad_in by auto; reflexivity).
  assert (AZ : forall l u f, (forall x, f x = 0) -> sumZ l u f = 0).
  { intros l u f Hf. rewrite (sumZ_ext l u f (fun _ => 0)) by (intros; apply Hf). apply sumZ_zero. }
  unfold total3. apply (sum_shift N1 s1); auto.
  - intros a A. apply AZ. intro b. apply AZ. intro c. rewrite pad_out by (unfold in_domain; tauto). ring.
  - intros a A. apply AZ. intro b. apply AZ. intro c. rewrite pad_out by (unfold in_domain; tauto). ring.
  - intro a. apply (sum_shift N2 s2); auto.
    + intros b A. apply AZ. intro c. rewrite pad_out by (unfold in_domain; tauto). ring.
    + intros b A. apply AZ. intro c. rewrite pad_out by (unfold in_domain; tauto). ring.
    + intro b. apply (sum_shift N3 s3); auto.
      * intros c A. rewrite pad_out by (unfold in_domain; tauto). ring.
      * intros c A. rewrite pad_out by (unfold in_domain; tauto). ring.
      * intro c. rewrite H. reflexivity.
Qed.
(** A density moved by (s1, s2, s3) cells, all of its mass staying inside the Domain: the potential moves with it,
    unchanged by the distance to the boundary. *)
Theorem C98_translation : forall G4 dx1 dx2 dx3 N1 N2 N3 ng ng' D D' rhoG rhoG' rho rho' s1 s2 s3 nghost Phi Phi_old Phi' Phi_old',
  (0 < N1)%Z -> (0 < N2)%Z -> (0 < N3)%Z -> (0 <= nghost)%Z -> tiles N1 N2 N3 ng D -> tiles N1 N2 N3 ng' D' ->
  holds ng D rhoG rho -> holds ng' D' rhoG' rho' ->
  (forall a b c, padded N1 N2 N3 rho' (a + s1) (b + s2) (c + s3) = padded N1 N2 N3 rho a b c) ->
  forall p i j k p' i' j' k', (p < ng)%nat -> in_grid D p i j k -> (p' < ng')%nat -> in_grid D' p' i' j' k' ->
  (i + d1 (Disp D p) + s1 = i' + d1 (Disp D' p'))%Z -> (j + d2 (Disp D p) + s2 = j' + d2 (Disp D' p'))%Z -> (k + d3 (Disp D p) + s3 = k' + d3 (Disp D' p'))%Z ->
  fst (selfg_fft_obc_3d G4 dx1 dx2 dx3 N1 N2 N3 D' rhoG' nghost Phi' Phi_old') p' i' j' k' =
  fst (selfg_fft_obc_3d G4 dx1 dx2 dx3 N1 N2 N3 D rhoG nghost Phi Phi_old) p i j k.
Proof.
  intros G4 dx1 dx2 dx3 N1 N2 N3 ng ng' D D' rhoG rhoG' rho rho' s1 s2 s3 nghost Phi Phi_old Phi' Phi_old' P1 P2 P3 HG TL TL' HR HR' SH p i j k p' i' j' k' Hp I Hp' I' E1 E2 E3.
  rewrite (obc_active G4 dx1 dx2 dx3 N1 N2 N3 ng D rhoG rho), (obc_active G4 dx1 dx2 dx3 N1 N2 N3 ng' D' rhoG' rho') by auto. rewrite <- E1, <- E2, <- E3.
  unfold pot. f_equal. apply t3_ext. intros a b c _. f_equal. unfold T. rewrite !t3_pad by lia.
  rewrite (t3_shift N1 N2 N3 s1 s2 s3 rho rho') by (auto; lia). apply t3_ext. intros x y z _. f_equal. f_equal.
  rewrite !angle_step by lia. ring.
Qed.
Print Assumptions C98_translation.

(** ** Vacuum *)
Lemma t3_padded : forall N1 N2 N3 rho, (0 <= N1)%Z -> (0 <= N2)%Z -> (0 <= N3)%Z ->
  total3 (2 * N1) (2 * N2) (2 * N3) (padded N1 N2 N3 rho) = total3 N1 N2 N3 rho.
Proof.
  intros. rewrite (t3_ext _ _ _ _ (fun a b c => padded N1 N2 N3 rho a b c * 1)) by (intros; ring). rewrite (t3_pad N1 N2 N3 rho (fun _ _ _ => 1)) by auto.
  apply t3_ext. intros. ring.
Qed.
(** The discrete Laplacian of the stored potential, in a cell whose neighbours are on the same Grid: an eighth of the mean
    density of the Domain is missing everywhere. *)
Theorem C98_poisson : forall G4 dx1 dx2 dx3 N1 N2 N3 ng D rhoG rho nghost Phi Phi_old,
  (0 < N1)%Z -> (0 < N2)%Z -> (0 < N3)%Z -> 0 < dx1 -> 0 < dx2 -> 0 < dx3 -> (0 <= nghost)%Z -> tiles N1 N2 N3 ng D -> holds ng D rhoG rho ->
  forall p i j k, (p < ng)%nat -> (0 < i < d1 (Nx D p) - 1)%Z -> (0 < j < d2 (Nx D p) - 1)%Z -> (0 < k < d3 (Nx D p) - 1)%Z ->
  lap3 dx1 dx2 dx3 (fst (selfg_fft_obc_3d G4 dx1 dx2 dx3 N1 N2 N3 D rhoG nghost Phi Phi_old) p) i j k =
  G4 * (rhoG p i j k - total3 N1 N2 N3 rho / IZR (8 * (N1 * N2 * N3))).
Proof.
  intros G4 dx1 dx2 dx3 N1 N2 N3 ng D rhoG rho nghost Phi Phi_old P1 P2 P3 X1 X2 X3 HG TL HR p i j k Hp I J K.
  assert (IG : in_grid D p i j k) by (unfold in_grid; lia).
  assert (ID : in_domain N1 N2 N3 (i + d1 (Disp D p)) (j + d2 (Disp D p)) (k + d3 (Disp D p))) by (apply TL; auto).
  assert (E : forall i j k, in_grid D p i j k -> fst (selfg_fft_obc_3d G4 dx1 dx2 dx3 N1 N2 N3 D rhoG nghost Phi Phi_old) p i j k =
     pot G4 dx1 dx2 dx3 (2 * N1) (2 * N2) (2 * N3) (padded N1 N2 N3 rho) (i + d1 (Disp D p)) (j + d2 (Disp D p)) (k + d3 (Disp D p))).
  { intros. apply (obc_active G4 dx1 dx2 dx3 N1 N2 N3 ng); auto. }
  pose proof (pot_poisson G4 dx1 dx2 dx3 (2 * N1) (2 * N2) (2 * N3) (padded N1 N2 N3 rho) ltac:(lia) ltac:(lia) ltac:(lia) X1 X2 X3
    (i + d1 (Disp D p)) (j + d2 (Disp D p)) (k + d3 (Disp D p)) ltac:(destruct ID as [A [B C]]; unfold in_domain; lia)) as Q.
  rewrite t3_padded, pad_in in Q by (auto; lia). rewrite <- HR in Q by auto.
  replace (2 * N1 * (2 * N2) * (2 * N3))%Z with (8 * (N1 * N2 * N3))%Z in Q by ring. rewrite <- Q.
  unfold lap3. rewrite !E by (unfold in_grid; lia).
  replace (i + 1 + d1 (Disp D p))%Z with (i + d1 (Disp D p) + 1)%Z by lia. replace (i - 1 + d1 (Disp D p))%Z with (i + d1 (Disp D p) - 1)%Z by lia.
  replace (j + 1 + d2 (Disp D p))%Z with (j + d2 (Disp D p) + 1)%Z by lia. replace (j - 1 + d2 (Disp D p))%Z with (j + d2 (Disp D p) - 1)%Z by lia.
  replace (k + 1 + d3 (Disp D p))%Z with (k + d3 (Disp D p) + 1)%Z by lia. replace (k - 1 + d3 (Disp D p))%Z with (k + d3 (Disp D p) - 1)%Z by lia.
  reflexivity.
Qed.
Print Assumptions C98_poisson.

(** ** Examples *)
Definition one_grid (N1 N2 N3 : Z) : decomp := Decomp (fun _ _ _ => O) (fun _ => (0, 0, 0)%Z) (fun _ => (N1, N2, N3)).
Lemma one_grid_tiles : forall N1 N2 N3, tiles N1 N2 N3 1 (one_grid N1 N2 N3).
Proof.
  intros. split; [|split].
  - intros a b c [A [B C]]. cbn. split; [lia|]. unfold in_grid. cbn. lia.
  - intros. cbn. lia.
  - intros p i j k Hp [I [J K]]. unfold in_domain. cbn in *. split; lia.
Qed.
Definition point (x a b c : Z) : R := if ((a =? x) && (b =? x) && (c =? x))%Z then 27 * 8 else 0.
(** The equation an isolated mass obeys, Laplacian = 4 PI G rho, is not the one solved: with a mass of 8 per cell of the Domain in one
    corner the Laplacian in an empty cell is - 4 PI G. *)
Theorem C98_isolated_refuted : exists D rho Phi i j k, tiles 3 3 3 1 D /\ rho O i j k = 0 /\ in_grid D 0 i j k /\
  (0 < i < 2 /\ 0 < j < 2 /\ 0 < k < 2)%Z /\
  forall G4, lap3 1 1 1 (fst (selfg_fft_obc_3d G4 1 1 1 3 3 3 D rho 4 Phi Phi) O) i j k = - G4.
Proof.
  exists (one_grid 3 3 3), (fun _ => point 0), (fun _ _ _ _ => 0), 1%Z, 1%Z, 1%Z.
  split; [apply one_grid_tiles|]. split; [reflexivity|]. split; [unfold in_grid; cbn; lia|]. split; [lia|].
  intro G4. rewrite (C98_poisson G4 1 1 1 3 3 3 1 (one_grid 3 3 3) (fun _ => point 0) (point 0)); try lia; try lra; try (cbn; lia); try apply one_grid_tiles.
  - rewrite (t3_one 3 3 3 (point 0) 0 0 0).
    + change (point 0 1 1 1) with 0. change (point 0 0 0 0) with (27 * 8). change (8 * (3 * 3 * 3))%Z with (216)%Z. lra.
    + unfold in_domain. lia.
    + intros a b c _ NE. unfold point. destruct (Z.eqb_spec a 0), (Z.eqb_spec b 0), (Z.eqb_spec c 0); cbn [andb]; auto. subst. congruence.
  - intros p i j k _ _. cbn. rewrite !Z.add_0_r. reflexivity.
Qed.
Print Assumptions C98_isolated_refuted.
(** The hypotheses of [C98_translation]: a point mass moved from one corner to the centre. *)
Example C98_example_translation : forall a b c, padded 3 3 3 (point 1) (a + 1) (b + 1) (c + 1) = padded 3 3 3 (point 0) a b c.
Proof.
  intros. destruct (Z.eq_dec a 0) as [->|A].
  - destruct (Z.eq_dec b 0) as [->|B].
    + destruct (Z.eq_dec c 0) as [->|C]; [reflexivity|].
      unfold padded, point. replace (c + 1 =? 1)%Z with false by (symmetry; apply Z.eqb_neq; lia). replace (c =? 0)%Z with false by (symmetry; apply Z.eqb_neq; lia).
      rewrite !andb_false_r. destruct (_ && _)%bool, (_ && _)%bool; reflexivity.
    + unfold padded, point. replace (b + 1 =? 1)%Z with false by (symmetry; apply Z.eqb_neq; lia). replace (b =? 0)%Z with false by (symmetry; apply Z.eqb_neq; lia).
      rewrite !andb_false_r. cbn [andb]. match goal with |- (if ?x then _ else _) = (if ?y then _ else _) => destruct x, y; reflexivity end.
  - unfold padded, point. replace (a + 1 =? 1)%Z with false by (symmetry; apply Z.eqb_neq; lia). replace (a =? 0)%Z with false by (symmetry; apply Z.eqb_neq; lia).
    cbn [andb]. match goal with |- (if ?x then _ else _) = (if ?y then _ else _) => destruct x, y; reflexivity end.
Qed.
Example C98_example_eight : exists P, potential3 1 (1/4) (1/6) (1/2) 8 12 4 (padded 4 6 2 (fun a b c => if (a =? 2)%Z then 5 else 1)) P.
Proof.
  destruct (C98_potential 1 (1/4) (1/6) (1/2) 4 6 2 8 exD (fun p i j k => if (i + d1 (Disp exD p) =? 2)%Z then 5 else 1) (fun a b c => if (a =? 2)%Z then 5 else 1) 4)
    as [P [H _]]; try lia; try lra; [exact C92_example_tiles|intros; intro; intros; reflexivity|]. exists P. exact H.
Qed.
