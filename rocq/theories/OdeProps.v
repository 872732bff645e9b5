(** * C106: integration of ordinary differential equations *)
From Coq Require Import Reals ZArith Lia Lra List FunctionalExtensionality.
From Verif Require Import CStr OdeModel OdeSpec.
Import ListNotations.
Open Scope R_scope.

(** rkck is a step of the method of Cash and Karp; the error is the difference from the
    embedded method. *)
Theorem C106_runge_kutta : forall f y x h,
  fst (rkck f y (f x y) x h) = rk_step f cash_karp fifth x h y /\
  (forall i, snd (rkck f y (f x y) x h) i = rk_step f cash_karp fifth x h y i - rk_step f cash_karp fourth x h y i).
Proof.
  intros f y x h. unfold rkck. cbv zeta. cbn [fst snd].
  unfold rk_step, cash_karp. cbn [slopes app map].
  unfold dot, fifth, fourth. cbn [combine map fold_right fst snd].
  set (k1 := f (x + 0 * h) _). replace (f x y) with k1.
  2:{ unfold k1. f_equal; [ring|]. apply functional_extensionality. intro. ring. }
  set (k2 := f (x + 1 / 5 * h) _). replace (f (x + 2 / 10 * h) _) with k2.
  2:{ unfold k2. f_equal; [field|]. apply functional_extensionality. intro. field. }
  set (k3 := f (x + 3 / 10 * h) (fun i => y i + h * (3 / 40 * k1 i + (9 / 40 * k2 i + 0)))). replace (f (x + 3 / 10 * h) (fun i => y i + h * (3 / 40 * k1 i + 9 / 40 * k2 i))) with k3.
  2:{ unfold k3. f_equal. apply functional_extensionality. intro. ring. }
  set (k4 := f (x + 3 / 5 * h) _). replace (f (x + 6 / 10 * h) _) with k4.
  2:{ unfold k4. f_equal; [field|]. apply functional_extensionality. intro. field. }
  set (k5 := f (x + 1 * h) (fun i => y i + h * (- 11 / 54 * k1 i + _))). replace (f (x + 1 * h) (fun i => y i + h * (- 11 / 54 * k1 i + 25 / 10 * k2 i + - 70 / 27 * k3 i + 35 / 27 * k4 i))) with k5.
  2:{ unfold k5. f_equal. apply functional_extensionality. intro. field. }
  set (k6 := f (x + 7 / 8 * h) _). replace (f (x + 875 / 1000 * h) _) with k6.
  2:{ unfold k6. f_equal; [field|]. apply functional_extensionality. intro. field. }
  clearbody k1 k2 k3 k4 k5 k6. split; [apply functional_extensionality; intro i; field|intro i; field].
Qed.
Print Assumptions C106_runge_kutta.

Lemma inner_node l : inner cash_karp (Node l) = map (fun row => fold_right (fun s a => dot row (inner cash_karp s) * a) 1 l)
  [[]; [1 / 5]; [3 / 40; 9 / 40]; [3 / 10; - 9 / 10; 6 / 5]; [- 11 / 54; 5 / 2; - 70 / 27; 35 / 27]; [1631 / 55296; 175 / 512; 575 / 13824; 44275 / 110592; 253 / 4096]].
Proof. reflexivity. Qed.
Global Hint Rewrite Rmult_1_r : inner_db.
Ltac inner_tac := rewrite inner_node; cbn [map fold_right snd]; autorewrite with inner_db; unfold dot; cbn [combine map fold_right fst snd];
  repeat (apply f_equal2; [lra|]); reflexivity.
Lemma inner_0 : inner cash_karp (Node []) = [1; 1; 1; 1; 1; 1].
Proof. inner_tac. Qed.
Global Hint Rewrite inner_0 : inner_db.
Lemma inner_1 : inner cash_karp (Node [Node []]) = [0; 1 / 5; 3 / 10; 3 / 5; 1; 7 / 8].
Proof. inner_tac. Qed.
Global Hint Rewrite inner_1 : inner_db.
Lemma inner_2 : inner cash_karp (Node [Node []; Node []]) = [0; 1 / 25; 9 / 100; 9 / 25; 1; 49 / 64].
Proof. inner_tac. Qed.
Global Hint Rewrite inner_2 : inner_db.
Lemma inner_3 : inner cash_karp (Node [Node [Node []]]) = [0; 0; 9 / 200; 9 / 50; 1 / 2; 49 / 128].
Proof. inner_tac. Qed.
Global Hint Rewrite inner_3 : inner_db.
Lemma inner_4 : inner cash_karp (Node [Node []; Node []; Node []]) = [0; 1 / 125; 27 / 1000; 27 / 125; 1; 343 / 512].
Proof. inner_tac. Qed.
Global Hint Rewrite inner_4 : inner_db.
Lemma inner_5 : inner cash_karp (Node [Node []; Node [Node []]]) = [0; 0; 27 / 2000; 27 / 250; 1 / 2; 343 / 1024].
Proof. inner_tac. Qed.
Global Hint Rewrite inner_5 : inner_db.
Lemma inner_6 : inner cash_karp (Node [Node [Node []]; Node []]) = [0; 0; 27 / 2000; 27 / 250; 1 / 2; 343 / 1024].
Proof. inner_tac. Qed.
Global Hint Rewrite inner_6 : inner_db.
Lemma inner_7 : inner cash_karp (Node [Node [Node []; Node []]]) = [0; 0; 9 / 1000; 9 / 125; 1 / 3; 343 / 1536].
Proof. inner_tac. Qed.
Global Hint Rewrite inner_7 : inner_db.
Lemma inner_8 : inner cash_karp (Node [Node [Node [Node []]]]) = [0; 0; 0; 27 / 500; 7 / 60; 161 / 1536].
Proof. inner_tac. Qed.
Global Hint Rewrite inner_8 : inner_db.

Ltac trees H := repeat (match goal with t : tree |- _ => destruct t as [?l] | l : list tree |- _ => destruct l end; cbn [order fold_right] in H; try lia).
(** The method has order five, the embedded one order four. *)
Theorem C106_order : of_order 5 cash_karp fifth /\ of_order 4 cash_karp fourth.
Proof.
  assert (C : consistent cash_karp).
  { intros c row H. cbn in H. repeat (destruct H as [H|H]; [injection H as <- <-; cbn [fold_right]; lra|]). destruct H. }
  split; (split; [exact C|]); intros t H; trees H;
    unfold weight; rewrite inner_node; unfold fifth, fourth; cbn [map fold_right snd]; autorewrite with inner_db; cbn [density order fold_right INR Nat.add]; unfold dot; cbn [combine map fold_right fst snd]; lra.
Qed.
Print Assumptions C106_order.

(** ** One step with control of the error *)
Lemma fold_max_ge (g : nat -> R) l : forall m, m <= fold_left (fun m i => Rmax m (g i)) l m /\ forall i, In i l -> g i <= fold_left (fun m i => Rmax m (g i)) l m.
Proof.
  induction l as [|a l IH]; intro m; cbn [fold_left]; [split; [lra|intros i []]|].
  destruct (IH (Rmax m (g a))) as (A & B). split; [eapply Rle_trans; [apply Rmax_l|exact A]|].
  intros i [<-|H]; [eapply Rle_trans; [apply Rmax_r|exact A]|now apply B].
Qed.
Lemma errmax_le n e s eps : 0 < eps -> errmax n e s eps <= 1 -> forall i, (i < n)%nat -> Rabs (e i / s i) <= eps.
Proof.
  intros HE H i HI. unfold errmax in H. destruct (fold_max_ge (fun i => Rabs (e i / s i)) (seq 0 n) 0) as (_ & B).
  specialize (B i ltac:(apply in_seq; lia)). set (m := fold_left _ _ _) in *. clearbody m.
  apply Rmult_le_compat_r with (r := eps) in H; [|lra]. unfold Rdiv in H at 1. rewrite Rmult_assoc, Rinv_l in H by lra. lra.
Qed.
Lemma Rpower_neg_le e a : 1 <= e -> 0 <= a -> 0 < Rpower e (- a) <= 1.
Proof.
  intros HE HA. unfold Rpower. split; [apply exp_pos|]. rewrite <- exp_0.
  assert (L : 0 <= ln e). { destruct HE as [HE|<-]; [|rewrite ln_1; lra]. rewrite <- ln_1. left. apply ln_increasing; lra. }
  assert (X : - a * ln e <= 0) by nra. destruct X as [X| ->]; [left; now apply exp_increasing|lra].
Qed.
Lemma Rpower_neg_ge e a : 0 < e <= 1 -> 0 <= a -> 1 <= Rpower e (- a).
Proof.
  intros [HE HE1] HA. unfold Rpower. rewrite <- exp_0.
  assert (L : ln e <= 0). { destruct HE1 as [HE1| ->]; [|rewrite ln_1; lra]. rewrite <- ln_1. left. apply ln_increasing; lra. }
  assert (X : 0 <= - a * ln e) by nra. destruct X as [X|<-]; [left; now apply exp_increasing|lra].
Qed.
Lemma grow_le e : 189 / 1000000 < e -> 9 / 10 * Rpower e (- (2 / 10)) <= 5.
Proof.
  intro HE. assert (P : Rpower e (- (2 / 10)) <= 50 / 9).
  { unfold Rpower. replace (50 / 9) with (exp (ln (50 / 9))) by (apply exp_ln; lra).
    assert (X : - (2 / 10) * ln e < ln (50 / 9)).
    { assert (Y : ln ((9 / 50) ^ 5) < ln e) by (apply ln_increasing; lra). rewrite ln_pow in Y by lra. cbn [INR] in Y.
      replace (9 / 50) with (/ (50 / 9)) in Y by field. rewrite ln_Rinv in Y by lra. lra. }
    left. now apply exp_increasing. }
  lra.
Qed.
Lemma next_h h e : 1 < e -> exists t, 1 / 10 <= t <= 9 / 10 /\
  (if Rle_dec 0 h then Rmax (9 / 10 * h * Rpower e (- (25 / 100))) (1 / 10 * h) else Rmin (9 / 10 * h * Rpower e (- (25 / 100))) (1 / 10 * h)) = t * h.
Proof.
  intro HE. destruct (Rpower_neg_le e (25 / 100) ltac:(lra) ltac:(lra)) as [A B]. set (p := Rpower e _) in *. clearbody p.
  exists (Rmax (9 / 10 * p) (1 / 10)). split; [split; [apply Rmax_r|apply Rmax_lub; lra]|].
  unfold Rmax, Rmin. destruct (Rle_dec 0 h); destruct (Rle_dec (9 / 10 * p) (1 / 10)); destruct (Rle_dec (9 / 10 * h * p) (1 / 10 * h)); nra.
Qed.
Lemma rkqs_res fuel n f y dydx x eps yscal : 0 < eps -> forall h s, rkqs_loop fuel n f y dydx x h eps yscal = Some s ->
  exists t k, 0 < t <= 1 /\ 9 / 10 <= k <= 5 /\ hdid s = t * h /\ hnext s = k * hdid s /\ sx s = x + hdid s /\
    sy s = fst (rkck f y dydx x (hdid s)) /\ forall i, (i < n)%nat -> Rabs (snd (rkck f y dydx x (hdid s)) i / yscal i) <= eps.
Proof.
  intro HE. induction fuel as [|fuel IH]; intros h s H; cbn [rkqs_loop] in H; [discriminate|].
  destruct (rkck f y dydx x h) as [yt ye] eqn:RK. set (e := errmax n ye yscal eps) in *.
  destruct (Rle_dec e 1) as [L|G].
  - injection H as <-. cbn [sx sy hdid hnext]. rewrite RK. cbn [fst snd].
    assert (KK : exists k, 9 / 10 <= k <= 5 /\ (if Rlt_dec (189 / 1000000) e then 9 / 10 * h * Rpower e (- (2 / 10)) else 5 * h) = k * h).
    { destruct (Rlt_dec (189 / 1000000) e) as [Q|Q]; [|exists 5; split; [lra|reflexivity]]. exists (9 / 10 * Rpower e (- (2 / 10))).
      pose proof (grow_le e Q). pose proof (Rpower_neg_ge e (2 / 10) ltac:(lra) ltac:(lra)). split; [lra|ring]. }
    destruct KK as (k & K & KE). exists 1, k. split; [lra|]. split; [exact K|]. split; [ring|]. split; [exact KE|]. split; [reflexivity|]. split; [reflexivity|].
    now apply errmax_le.
  - destruct (next_h h e ltac:(lra)) as (t & T & E). cbv zeta in H. rewrite E in H. destruct (IH _ _ H) as (t' & k & T' & K & A & B).
    exists (t' * t), k. split; [nra|]. split; [exact K|]. split; [rewrite A; ring|exact B].
Qed.

(** If rkqs returns, it made a step of the method, not longer than asked for and in the same direction,
    whose error is within the tolerance, and proposes a next step between 0.9 and 5 times as long. *)
Theorem C106_step : forall fuel n f y x h eps yscal s, 0 < eps -> (forall i, (i < n)%nat -> 0 < yscal i) ->
  rkqs_loop fuel n f y (f x y) x h eps yscal = Some s ->
  exists t k, 0 < t <= 1 /\ 9 / 10 <= k <= 5 /\ hdid s = t * h /\ hnext s = k * hdid s /\ sx s = x + hdid s /\
    sy s = rk_step f cash_karp fifth x (hdid s) y /\
    forall i, (i < n)%nat -> Rabs (rk_step f cash_karp fifth x (hdid s) y i - rk_step f cash_karp fourth x (hdid s) y i) <= eps * yscal i.
Proof.
  intros fuel n f y x h eps yscal s HE HY H. destruct (rkqs_res _ _ _ _ _ _ _ _ HE _ _ H) as (t & k & T & K & A & B & C & D & E).
  destruct (C106_runge_kutta f y x (hdid s)) as (R1 & R2). exists t, k. repeat (split; [assumption|]). split; [now rewrite D, R1|].
  intros i HI. rewrite <- R2. specialize (E i HI). specialize (HY i HI). unfold Rdiv in E at 1. rewrite Rabs_mult, (Rabs_right (/ yscal i)) in E by (left; apply Rinv_0_lt_compat; lra).
  apply Rmult_le_compat_r with (r := yscal i) in E; [|lra]. rewrite Rmult_assoc, Rinv_l, Rmult_1_r in E by lra. exact E.
Qed.
Print Assumptions C106_step.

(** ** The driver *)
Lemma tiny_pos : 0 < TINY_NUMBER. Proof. unfold TINY_NUMBER. apply Rinv_0_lt_compat, pow_lt. lra. Qed.
Lemma loop_res fuel n f x1 x2 eps hmin H xsav kount sg : 0 < eps -> sg = 1 \/ sg = -1 -> 0 < sg * (x2 - x1) -> 5 * Rabs (x2 - x1) <= H ->
  forall steps x h y x' y', 0 <= sg * (x - x1) -> 0 < sg * (x2 - x) -> 0 < sg * h -> Rabs h <= H ->
  odeint_loop fuel n 0 f x1 x2 eps hmin 0 steps xsav x h kount y = Some (Ok (x', y')) -> x' = x2 /\ chain f n eps H x y x2 y'.
Proof.
  intros HE SG D HH. induction steps as [|steps IH]; intros x h y x' y' A B C HB E; [discriminate|].
  cbn [odeint_loop] in E. cbv zeta in E. cbn [Nat.ltb Nat.leb andb] in E.
  set (yscal := fun i => Rabs (y i) + Rabs (f x y i * h) + TINY_NUMBER) in E.
  set (h' := if Rlt_dec 0 ((x + h - x2) * (x + h - x1)) then x2 - x else h) in E.
  assert (H' : 0 < sg * h' <= sg * (x2 - x)).
  { unfold h'. destruct (Rlt_dec 0 ((x + h - x2) * (x + h - x1))) as [Q|Q]; [lra|]. split; [exact C|].
    destruct (Rle_dec (sg * h) (sg * (x2 - x))) as [|W]; [assumption|]. exfalso. apply Q. destruct SG as [-> | ->]; nra. }
  clearbody h'. destruct (rkqs_loop fuel n f y (f x y) x h' eps yscal) as [s|] eqn:RK; [|discriminate].
  assert (YP : forall i, (i < n)%nat -> 0 < yscal i).
  { intros i _. unfold yscal. pose proof tiny_pos. pose proof (Rabs_pos (y i)). pose proof (Rabs_pos (f x y i * h)). lra. }
  destruct (C106_step _ _ _ _ _ _ _ _ _ HE YP RK) as (t & k & T & K & SD & SN & SX & SY & SE).
  assert (HD : 0 < sg * hdid s <= sg * (x2 - x)) by (rewrite SD; split; nra).
  assert (AC : accurate f n eps H x (hdid s) y).
  { intros i HI. eapply Rle_trans; [apply SE, HI|]. apply Rmult_le_compat_l; [lra|]. unfold yscal, TINY_NUMBER. rewrite Rabs_mult.
    pose proof (Rmult_le_compat_l (Rabs (f x y i)) _ _ (Rabs_pos _) HB). lra. }
  assert (NZ : hdid s <> 0) by (intro Z; rewrite Z, Rmult_0_r in HD; lra).
  assert (IN : 0 <= (x + hdid s - x) * (x2 - (x + hdid s))) by (destruct SG as [-> | ->]; nra).
  destruct (Rle_dec 0 ((sx s - x2) * (x2 - x1))) as [Q|Q].
  - injection E as <- <-. rewrite SX in *. assert (X2 : x + hdid s = x2) by (destruct SG as [-> | ->]; nra). split; [exact X2|].
    eapply chain_step; [exact NZ|exact IN|exact AC|]. rewrite X2, SY. constructor.
  - destruct (Rle_dec (Rabs (hnext s)) hmin); [discriminate|]. rewrite SX in *.
    assert (X2 : 0 < sg * (x2 - (x + hdid s))) by (destruct SG as [-> | ->]; nra).
    apply IH in E.
    + destruct E as (-> & CH). split; [reflexivity|]. eapply chain_step; [exact NZ|exact IN|exact AC|]. now rewrite <- SY.
    + destruct SG as [-> | ->]; nra.
    + exact X2.
    + rewrite SN. destruct SG as [-> | ->]; nra.
    + eapply Rle_trans; [|exact HH]. rewrite SN, Rabs_mult, (Rabs_right k) by lra.
      assert (Rabs (hdid s) <= Rabs (x2 - x1)) by (destruct SG as [-> | ->]; unfold Rabs; destruct (Rcase_abs (hdid s)); destruct (Rcase_abs (x2 - x1)); lra).
      pose proof (Rabs_pos (hdid s)). nra.
Qed.

(** If the driver returns, it has gone from x1 to x2 exactly, forward or backward, by accurate steps. *)
Theorem C106_odeint : forall fuel n f y x1 x2 eps h1 hmin x' y', 0 < eps -> h1 <> 0 -> x1 <> x2 ->
  odeint_lite fuel n f y x1 x2 eps h1 hmin = Some (Ok (x', y')) ->
  x' = x2 /\ chain f n eps (Rmax (Rabs h1) (5 * Rabs (x2 - x1))) x1 y x2 y'.
Proof.
  intros fuel n f y x1 x2 eps h1 hmin x' y' HE H1 NX E. unfold odeint_lite, odeint in E.
  assert (P : 0 < Rabs h1) by now apply Rabs_pos_lt.
  assert (SG : sgn (x2 - x1) = 1 \/ sgn (x2 - x1) = -1) by (unfold sgn; destruct (Rlt_dec _ _); auto).
  assert (D : 0 < sgn (x2 - x1) * (x2 - x1)) by (unfold sgn; destruct (Rlt_dec (x2 - x1) 0); lra).
  eapply loop_res in E; [exact E|exact HE|exact SG|exact D|apply Rmax_r|lra|exact D| |].
  - destruct SG as [-> | ->]; lra.
  - rewrite Rabs_mult, Rabs_Rabsolu. replace (Rabs (sgn (x2 - x1))) with 1; [rewrite Rmult_1_r; apply Rmax_l|].
    destruct SG as [-> | ->]; [now rewrite Rabs_R1|]. rewrite Rabs_left; lra.
Qed.
Print Assumptions C106_odeint.

(** ** Polynomials are integrated exactly *)
Section Poly.
Variables c1 c2 c3 c4 c5 : nat -> R.
Definition poly (x : R) (i : nat) : R := c1 i * x + c2 i * x ^ 2 + c3 i * x ^ 3 + c4 i * x ^ 4 + c5 i * x ^ 5.
Definition dpoly (x : R) (i : nat) : R := c1 i + 2 * c2 i * x + 3 * c3 i * x ^ 2 + 4 * c4 i * x ^ 3 + 5 * c5 i * x ^ 4.
Lemma step_poly x h y i : rk_step (fun x _ => dpoly x) cash_karp fifth x h y i = y i + (poly (x + h) i - poly x i).
Proof. unfold rk_step, cash_karp, fifth. cbn [slopes app map]. unfold dot. cbn [combine map fold_right fst snd]. unfold dpoly, poly. field. Qed.
Lemma chain_poly n eps H x y x' y' : chain (fun x _ => dpoly x) n eps H x y x' y' -> forall i, y' i = y i + (poly x' i - poly x i).
Proof. induction 1 as [x y|x y h x' y' _ _ _ _ IH]; intro i; [ring|]. rewrite IH, step_poly. ring. Qed.
End Poly.
Theorem C106_polynomial : forall c1 c2 c3 c4 c5 fuel n y x1 x2 eps h1 hmin x' y', 0 < eps -> h1 <> 0 -> x1 <> x2 ->
  odeint_lite fuel n (fun x _ => dpoly c1 c2 c3 c4 c5 x) y x1 x2 eps h1 hmin = Some (Ok (x', y')) ->
  forall i, y' i = y i + (poly c1 c2 c3 c4 c5 x2 i - poly c1 c2 c3 c4 c5 x1 i).
Proof.
  intros c1 c2 c3 c4 c5 fuel n y x1 x2 eps h1 hmin x' y' HE H1 NX E. eapply C106_odeint in E; [|assumption..]. destruct E as (_ & E).
  apply (chain_poly _ _ _ _ _ _ _ _ _ _ _ _ E).
Qed.
Print Assumptions C106_polynomial.

(** ** The loops end *)
Lemma errmax_acc n e s eps : 0 < eps -> (forall i, (i < n)%nat -> Rabs (e i / s i) <= eps) -> errmax n e s eps <= 1.
Proof.
  intros HE H. unfold errmax.
  assert (F : forall l m, m <= eps -> (forall i, In i l -> (i < n)%nat) -> fold_left (fun m i => Rmax m (Rabs (e i / s i))) l m <= eps).
  { induction l as [|a l IH]; intros m HM HL; cbn [fold_left]; [exact HM|]. apply IH; [|intros; apply HL; now right]. apply Rmax_lub; [exact HM|apply H, HL; now left]. }
  specialize (F (seq 0 n) 0 ltac:(lra) ltac:(intros i HI; apply in_seq in HI; lia)). set (m := fold_left _ _ _) in *. clearbody m.
  apply Rmult_le_reg_r with eps; [exact HE|]. unfold Rdiv. rewrite Rmult_assoc, Rinv_l by lra. lra.
Qed.
Lemma five M a b c d e : Rabs a <= M -> Rabs b <= M -> Rabs c <= M -> Rabs d <= M -> Rabs e <= M ->
  Rabs ((37 / 378 - 2825 / 27648) * a + (250 / 621 - 18575 / 48384) * b + (125 / 594 - 13525 / 55296) * c + (-277) / 14336 * d + (512 / 1771 - 25 / 100) * e) <= M.
Proof.
  intros A B C D E. assert (X : forall z, Rabs z <= M -> - M <= z <= M) by (intros z Z; unfold Rabs in Z; destruct (Rcase_abs z); lra).
  apply X in A, B, C, D, E. apply Rabs_le. lra.
Qed.
Lemma rkqs_S fuel n f y dydx x h eps yscal : rkqs_loop (S fuel) n f y dydx x h eps yscal =
  let '(ytemp, yerr) := rkck f y dydx x h in
  let e := errmax n yerr yscal eps in
  if Rle_dec e 1 then Some (Step (x + h) ytemp h (if Rlt_dec (189 / 1000000) e then 9 / 10 * h * Rpower e (- (2 / 10)) else 5 * h))
  else let htemp := 9 / 10 * h * Rpower e (- (25 / 100)) in
       let h := if Rle_dec 0 h then Rmax htemp (1 / 10 * h) else Rmin htemp (1 / 10 * h) in
       rkqs_loop fuel n f y dydx x h eps yscal.
Proof. reflexivity. Qed.
Lemma rkqs_ends n f y x eps yscal M Y : 0 < eps -> 0 < Y -> (forall i, (i < n)%nat -> Y <= yscal i) ->
  (forall x y i, (i < n)%nat -> Rabs (f x y i) <= M) -> 0 <= M ->
  forall fuel h, Rabs h * M * (9 / 10) ^ fuel <= eps * Y -> rkqs_loop (S fuel) n f y (f x y) x h eps yscal <> None.
Proof.
  intros HE HY HS HM M0.
  assert (ACC : forall h, Rabs h * M <= eps * Y -> errmax n (snd (rkck f y (f x y) x h)) yscal eps <= 1).
  { intros h H. apply errmax_acc; [exact HE|]. intros i HI. specialize (HS i HI).
    unfold Rdiv. rewrite Rabs_mult, (Rabs_right (/ yscal i)) by (left; apply Rinv_0_lt_compat; lra).
    apply Rmult_le_reg_r with (yscal i); [lra|]. rewrite Rmult_assoc, Rinv_l, Rmult_1_r by lra.
    apply Rle_trans with (eps * Y); [|apply Rmult_le_compat_l; lra]. eapply Rle_trans; [|exact H].
    unfold rkck. cbv zeta. cbn [snd]. rewrite Rabs_mult. apply Rmult_le_compat_l; [apply Rabs_pos|]. apply five; apply HM, HI. }
  induction fuel as [|fuel IH]; intros h H; rewrite rkqs_S.
  - rewrite (surjective_pairing (rkck f y (f x y) x h)). cbv zeta. destruct (Rle_dec (errmax n (snd (rkck f y (f x y) x h)) yscal eps) 1) as [|Q]; [discriminate|]. exfalso. apply Q, ACC. cbn [pow] in H. lra.
  - rewrite (surjective_pairing (rkck f y (f x y) x h)). cbv zeta. destruct (Rle_dec (errmax n (snd (rkck f y (f x y) x h)) yscal eps) 1) as [|Q]; [discriminate|].
    destruct (next_h h (errmax n (snd (rkck f y (f x y) x h)) yscal eps) ltac:(lra)) as (t & T & E). rewrite E. apply IH.
    eapply Rle_trans; [|exact H]. rewrite Rabs_mult, (Rabs_right t) by lra. cbn [pow]. pose proof (pow_lt (9 / 10) fuel ltac:(lra)) as PW.
    set (p := (9 / 10) ^ fuel) in *. clearbody p. replace (Rabs h * M * (9 / 10 * p)) with (9 / 10 * (Rabs h * M * p)) by ring.
    replace (t * Rabs h * M * p) with (t * (Rabs h * M * p)) by ring. apply Rmult_le_compat_r; [|lra].
    apply Rmult_le_pos; [apply Rmult_le_pos; [apply Rabs_pos|exact M0]|lra].
Qed.

(** With slopes that are bounded the search for a step always ends, so the driver
    returns or stops with one of its two messages. *)
Theorem C106_ends : forall n f y x1 x2 eps h1 hmin M, 0 < eps -> h1 <> 0 -> x1 <> x2 ->
  (forall x y i, (i < n)%nat -> Rabs (f x y i) <= M) ->
  exists fuel0, forall fuel, (fuel0 <= fuel)%nat -> odeint_lite fuel n f y x1 x2 eps h1 hmin <> None.
Proof.
  intros n f y x1 x2 eps h1 hmin M0 HE H1 NX HM0. set (M := Rmax M0 0).
  assert (HM : forall x y i, (i < n)%nat -> Rabs (f x y i) <= M) by (intros; eapply Rle_trans; [now apply HM0|apply Rmax_l]).
  assert (MP : 0 <= M) by apply Rmax_r. clearbody M. clear M0 HM0.
  pose proof tiny_pos as TP. set (L := Rabs (x2 - x1)). assert (LP : 0 < L) by (apply Rabs_pos_lt; lra).
  destruct (pow_lt_1_zero (9 / 10) ltac:(rewrite Rabs_right; lra) (eps * TINY_NUMBER / (L * M + 1))) as (N & HN).
  { apply Rdiv_lt_0_compat; [now apply Rmult_lt_0_compat|]. pose proof (Rmult_le_pos L M ltac:(lra) MP). lra. }
  exists (S N). intros fuel HF.
  assert (SG : sgn (x2 - x1) = 1 \/ sgn (x2 - x1) = -1) by (unfold sgn; destruct (Rlt_dec _ _); auto).
  assert (D : 0 < sgn (x2 - x1) * (x2 - x1)) by (unfold sgn; destruct (Rlt_dec (x2 - x1) 0); lra).
  set (sg := sgn (x2 - x1)) in *.
  assert (R : forall y x h yscal, Rabs h <= L -> (forall i, (i < n)%nat -> TINY_NUMBER <= yscal i) -> rkqs_loop fuel n f y (f x y) x h eps yscal <> None).
  { intros y0 x h yscal HL HY. destruct fuel as [|fuel]; [lia|]. apply (rkqs_ends n f y0 x eps yscal M TINY_NUMBER); try assumption.
    specialize (HN fuel ltac:(lia)). rewrite Rabs_right in HN by (apply Rle_ge, Rlt_le, pow_lt; lra).
    pose proof (pow_lt (9 / 10) fuel ltac:(lra)) as PW. set (p := (9 / 10) ^ fuel) in *. clearbody p.
    assert (X : 0 <= L * M) by (apply Rmult_le_pos; lra).
    apply Rmult_lt_compat_r with (r := L * M + 1) in HN; [|lra]. unfold Rdiv in HN. rewrite Rmult_assoc, Rinv_l, Rmult_1_r in HN by lra.
    assert (Rabs h * M <= L * M) by (apply Rmult_le_compat_r; lra).
    assert (Rabs h * M * p <= L * M * p) by (apply Rmult_le_compat_r; lra). lra. }
  assert (G : forall steps xsav x h y kount, 0 <= sg * (x - x1) -> 0 < sg * (x2 - x) -> 0 < sg * h ->
    odeint_loop fuel n 0 f x1 x2 eps hmin 0 steps xsav x h kount y <> None).
  { induction steps as [|steps IH]; intros xsav x h y0 kount A B C; cbn [odeint_loop]; [discriminate|]. cbv zeta. cbn [Nat.ltb Nat.leb andb].
    set (yscal := fun i => Rabs (y0 i) + Rabs (f x y0 i * h) + TINY_NUMBER).
    assert (YP : forall i, (i < n)%nat -> TINY_NUMBER <= yscal i).
    { intros i _. unfold yscal. pose proof (Rabs_pos (y0 i)). pose proof (Rabs_pos (f x y0 i * h)). lra. }
    set (h' := if Rlt_dec 0 ((x + h - x2) * (x + h - x1)) then x2 - x else h).
    assert (H' : 0 < sg * h' <= sg * (x2 - x)).
    { unfold h'. destruct (Rlt_dec 0 ((x + h - x2) * (x + h - x1))) as [Q|Q]; [lra|]. split; [exact C|].
      destruct (Rle_dec (sg * h) (sg * (x2 - x))) as [|W]; [assumption|]. exfalso. apply Q. clearbody sg. destruct SG as [-> | ->]; nra. }
    clearbody h'. assert (HL : Rabs h' <= L).
    { unfold L. clearbody sg. destruct SG as [-> | ->]; unfold Rabs; destruct (Rcase_abs h'); destruct (Rcase_abs (x2 - x1)); lra. }
    pose proof (R y0 x h' yscal HL YP) as RR.
    destruct (rkqs_loop fuel n f y0 (f x y0) x h' eps yscal) as [s|] eqn:RK; [|congruence].
    destruct (rkqs_res _ _ _ _ _ _ _ _ HE _ _ RK) as (t & k & T & K & SD & SN & SX & _).
    assert (HD : 0 < sg * hdid s <= sg * (x2 - x)) by (rewrite SD; split; nra).
    destruct (Rle_dec 0 ((sx s - x2) * (x2 - x1))) as [Q|Q]; [discriminate|]. destruct (Rle_dec (Rabs (hnext s)) hmin); [discriminate|].
    rewrite SX in *. clearbody sg. apply IH; [|destruct SG as [-> | ->]; nra|rewrite SN; destruct SG as [-> | ->]; nra]. destruct SG as [-> | ->]; nra. }
  unfold odeint_lite, odeint. apply G; [lra|exact D|]. pose proof (Rabs_pos_lt h1 H1). fold sg. clearbody sg. destruct SG as [-> | ->]; lra.
Qed.
Print Assumptions C106_ends.

(** ** Special cases *)
Lemma zero_step n f y dydx x eps yscal fuel : 0 < eps -> exists s, rkqs_loop (S fuel) n f y dydx x 0 eps yscal = Some s /\ sx s = x /\ forall i, sy s i = y i.
Proof.
  intro HE. rewrite rkqs_S. rewrite (surjective_pairing (rkck f y dydx x 0)). cbv zeta.
  destruct (Rle_dec (errmax n (snd (rkck f y dydx x 0)) yscal eps) 1) as [_|Q].
  - eexists. split; [reflexivity|]. cbn [sx sy]. split; [ring|]. intro i. unfold rkck. cbv zeta. cbn [fst]. ring.
  - exfalso. apply Q, errmax_acc; [exact HE|]. intros i _. unfold rkck. cbv zeta. cbn [snd]. rewrite Rmult_0_l. unfold Rdiv. rewrite Rmult_0_l, Rabs_R0. lra.
Qed.
(** Nothing happens on an empty interval. *)
Theorem C106_empty : forall fuel n f y x eps h1 hmin, 0 < eps ->
  exists y', odeint_lite (S fuel) n f y x x eps h1 hmin = Some (Ok (x, y')) /\ forall i, y' i = y i.
Proof.
  intros fuel n f y x eps h1 hmin HE. unfold odeint_lite, odeint. assert (P : exists m, Z.to_nat 10000 = S m) by (exists (Z.to_nat 9999); lia).
  destruct P as (m & ->). cbn [odeint_loop]. cbv zeta. cbn [Nat.ltb Nat.leb andb].
  set (h := Rabs h1 * sgn (x - x)). replace (if Rlt_dec 0 ((x + h - x) * (x + h - x)) then x - x else h) with 0.
  2:{ destruct (Rlt_dec 0 ((x + h - x) * (x + h - x))) as [|Q]; [ring|]. clearbody h. nra. }
  match goal with |- context [rkqs_loop _ _ _ _ ?d _ _ _ ?s] => destruct (zero_step n f y d x eps s fuel HE) as (st & -> & X & Y) end.
  destruct (Rle_dec 0 ((sx st - x) * (x - x))) as [_|Q]; [|exfalso; apply Q; nra]. rewrite X. eauto.
Qed.
Print Assumptions C106_empty.

(** Asked to store intermediate results (kmax > 0) the driver reads beyond the end of its
    vector: it never returns a result, and with room for two results and a distance between them it is undefined at once. *)
Theorem C106_store_refuted : forall fuel n kmax f y x1 x2 eps h1 hmin dxsav, (0 < kmax)%nat ->
  (forall r, odeint fuel n kmax f y x1 x2 eps h1 hmin dxsav <> Some (Ok r)) /\
  ((1 < kmax)%nat -> dxsav <> 0 -> odeint fuel n kmax f y x1 x2 eps h1 hmin dxsav = Some UB).
Proof.
  intros fuel n kmax f y x1 x2 eps h1 hmin dxsav HK. unfold odeint. split.
  - generalize (Z.to_nat 10000) as steps, (x1 - dxsav * 2), (Rabs h1 * sgn (x2 - x1)), 0%nat. intros steps xsav h kount r.
    assert (G : forall steps x h y, odeint_loop fuel n kmax f x1 x2 eps hmin dxsav steps xsav x h kount y <> Some (Ok r)).
    { clear steps h y. induction steps as [|steps IH]; intros x h y; cbn [odeint_loop]; [discriminate|]. cbv zeta.
      destruct (_ && _)%bool; [discriminate|]. destruct (rkqs_loop _ _ _ _ _ _ _ _ _) as [s|]; [|discriminate].
      destruct (Rle_dec 0 _); [|destruct (Rle_dec _ hmin); [discriminate|apply IH]].
      destruct (Nat.ltb_spec 0 kmax); [discriminate|lia]. }
    apply G.
  - intros HK2 HD. assert (P : exists m, Z.to_nat 10000 = S m) by (exists (Z.to_nat 9999); lia). destruct P as (m & ->). cbn [odeint_loop]. cbv zeta.
    destruct (Nat.ltb_spec 0 kmax); [|lia]. destruct (Nat.ltb_spec 0 (kmax - 1)); [|lia]. cbn [andb].
    destruct (Rlt_dec (Rabs dxsav) (Rabs (x1 - (x1 - dxsav * 2)))) as [|Q]; [reflexivity|]. exfalso. apply Q.
    replace (x1 - (x1 - dxsav * 2)) with (2 * dxsav) by ring. rewrite Rabs_mult, (Rabs_right 2) by lra. pose proof (Rabs_pos_lt dxsav HD). lra.
Qed.
Print Assumptions C106_store_refuted.

(** A straight line, from 0 to 1 in one step. *)
Example C106_line : exists y', odeint_lite 1 1 (fun _ _ _ => 1) (fun _ => 0) 0 1 (1 / 1000) 1 0 = Some (Ok (1, y')).
Proof.
  unfold odeint_lite, odeint. assert (P : exists m, Z.to_nat 10000 = S m) by (exists (Z.to_nat 9999); lia). destruct P as (m & ->).
  cbn [odeint_loop]. cbv zeta. cbn [Nat.ltb Nat.leb andb].
  replace (Rabs 1 * sgn (1 - 0)) with 1 by (unfold sgn; destruct (Rlt_dec (1 - 0) 0); [lra|]; rewrite Rabs_R1; ring).
  destruct (Rlt_dec 0 ((0 + 1 - 1) * (0 + 1 - 0))); [lra|]. rewrite rkqs_S. rewrite (surjective_pairing (rkck _ _ _ _ _)). cbv zeta.
  match goal with |- context [Rle_dec ?e 1] => destruct (Rle_dec e 1) as [_|Q] end.
  - cbn [sx sy]. destruct (Rle_dec 0 ((0 + 1 - 1) * (1 - 0))) as [_|Q]; [|lra]. rewrite Rplus_0_l. eauto.
  - exfalso. apply Q, errmax_acc; [lra|]. intros i _. unfold rkck. cbv zeta. cbn [snd].
    match goal with |- Rabs (?a / _) <= _ => replace a with 0 by field end. unfold Rdiv. rewrite Rmult_0_l, Rabs_R0. lra.
Qed.
