(** * C103: operator-split cooling *)
From Coq Require Import Reals ZArith Lra Lia Psatz List.
From Verif Require Import CStr GasModel CoolModel CoolSpec.
Import ListNotations.
Open Scope R_scope.

(** ** The cooling curve *)
Lemma ln10_pos : 0 < ln 10.
Proof. rewrite <- ln_1. apply ln_increasing; lra. Qed.

Theorem C103_curve_positive : forall T, 0 < T -> exists L, Lam T = Some L /\ 0 < L.
Proof.
  intros T HT. unfold Lam. destruct (Rlt_dec 0 T); [|lra]. cbv zeta.
  destruct (Rlt_dec (log10 T) (42 / 10)).
  - eexists. split; [reflexivity|]. apply Rmult_lt_0_compat; [|apply Rdiv_lt_0_compat; [lra|apply pow_lt; lra]].
    pose proof (exp_pos (- 118400 / (T + 1000))). pose proof (exp_pos (- 92 / T)). pose proof (sqrt_lt_R0 T HT).
    assert (0 < 14 / 1000 * sqrt T * exp (- 92 / T)) by (repeat apply Rmult_lt_0_compat; lra). lra.
  - destruct (coef (log10 T)) as [b C]. eexists. split; [reflexivity|]. unfold Rpower. apply exp_pos.
Qed.
Print Assumptions C103_curve_positive.

(** The power laws join: from 10^4.2 K on the logarithm of the curve changes by at most
    twice as much as the logarithm of the temperature, but for 10^-4. *)
Definition expo (x : R) : R := let '(b, C) := coef x in C + b * x.
Lemma expo_lip x y : x <= y -> Rabs (expo x - expo y) <= 2 * (y - x) + 1 / 10000.
Proof.
  intro H. unfold expo, coef. apply Rabs_le.
  destruct (Rlt_dec x (435 / 100)); [|destruct (Rlt_dec x (490 / 100)); [|destruct (Rlt_dec x (540 / 100)); [|destruct (Rlt_dec x (590 / 100));
    [|destruct (Rlt_dec x (625 / 100)); [|destruct (Rlt_dec x (650 / 100)); [|destruct (Rlt_dec x (750 / 100))]]]]]];
  (destruct (Rlt_dec y (435 / 100)); [lra|destruct (Rlt_dec y (490 / 100)); [lra|destruct (Rlt_dec y (540 / 100)); [lra|destruct (Rlt_dec y (590 / 100));
    [lra|destruct (Rlt_dec y (625 / 100)); [lra|destruct (Rlt_dec y (650 / 100)); [lra|destruct (Rlt_dec y (750 / 100)); lra]]]]]]).
Qed.
Theorem C103_curve_joins : forall T T' L L', 0 < T -> 0 < T' -> 42 / 10 <= log10 T -> 42 / 10 <= log10 T' ->
  Lam T = Some L -> Lam T' = Some L' ->
  Rabs (log10 L - log10 L') <= 2 * Rabs (log10 T - log10 T') + 1 / 10000.
Proof.
  assert (E : forall T L, 0 < T -> 42 / 10 <= log10 T -> Lam T = Some L -> log10 L = expo (log10 T)).
  { intros T L HT HL H. unfold Lam in H. destruct (Rlt_dec 0 T); [|lra]. destruct (Rlt_dec (log10 T) (42 / 10)); [lra|].
    unfold expo. destruct (coef (log10 T)) as [b C]. injection H as <-. unfold log10 at 1, Rpower. rewrite ln_exp. field.
    pose proof ln10_pos. lra. }
  intros T T' L L' HT HT' HL HL' H H'. rewrite (E T L), (E T' L') by assumption.
  destruct (Rle_dec (log10 T) (log10 T')) as [O|O].
  - pose proof (expo_lip _ _ O). rewrite (Rabs_left1 (log10 T - log10 T')) by lra. lra.
  - pose proof (expo_lip (log10 T') (log10 T) ltac:(lra)) as X. rewrite Rabs_minus_sym in X. rewrite (Rabs_right (log10 T - log10 T')) by lra. lra.
Qed.
Print Assumptions C103_curve_joins.

(** The temperatures where the pieces of the curve meet. *)
Definition joint (T : R) : Prop :=
  exists x, In x [42 / 10; 435 / 100; 490 / 100; 540 / 100; 590 / 100; 625 / 100; 650 / 100; 750 / 100] /\ log10 T = x.

Definition curve (T : R) : R := match Lam T with Some L => L | None => 0 end.

Lemma log10_lim T : 0 < T -> derivable_pt_lim log10 T (/ (T * ln 10)).
Proof.
  intro HT. pose proof ln10_pos.
  assert (E : / (T * ln 10) = (/ T) * / ln 10) by (apply Rinv_mult). rewrite E.
  assert (D : derivable_pt_lim (fun x => ln x * / ln 10) T (/ T * / ln 10)).
  { replace (/ T * / ln 10) with (/ T * (fct_cte (/ ln 10)) T + ln T * 0) by (unfold fct_cte; ring).
    apply (derivable_pt_lim_mult ln (fct_cte (/ ln 10))); [now apply derivable_pt_lim_ln | apply derivable_pt_lim_const]. }
  exact D.
Qed.
Lemma log10_cont T e : 0 < T -> 0 < e -> exists d, 0 < d /\ forall h, Rabs h < d -> 0 < T + h /\ Rabs (log10 (T + h) - log10 T) < e.
Proof.
  intros HT He.
  assert (C : continuity_pt log10 T) by (apply derivable_continuous_pt; exists (/ (T * ln 10)); now apply log10_lim).
  destruct (C e He) as (d & Hd & H). exists (Rmin d T). split; [apply Rmin_glb_lt; lra|].
  intros h Hh. pose proof (Rmin_l d T). pose proof (Rmin_r d T).
  assert (X : Rabs h < T) by lra. apply Rabs_def2 in X. split; [lra|].
  destruct (Req_dec h 0) as [->|N].
  - rewrite Rplus_0_r, Rminus_diag_eq by reflexivity. now rewrite Rabs_R0.
  - apply (H (T + h)). split.
    + split; [exact I|]. lra.
    + cbn. unfold R_dist. replace (T + h - T) with h by ring. lra.
Qed.

(** Two functions that agree near a point have the same derivative there. *)
Lemma lim_near f g T l d : 0 < d -> (forall h, Rabs h < d -> f (T + h) = g (T + h)) -> derivable_pt_lim g T l -> derivable_pt_lim f T l.
Proof.
  intros Hd E H e He. destruct (H e He) as (a & Ha).
  assert (P : 0 < Rmin a d) by (apply Rmin_glb_lt; [apply cond_pos|exact Hd]). exists (mkposreal _ P).
  intros h N Hh. cbn in Hh. pose proof (Rmin_l a d). pose proof (Rmin_r a d).
  rewrite E by lra. replace (f T) with (g T). { apply Ha; [exact N|lra]. }
  rewrite <- (Rplus_0_r T). symmetry. apply E. rewrite Rabs_R0. exact Hd.
Qed.

Lemma power_lim b C T : 0 < T -> derivable_pt_lim (fun x => Rpower 10 (C + b * log10 x)) T (b * Rpower 10 (C + b * log10 T) / T).
Proof.
  intro HT. pose proof ln10_pos as L10. unfold Rpower.
  assert (D : derivable_pt_lim (fun x => (C + b * log10 x) * ln 10) T (b / T)).
  { replace (b / T) with (((0 + (0 * log10 T + fct_cte b T * (/ (T * ln 10)))) * fct_cte (ln 10) T + (C + b * log10 T) * 0)) by (unfold fct_cte; field; lra).
    apply (derivable_pt_lim_mult (fun x => C + b * log10 x) (fct_cte (ln 10))); [|apply derivable_pt_lim_const].
    apply (derivable_pt_lim_plus (fct_cte C) (fun x => b * log10 x)); [apply derivable_pt_lim_const|].
    apply (derivable_pt_lim_mult (fct_cte b) log10); [apply derivable_pt_lim_const | now apply log10_lim]. }
  replace (b * exp ((C + b * log10 T) * ln 10) / T) with (exp ((C + b * log10 T) * ln 10) * (b / T)) by (unfold Rdiv; ring).
  apply (derivable_pt_lim_comp (fun x => (C + b * log10 x) * ln 10) exp); [exact D|]. apply derivable_pt_lim_exp.
Qed.

Lemma inv_lim a c T : T + c <> 0 -> derivable_pt_lim (fun x => - a / (x + c)) T (a / (T + c) ^ 2).
Proof.
  intro N.
  assert (D : derivable_pt_lim (fun x => x + c) T (1 + 0)) by (apply (derivable_pt_lim_plus id (fct_cte c)); [apply derivable_pt_lim_id | apply derivable_pt_lim_const]).
  replace (a / (T + c) ^ 2) with ((0 * (T + c) - (1 + 0) * (- a)) / Rsqr (T + c)) by (unfold Rsqr; field; exact N).
  apply (derivable_pt_lim_div (fct_cte (- a)) (fun x => x + c)); [apply derivable_pt_lim_const | exact D | exact N].
Qed.

Lemma cold_lim T : 0 < T ->
  derivable_pt_lim (fun x => (10000000 * exp (- 118400 / (x + 1000)) + 14 / 1000 * sqrt x * exp (- 92 / x)) * (2 / 10 ^ 26)) T
    ((10000000 * 118400 * exp (- 118400 / (T + 1000)) / Rpower (T + 1000) 2 +
      14 / 1000 * (5 / 10 / sqrt T + 92 / Rpower T (15 / 10)) * exp (- 92 / T)) * (2 / 10 ^ 26)).
Proof.
  intro HT. set (k := 2 / 10 ^ 26). clearbody k.
  assert (P2 : Rpower (T + 1000) 2 = (T + 1000) ^ 2) by (change 2 with (INR 2); apply Rpower_pow; lra).
  assert (P15 : Rpower T (15 / 10) = T * sqrt T).
  { replace (15 / 10) with (1 + / 2) by field. rewrite Rpower_plus, Rpower_1, Rpower_sqrt by exact HT. reflexivity. }
  rewrite P2, P15. clear P2 P15.
  pose proof (sqrt_lt_R0 T HT) as SP. pose proof (sqrt_sqrt T ltac:(lra)) as SS.
  assert (D1 : derivable_pt_lim (fun x => exp (- 118400 / (x + 1000))) T (exp (- 118400 / (T + 1000)) * (118400 / (T + 1000) ^ 2))).
  { apply (derivable_pt_lim_comp (fun x => - 118400 / (x + 1000)) exp); [apply inv_lim; lra | apply derivable_pt_lim_exp]. }
  assert (D2' : derivable_pt_lim (fun x => - 92 / x) T (92 / T ^ 2)).
  { pose proof (inv_lim 92 0 T ltac:(lra)) as X. rewrite Rplus_0_r in X.
    apply (lim_near _ (fun x => - 92 / (x + 0)) T _ 1); [lra | | exact X]. intros h _. now rewrite Rplus_0_r. }
  assert (D2 : derivable_pt_lim (fun x => exp (- 92 / x)) T (exp (- 92 / T) * (92 / T ^ 2))).
  { apply (derivable_pt_lim_comp (fun x => - 92 / x) exp); [exact D2' | apply derivable_pt_lim_exp]. }
  pose proof (derivable_pt_lim_sqrt T HT) as D3.
  set (e1 := exp (- 118400 / (T + 1000))) in *. set (e2 := exp (- 92 / T)) in *.
  replace ((10000000 * 118400 * e1 / (T + 1000) ^ 2 + 14 / 1000 * (5 / 10 / sqrt T + 92 / (T * sqrt T)) * e2) * k)
    with (((0 * e1 + fct_cte 10000000 T * (e1 * (118400 / (T + 1000) ^ 2))) +
           ((0 * sqrt T + fct_cte (14 / 1000) T * / (2 * sqrt T)) * e2 + (14 / 1000 * sqrt T) * (e2 * (92 / T ^ 2)))) * fct_cte k T +
          (10000000 * e1 + 14 / 1000 * sqrt T * e2) * 0).
  2: { unfold fct_cte. clearbody e1 e2. clear D1 D2 D2' D3. set (s := sqrt T) in *. clearbody s. subst T. field. nra. }
  apply (derivable_pt_lim_mult (fun x => 10000000 * exp (- 118400 / (x + 1000)) + 14 / 1000 * sqrt x * exp (- 92 / x)) (fct_cte k)); [|apply derivable_pt_lim_const].
  apply (derivable_pt_lim_plus (fun x => 10000000 * exp (- 118400 / (x + 1000))) (fun x => 14 / 1000 * sqrt x * exp (- 92 / x))).
  - apply (derivable_pt_lim_mult (fct_cte 10000000) (fun x => exp (- 118400 / (x + 1000)))); [apply derivable_pt_lim_const | exact D1].
  - apply (derivable_pt_lim_mult (fun x => 14 / 1000 * sqrt x) (fun x => exp (- 92 / x))); [|exact D2].
    apply (derivable_pt_lim_mult (fct_cte (14 / 1000)) sqrt); [apply derivable_pt_lim_const | exact D3].
Qed.

(** Near a temperature that is not a joint the same piece of the curve applies. *)
Lemma same_piece T : 0 < T -> ~ joint T -> exists d, 0 < d /\ forall h, Rabs h < d -> 0 < T + h /\
  (log10 (T + h) < 42 / 10 <-> log10 T < 42 / 10) /\ coef (log10 (T + h)) = coef (log10 T).
Proof.
  intros HT NJ. set (x := log10 T).
  assert (F : forall l : list R, ~ In x l -> exists e, 0 < e /\ forall y, In y l -> e <= Rabs (x - y)).
  { induction l as [|y l IH]; intro N.
    - exists 1. split; [lra|]. intros y [].
    - destruct IH as (e & He & H); [intro; apply N; now right|].
      assert (0 < Rabs (x - y)). { apply Rabs_pos_lt. intro. apply N. left. lra. }
      exists (Rmin e (Rabs (x - y))). split; [now apply Rmin_glb_lt|]. intros z [<-|Z]; [apply Rmin_r|].
      eapply Rle_trans; [apply Rmin_l|now apply H]. }
  destruct (F [42 / 10; 435 / 100; 490 / 100; 540 / 100; 590 / 100; 625 / 100; 650 / 100; 750 / 100]) as (e & He & H).
  { intro N. apply NJ. exists x. split; [exact N|reflexivity]. }
  destruct (log10_cont T e HT He) as (d & Hd & C). exists d. split; [exact Hd|]. intros h Hh. destruct (C h Hh) as [P Q].
  split; [exact P|]. fold x in Q. set (y := log10 (T + h)) in *.
  assert (S : forall z, In z [42 / 10; 435 / 100; 490 / 100; 540 / 100; 590 / 100; 625 / 100; 650 / 100; 750 / 100] -> (y < z <-> x < z)).
  { intros z Hz. specialize (H z Hz). apply Rabs_def2 in Q. unfold Rabs in H. destruct (Rcase_abs (x - z)); lra. }
  split; [apply S; now left|]. unfold coef.
  repeat match goal with |- context [Rlt_dec y ?z] =>
    assert (y < z <-> x < z) by (apply S; cbn; tauto); destruct (Rlt_dec y z), (Rlt_dec x z); try tauto
  end.
Qed.

(** The derivative that Newton's method uses is the derivative of the curve. *)
Theorem C103_derivative : forall T D, 0 < T -> ~ joint T -> dLam T = Some D -> derivable_pt_lim curve T D.
Proof.
  intros T D HT NJ H. destruct (same_piece T HT NJ) as (d & Hd & P).
  unfold dLam in H. destruct (Rlt_dec 0 T); [|lra]. cbv zeta in H.
  destruct (Rlt_dec (log10 T) (42 / 10)) as [L|L].
  - injection H as <-.
    eapply (lim_near _ _ T _ d Hd); [|exact (cold_lim T HT)].
    intros h Hh. destruct (P h Hh) as (A & B & _). unfold curve, Lam. destruct (Rlt_dec 0 (T + h)); [|lra]. cbv zeta.
    destruct (Rlt_dec (log10 (T + h)) (42 / 10)); [reflexivity|tauto].
  - destruct (coef (log10 T)) as [b C] eqn:E. injection H as <-.
    eapply (lim_near _ _ T _ d Hd); [|exact (power_lim b C T HT)].
    intros h Hh. destruct (P h Hh) as (A & B & F). unfold curve, Lam. destruct (Rlt_dec 0 (T + h)); [|lra]. cbv zeta.
    destruct (Rlt_dec (log10 (T + h)) (42 / 10)); [tauto|]. rewrite F. reflexivity.
Qed.
Print Assumptions C103_derivative.

(** ** The solver *)
Lemma Forall2_impl {A B} (P Q : A -> B -> Prop) l l' : (forall a b, P a b -> Q a b) -> Forall2 P l l' -> Forall2 Q l l'.
Proof. intros H F. induction F; constructor; auto. Qed.

Section Solver.
Variables Gamma_1 unitT unitC : R.
Variable mhd : bool.
Variable heat : R.
Hypothesis G1 : 0 < Gamma_1.
Hypothesis UT : 0 < unitT.
Hypothesis UC : 0 < unitC.
Notation temp_of := (temperature Gamma_1 unitT mhd).
Notation T0 := (floored Gamma_1 unitT mhd).
Notation imp := (implicit unitC heat).
Notation cool := (cooled Gamma_1 unitT unitC mhd heat).

Lemma newton_conv n t_old nden dt temp T : newton unitC heat n t_old nden dt temp = (true, Some T) -> imp dt nden t_old T.
Proof.
  revert temp. induction n as [|n IH]; intros temp H; cbn [newton] in H; [discriminate|].
  destruct (nstep unitC heat t_old nden dt temp) as [d|] eqn:E; [|discriminate]. cbv zeta in H.
  destruct (Req_EM_T (temp - d) 0) as [Z|Z]; [now apply (IH (temp - d))|].
  destruct (Rlt_dec (Rabs (d / (temp - d))) toler) as [L|L]; [|now apply (IH (temp - d))].
  injection H as <-. unfold nstep in E.
  destruct (Lam temp) as [La|] eqn:EL; [|discriminate]. destruct (dLam temp) as [D|] eqn:ED; [|discriminate]. cbv zeta in E.
  destruct (Req_EM_T (1 + unitC * D * nden * dt) 0) as [Q|Q]; [discriminate|]. injection E as E.
  exists temp, La, D. split; [exact EL|]. split; [exact ED|]. split.
  - rewrite <- E. field. exact Q.
  - replace (temp - d - temp) with (- d) by ring. rewrite Rabs_Ropp.
    unfold toler, Rdiv in L. rewrite Rabs_mult, Rabs_inv in L.
    assert (0 < Rabs (temp - d)) by now apply Rabs_pos_lt.
    apply Rmult_lt_reg_r with (/ Rabs (temp - d)); [now apply Rinv_0_lt_compat|].
    replace (Rabs (temp - d) / 100 * / Rabs (temp - d)) with (1 / 100) by (field; lra). unfold Rdiv. exact L.
Qed.

Lemma Rlt_0_10 : 0 < 10. Proof. lra. Qed.
Lemma attempt_res it c t_old nden dt o dt' : 0 < t_old -> 0 < dt -> attempt unitC heat it c t_old nden dt = Ok (o, dt') ->
  0 < dt' <= dt /\ (forall T, o = Some T -> Rabs (T - t_old) <= t_old / 10) /\
  (dt' = dt -> (0 < c)%nat -> forall T, o = Some T -> imp dt nden t_old T).
Proof.
  intros HT. revert dt. induction c as [|c IH]; intros dt Hdt H; cbn [attempt] in H.
  - destruct (newton unitC heat it t_old nden dt t_old) as [conv t].
    assert (H' : match t with None => Ok (None, dt) | Some temp => if Rlt_dec dtempmax (Rabs (t_old - temp) / t_old) then Fatal else Ok (Some temp, dt) end = Ok (o, dt'))
      by (destruct conv; exact H). clear H.
    destruct t as [T|].
    + destruct (Rlt_dec dtempmax (Rabs (t_old - T) / t_old)) as [L|L]; [discriminate|]. injection H' as <- <-.
      split; [lra|]. split; [|lia]. intros T' E. injection E as <-. rewrite Rabs_minus_sym.
      apply Rnot_lt_le in L. apply Rmult_le_compat_r with (r := t_old) in L; [|lra].
      unfold dtempmax in L. unfold Rdiv in L at 1. rewrite Rmult_assoc, Rinv_l, Rmult_1_r in L by lra. lra.
    + injection H' as <- <-. split; [lra|]. split; [discriminate|lia].
  - destruct (newton unitC heat it t_old nden dt t_old) as [conv t] eqn:N.
    assert (HALF : attempt unitC heat it c t_old nden (dt * (5 / 10)) = Ok (o, dt') ->
      0 < dt' <= dt /\ (forall T, o = Some T -> Rabs (T - t_old) <= t_old / 10) /\
      (dt' = dt -> (0 < S c)%nat -> forall T, o = Some T -> imp dt nden t_old T)).
    { intro A. destruct (IH (dt * (5 / 10)) ltac:(lra) A) as (B1 & B2 & _). split; [lra|]. split; [exact B2|]. lra. }
    destruct conv; [|now apply HALF].
    destruct t as [T|].
    + destruct (Rlt_dec dtempmax (Rabs (t_old - T) / t_old)) as [L|L]; [now apply HALF|]. injection H as <- <-.
      split; [lra|]. split.
      * intros T' E. injection E as <-. rewrite Rabs_minus_sym.
        apply Rnot_lt_le in L. apply Rmult_le_compat_r with (r := t_old) in L; [|lra].
        unfold dtempmax in L. unfold Rdiv in L at 1. rewrite Rmult_assoc, Rinv_l, Rmult_1_r in L by lra. lra.
      * intros _ _ T' E. injection E as <-. now apply (newton_conv it _ _ _ t_old).
    + injection H as <- <-. split; [lra|]. split; [discriminate|]. intros. discriminate.
Qed.

Lemma temp_next_eq t_old nden dt : temp_next unitC heat t_old nden dt = attempt unitC heat itmax halvings t_old nden dt.
Proof. reflexivity. Qed.
Opaque temp_next.
Lemma halvings_pos : (0 < halvings)%nat. Proof. unfold halvings. lia. Qed.
Lemma start_floored U : 0 < cd U -> start_temp Gamma_1 unitT mhd U = T0 U.
Proof.
  intro HD. unfold start_temp, floored, temperature, kinetic, magnetic. cbv zeta. f_equal. f_equal.
  destruct mhd; field; lra.
Qed.
Lemma put_temperature U T : 0 < cd U -> temp_of (put_temp Gamma_1 unitT mhd U T) = Rmax T 10.
Proof.
  intro HD. unfold put_temp, temperature, kinetic, magnetic. cbv zeta. cbn [cd cM1 cM2 cM3 cE cB1 cB2 cB3].
  destruct mhd; field; lra.
Qed.
Lemma T0_pos U : 10 <= T0 U. Proof. apply Rmax_r. Qed.

Lemma cell_dt_res pG U d : 0 < pG -> 0 < cd U -> cell_dt Gamma_1 unitT unitC mhd heat pG U = Ok d ->
  0 < d <= pG /\ forall t, cooling_time Gamma_1 unitT unitC mhd U t -> d <= 8 / 10 * t.
Proof.
  intros HP HD H. unfold cell_dt in H. rewrite (start_floored U HD) in H. cbv zeta in H. pose proof (T0_pos U) as TP.
  destruct (C103_curve_positive (T0 U) ltac:(lra)) as (L & EL & LP). rewrite EL in H.
  set (tc := T0 U / cd U / (L * unitC)) in *.
  assert (TC : 0 < tc) by (unfold tc; repeat apply Rdiv_lt_0_compat; try lra; now apply Rmult_lt_0_compat).
  rewrite temp_next_eq in H. destruct (attempt _ _ _ _ _ _ _) as [[o d']| |] eqn:E; try discriminate. cbn [bind fst snd] in H.
  destruct o as [T|]; [|discriminate]. injection H as <-.
  assert (M : 0 < Rmin (8 / 10 * tc) pG) by (apply Rmin_glb_lt; lra).
  destruct (attempt_res _ _ _ _ _ _ _ (Rlt_le_trans 0 10 _ Rlt_0_10 TP) M E) as (B & _).
  pose proof (Rmin_l (8 / 10 * tc) pG). pose proof (Rmin_r (8 / 10 * tc) pG). split; [lra|].
  intros t (L' & EL' & Ht). rewrite EL in EL'. injection EL' as <-.
  assert (X : tc = t). { unfold tc. rewrite <- Ht. field. lra. } lra.
Qed.
Lemma min_dt_res pG l a d : 0 < pG -> 0 < a -> (forall U, In U l -> 0 < cd U) -> min_dt Gamma_1 unitT unitC mhd heat pG l a = Ok d ->
  0 < d <= a /\ forall U, In U l -> d <= pG /\ forall t, cooling_time Gamma_1 unitT unitC mhd U t -> d <= 8 / 10 * t.
Proof.
  intros HP. revert a. induction l as [|U l IH]; intros a Ha HD H; cbn [min_dt] in H.
  - injection H as <-. split; [lra|]. intros U [].
  - destruct (cell_dt _ _ _ _ _ _ _) as [c| |] eqn:E; try discriminate. cbn [bind] in H.
    destruct (cell_dt_res pG U c HP (HD U (or_introl eq_refl)) E) as (C1 & C2).
    pose proof (Rmin_l a c). pose proof (Rmin_r a c).
    destruct (IH (Rmin a c)) as (D1 & D2); [apply Rmin_glb_lt; lra | intros; apply HD; now right | exact H |].
    split; [lra|]. intros V [<-|V']; [|now apply D2]. split; [lra|]. intros t Ht. specialize (C2 t Ht). lra.
Qed.

Lemma cell_step_res more dt U U' dt' m' : 0 < dt -> 0 < cd U ->
  cell_step Gamma_1 unitT unitC mhd heat more dt U = Ok (U', dt', m') -> 0 < dt' <= dt /\ cool dt' U U'.
Proof.
  revert dt. induction more as [|more IH]; intros dt Hdt HD H; cbn [cell_step] in H; rewrite (start_floored U HD), temp_next_eq in H; pose proof (T0_pos U) as TP;
  destruct (attempt _ _ _ _ _ _ _) as [[o d]| |] eqn:E; try discriminate; cbn [bind fst snd] in H;
  destruct (attempt_res _ _ _ _ _ _ _ (Rlt_le_trans 0 10 _ Rlt_0_10 TP) Hdt E) as (B1 & B2 & B3).
  - destruct (Req_EM_T d dt) as [->|N]; [|discriminate]. destruct o as [T|]; [|discriminate]. injection H as <- <- <-.
    split; [lra|]. unfold cooled. repeat (split; [reflexivity|]). exists T. split; [apply B3; auto using halvings_pos|].
    split; [now apply B2 | now apply put_temperature].
  - destruct (Req_EM_T d dt) as [->|N].
    + destruct o as [T|]; [|discriminate]. injection H as <- <- <-.
      split; [lra|]. unfold cooled. repeat (split; [reflexivity|]). exists T. split; [apply B3; auto using halvings_pos|].
      split; [now apply B2 | now apply put_temperature].
    + destruct (IH d ltac:(lra) HD H) as (X & Y). split; [lra|exact Y].
Qed.
Lemma steps_res l : forall more dt l' dt', 0 < dt -> (forall U, In U l -> 0 < cd U) ->
  steps Gamma_1 unitT unitC mhd heat more dt l = Ok (l', dt') ->
  0 < dt' <= dt /\ Forall2 (fun U U' => exists d, dt' <= d <= dt /\ cool d U U') l l'.
Proof.
  induction l as [|U l IH]; intros more dt l' dt' Hdt HD H; cbn [steps] in H.
  - injection H as <- <-. split; [lra|constructor].
  - destruct (cell_step _ _ _ _ _ _ _ _) as [[[U' d] m']| |] eqn:E; try discriminate. cbn [bind] in H.
    destruct (cell_step_res _ _ _ _ _ _ Hdt (HD U (or_introl eq_refl)) E) as (C1 & C2).
    destruct (steps _ _ _ _ _ m' d l) as [[l2 d2]| |] eqn:E2; try discriminate. cbn [bind] in H. injection H as <- <-.
    destruct (IH m' d l2 d2 ltac:(lra) (fun V HV => HD V (or_intror HV)) E2) as (D1 & D2). split; [lra|]. constructor.
    + exists d. split; [lra|exact C2].
    + eapply Forall2_impl; [|exact D2]. intros a b (x & X & Y). exists x. split; [lra|exact Y].
Qed.
End Solver.

(** A call changes only the energies: each cell gets the temperature of the implicit
    scheme, for a time between the new time step and a first estimate [m] of it; the
    estimate is no longer than the old time step, nor than four fifths of any cooling
    time.  If the time step was not cut again, all cells are cooled for the same time. *)
Theorem C103_cells : forall Gamma_1 unitT unitC mhd heat others dt l l' dt',
  0 < Gamma_1 -> 0 < unitT -> 0 < unitC -> 0 < dt -> 0 < others -> l <> [] -> (forall U, In U l -> 0 < cd U) ->
  cooling_solver Gamma_1 unitT unitC mhd heat others dt l = Ok (l', dt') ->
  exists m, 0 < dt' <= m /\ m <= dt /\ m <= others /\
    (forall U t, In U l -> cooling_time Gamma_1 unitT unitC mhd U t -> m <= 8 / 10 * t) /\
    Forall2 (fun U U' => exists d, dt' <= d <= m /\ cooled Gamma_1 unitT unitC mhd heat d U U') l l' /\
    (dt' = m -> Forall2 (cooled Gamma_1 unitT unitC mhd heat dt') l l').
Proof.
  intros g uT uC mhd heat others dt l l' dt' Hg HT HC Hdt Ho NE HD H. unfold cooling_solver in H.
  destruct (min_dt _ _ _ _ _ _ _ _) as [m| |] eqn:E; try discriminate. cbn [bind] in H.
  destruct (min_dt_res g uT uC mhd heat HC dt l (10 ^ 20) m Hdt ltac:(apply pow_lt; lra) HD E) as (M1 & M2).
  pose proof (Rmin_l m others). pose proof (Rmin_r m others).
  destruct (steps_res g uT uC mhd heat Hg HT l 3 (Rmin m others) l' dt' ltac:(apply Rmin_glb_lt; lra) HD H) as (S1 & S2).
  exists (Rmin m others). split; [exact S1|].
  assert (MD : m <= dt). { destruct l as [|U l]; [congruence|]. apply (M2 U). now left. }
  split; [lra|]. split; [lra|]. split.
  { intros U t HU Ht. pose proof (proj2 (M2 U HU) t Ht). lra. }
  split; [exact S2|]. intro EQ. eapply Forall2_impl; [|exact S2]. intros U U' (d & D1 & D2). replace dt' with d by lra. exact D2.
Qed.
Print Assumptions C103_cells.

(** No cell is below 10 K afterwards, and none changes by more than a tenth of its
    temperature (or of 10 K if it was colder). *)
Theorem C103_bounds : forall Gamma_1 unitT unitC mhd heat others dt l l' dt',
  0 < Gamma_1 -> 0 < unitT -> 0 < unitC -> 0 < dt -> 0 < others -> l <> [] -> (forall U, In U l -> 0 < cd U) ->
  cooling_solver Gamma_1 unitT unitC mhd heat others dt l = Ok (l', dt') ->
  Forall2 (fun U U' => 10 <= temperature Gamma_1 unitT mhd U' /\
    9 / 10 * floored Gamma_1 unitT mhd U <= temperature Gamma_1 unitT mhd U' <= 11 / 10 * floored Gamma_1 unitT mhd U) l l'.
Proof.
  intros g uT uC mhd heat others dt l l' dt' Hg HT HC Hdt Ho NE HD H.
  destruct (C103_cells g uT uC mhd heat others dt l l' dt' Hg HT HC Hdt Ho NE HD H) as (m & _ & _ & _ & _ & F & _).
  eapply Forall2_impl; [|exact F]. intros U U' (d & _ & C). destruct C as (_ & _ & _ & _ & _ & _ & _ & _ & T & _ & B & ->).
  pose proof (Rmax_r (temperature g uT mhd U) 10). fold (floored g uT mhd U) in *.
  assert (X : - (floored g uT mhd U / 10) <= T - floored g uT mhd U <= floored g uT mhd U / 10).
  { unfold Rabs in B. destruct (Rcase_abs (T - floored g uT mhd U)); lra. }
  split; [apply Rmax_r|]. split; [eapply Rle_trans; [|apply Rmax_l]; lra|]. apply Rmax_lub; lra.
Qed.
Print Assumptions C103_bounds.

(** ** Equilibrium *)
Section Equilibrium.
Variables Gamma_1 unitT unitC : R.
Variable mhd : bool.
Variable heat : R.
Hypothesis G1 : 0 < Gamma_1.
Hypothesis UT : 0 < unitT.
Hypothesis UC : 0 < unitC.
Notation temp_of := (temperature Gamma_1 unitT mhd).
Definition balanced (U : cons) : Prop :=
  0 < cd U /\ 10 <= temp_of U /\ exists L D, Lam (temp_of U) = Some L /\ dLam (temp_of U) = Some D /\ 0 <= D /\ cd U * L = heat.

Lemma attempt_eq it c t n dt L D : Lam t = Some L -> dLam t = Some D -> 0 < t -> 0 < n -> 0 <= D -> 0 < dt -> n * L = heat ->
  attempt unitC heat (S it) c t n dt = Ok (Some t, dt).
Proof.
  intros EL ED Ht Hn HD Hdt HB.
  assert (N : newton unitC heat (S it) t n dt t = (true, Some t)).
  { cbn [newton]. unfold nstep. rewrite EL, ED. cbv zeta.
    assert (P : 0 <= unitC * D * n * dt) by (repeat apply Rmult_le_pos; lra).
    destruct (Req_EM_T (1 + unitC * D * n * dt) 0) as [Z|_]; [lra|].
    replace ((t + unitC * (n * L - heat) * dt - t) / (1 + unitC * D * n * dt)) with 0 by (rewrite HB; field; lra).
    replace (t - 0) with t by ring. destruct (Req_EM_T t 0) as [Z|_]; [lra|].
    replace (0 / t) with 0 by (field; lra). rewrite Rabs_R0. destruct (Rlt_dec 0 toler) as [_|X]; [reflexivity|]. exfalso. apply X. unfold toler. lra. }
  assert (E : ~ dtempmax < Rabs (t - t) / t).
  { replace (t - t) with 0 by ring. rewrite Rabs_R0. unfold dtempmax. replace (0 / t) with 0 by (field; lra). lra. }
  destruct c as [|c]; cbn [attempt]; rewrite N; destruct (Rlt_dec dtempmax (Rabs (t - t) / t)); tauto.
Qed.
Lemma itmax_S : exists n, itmax = S n. Proof. eexists. reflexivity. Qed.
Lemma next_eq t n dt L D : Lam t = Some L -> dLam t = Some D -> 0 < t -> 0 < n -> 0 <= D -> 0 < dt -> n * L = heat ->
  temp_next unitC heat t n dt = Ok (Some t, dt).
Proof.
  intros. rewrite temp_next_eq. destruct itmax_S as (k & ->). now apply attempt_eq with L D.
Qed.
Lemma put_same U : 0 < cd U -> 10 <= temp_of U -> put_temp Gamma_1 unitT mhd U (temp_of U) = U.
Proof.
  intros HD HT. unfold put_temp. rewrite Rmax_left by exact HT. cbv zeta. destruct U as [d m1 m2 m3 E b1 b2 b3 s]. unfold temperature, kinetic, magnetic in *.
  cbn [cd cM1 cM2 cM3 cE cB1 cB2 cB3 cs] in *. f_equal. destruct mhd; field; lra.
Qed.
Lemma eq_start U : 0 < cd U -> 10 <= temp_of U -> start_temp Gamma_1 unitT mhd U = temp_of U.
Proof. intros HD HT. rewrite start_floored by assumption. unfold floored. now apply Rmax_left. Qed.

Lemma eq_cell_dt pG U : 0 < pG -> balanced U -> exists t, cooling_time Gamma_1 unitT unitC mhd U t /\ 0 < t /\
  cell_dt Gamma_1 unitT unitC mhd heat pG U = Ok (Rmin (8 / 10 * t) pG).
Proof.
  intros HP (HD & HT & L & D & EL & ED & D0 & HB).
  destruct (C103_curve_positive (temp_of U) ltac:(lra)) as (L' & EL' & LP). rewrite EL in EL'. injection EL' as <-.
  assert (F : floored Gamma_1 unitT mhd U = temp_of U) by (apply Rmax_left; exact HT).
  set (t := temp_of U / cd U / (L * unitC)).
  assert (TP : 0 < t) by (unfold t; repeat apply Rdiv_lt_0_compat; try lra; now apply Rmult_lt_0_compat).
  exists t. split; [exists L; rewrite F; split; [exact EL|]; unfold t; field; lra|]. split; [exact TP|].
  unfold cell_dt. rewrite eq_start by assumption. cbv zeta. rewrite EL. fold t.
  rewrite (next_eq _ _ _ L D); auto; [lra|]. apply Rmin_glb_lt; lra.
Qed.
Lemma eq_steps l more dt : 0 < dt -> (forall U, In U l -> balanced U) -> steps Gamma_1 unitT unitC mhd heat more dt l = Ok (l, dt).
Proof.
  intro Hdt. revert more. induction l as [|U l IH]; intros more H; cbn [steps]; [reflexivity|].
  destruct (H U (or_introl eq_refl)) as (HD & HT & L & D & EL & ED & D0 & HB).
  assert (C : cell_step Gamma_1 unitT unitC mhd heat more dt U = Ok (U, dt, more)).
  { destruct more; cbn [cell_step]; rewrite eq_start by assumption; rewrite (next_eq _ _ _ L D) by (auto; lra); cbn [bind fst snd];
    (destruct (Req_EM_T dt dt) as [_|X]; [now rewrite put_same by assumption | congruence]). }
  rewrite C. cbn [bind]. rewrite IH by (intros; apply H; now right). reflexivity.
Qed.
End Equilibrium.


Lemma eq_min_dt Gamma_1 unitT unitC mhd heat (G1 : 0 < Gamma_1) (UT : 0 < unitT) (UC : 0 < unitC) pG l : 0 < pG -> (forall U, In U l -> balanced Gamma_1 unitT mhd heat U) ->
  forall a, 0 < a -> exists d, min_dt Gamma_1 unitT unitC mhd heat pG l a = Ok d /\
    (d = a \/ d = pG \/ exists U t, In U l /\ cooling_time Gamma_1 unitT unitC mhd U t /\ d = 8 / 10 * t).
Proof.
  intros HP. induction l as [|U l IH]; intros B a Ha; cbn [min_dt]; [eauto|].
  destruct (eq_cell_dt Gamma_1 unitT unitC mhd heat UC pG U HP (B U (or_introl eq_refl))) as (t & CT & TP & ->). cbn [bind].
  destruct (IH (fun V HV => B V (or_intror HV)) (Rmin a (Rmin (8 / 10 * t) pG))) as (d & -> & H).
  { repeat apply Rmin_glb_lt; lra. }
  exists d. split; [reflexivity|]. destruct H as [->|[->|(V & t' & HV & C & ->)]].
  - unfold Rmin at 1 3 5. destruct (Rle_dec a (Rmin (8 / 10 * t) pG)); [now left|].
    right. unfold Rmin. destruct (Rle_dec (8 / 10 * t) pG); [right|now left]. exists U, t. split; [now left|]. now split.
  - right. now left.
  - right. right. exists V, t'. split; [now right|]. now split.
Qed.

(** Gas whose heating balances its cooling, on a rising part of the curve, is left as
    it is.  The time step is cut to four fifths of the shortest cooling time all the same. *)
Theorem C103_equilibrium : forall Gamma_1 unitT unitC mhd heat others dt l,
  0 < Gamma_1 -> 0 < unitT -> 0 < unitC -> 0 < dt <= 10 ^ 20 -> 0 < others -> l <> [] ->
  (forall U, In U l -> balanced Gamma_1 unitT mhd heat U) ->
  exists m, cooling_solver Gamma_1 unitT unitC mhd heat others dt l = Ok (l, m) /\
    m <= dt /\ m <= others /\ (forall U t, In U l -> cooling_time Gamma_1 unitT unitC mhd U t -> m <= 8 / 10 * t) /\
    (m = dt \/ m = others \/ exists U t, In U l /\ cooling_time Gamma_1 unitT unitC mhd U t /\ m = 8 / 10 * t).
Proof.
  intros g uT uC mhd heat others dt l Hg HT HC [Hdt Hdt2] Ho NE B.
  assert (HD : forall U, In U l -> 0 < cd U) by (intros U HU; apply (B U HU)).
  assert (P20 : 0 < 10 ^ 20) by (apply pow_lt; lra).
  destruct (eq_min_dt g uT uC mhd heat Hg HT HC dt l Hdt B (10 ^ 20) P20) as (d & E & ATT).
  assert (DP : 0 < d) by (apply (min_dt_res g uT uC mhd heat HC dt l (10 ^ 20) d Hdt P20 HD E)).
  assert (S : cooling_solver g uT uC mhd heat others dt l = Ok (l, Rmin d others)).
  { unfold cooling_solver. rewrite E. cbn [bind]. apply (eq_steps g uT uC mhd heat Hg HT HC); [now apply Rmin_glb_lt|exact B]. }
  destruct (C103_cells g uT uC mhd heat others dt l l _ Hg HT HC Hdt Ho NE HD S) as (m & M1 & M2 & M3 & M4 & _).
  exists (Rmin d others). split; [exact S|]. split; [lra|]. split; [lra|]. split.
  { intros U t HU Ht. specialize (M4 U t HU Ht). lra. }
  destruct (Rle_dec d others) as [L|L].
  - rewrite Rmin_left by exact L. destruct ATT as [->|[->|X]]; [|now left|auto].
    left. assert (d' : 10 ^ 20 <= dt). { assert (X : Rmin (10 ^ 20) others <= dt) by lra. rewrite Rmin_left in X by exact L. exact X. } lra.
  - rewrite Rmin_right by lra. auto.
Qed.
Print Assumptions C103_equilibrium.

(** ** Several Domains *)
Definition L21 : R := Rpower 10 (-21).
Lemma L21_pos : 0 < L21. Proof. unfold L21, Rpower. apply exp_pos. Qed.
Lemma flat_curve T : 100000 <= T <= 200000 -> Lam T = Some L21 /\ dLam T = Some 0.
Proof.
  intros [A B]. pose proof ln10_pos as P.
  assert (LT : 5 <= log10 T).
  { unfold log10. apply Rmult_le_reg_r with (ln 10); [exact P|]. unfold Rdiv. rewrite Rmult_assoc, Rinv_l, Rmult_1_r by lra.
    replace (5 * ln 10) with (ln (10 ^ 5)) by (rewrite ln_pow by lra; cbn [INR]; lra).
    destruct A as [A|<-]; [left; apply ln_increasing; lra | right; f_equal; lra]. }
  assert (UT : log10 T < 54 / 10).
  { unfold log10. apply Rmult_lt_reg_r with (ln 10); [exact P|]. unfold Rdiv. rewrite Rmult_assoc, Rinv_l, Rmult_1_r by lra.
    assert (X : ln (T ^ 5) < ln (10 ^ 27)).
    { apply ln_increasing; [apply pow_lt; lra|]. apply Rle_lt_trans with (200000 ^ 5); [apply pow_incr; lra|lra]. }
    rewrite !ln_pow in X by lra. cbn [INR] in X. lra. }
  assert (K : coef (log10 T) = (0, -21)).
  { unfold coef. repeat match goal with |- context [Rlt_dec ?a ?b] => destruct (Rlt_dec a b); try lra end. reflexivity. }
  unfold Lam, dLam. destruct (Rlt_dec 0 T); [|lra]. cbv zeta. destruct (Rlt_dec (log10 T) (42 / 10)); [lra|].
  rewrite K, Rmult_0_l, Rplus_0_r. split; [reflexivity|]. f_equal. field. lra.
Qed.

(** Gas at rest of density [n] and temperature [T]. *)
Definition rest (n T : R) : cons := Cons n 0 0 0 (n * T) 0 0 0 [].
Lemma rest_temp n T : 0 < n -> temperature 1 1 false (rest n T) = T.
Proof. intro. unfold temperature, kinetic, magnetic, rest. cbn [cd cM1 cM2 cM3 cE]. field. lra. Qed.

Lemma flat_attempt it c t n r dt : 100000 <= t <= 200000 -> 0 < r -> 0 < dt -> r * dt <= t / 200 -> n * L21 - 1600 * L21 = r * L21 ->
  attempt (/ L21) (1600 * L21) (S it) c t n dt = Ok (Some (t - r * dt), dt).
Proof.
  intros HT Hr Hdt HS HN. pose proof L21_pos as LP. destruct (flat_curve t HT) as [EL ED].
  assert (RD : 0 < r * dt) by now apply Rmult_lt_0_compat.
  assert (N : newton (/ L21) (1600 * L21) (S it) t n dt t = (true, Some (t - r * dt))).
  { cbn [newton]. unfold nstep. rewrite EL, ED. cbv zeta.
    destruct (Req_EM_T (1 + / L21 * 0 * n * dt) 0) as [Z|_]; [exfalso; rewrite Rmult_0_r, !Rmult_0_l in Z; lra|].
    rewrite HN. replace ((t + / L21 * (r * L21) * dt - t) / (1 + / L21 * 0 * n * dt)) with (r * dt) by (field; lra).
    destruct (Req_EM_T (t - r * dt) 0) as [Z|_]; [lra|].
    destruct (Rlt_dec (Rabs (r * dt / (t - r * dt))) toler) as [_|X]; [reflexivity|]. exfalso. apply X.
    rewrite Rabs_right by (apply Rle_ge, Rlt_le, Rdiv_lt_0_compat; lra). unfold toler.
    apply Rmult_lt_reg_r with (t - r * dt); [lra|]. unfold Rdiv at 1. rewrite Rmult_assoc, Rinv_l, Rmult_1_r by lra. lra. }
  assert (E : ~ dtempmax < Rabs (t - (t - r * dt)) / t).
  { replace (t - (t - r * dt)) with (r * dt) by ring. rewrite Rabs_right by lra. unfold dtempmax. intro X.
    apply Rmult_lt_compat_r with (r := t) in X; [|lra]. unfold Rdiv in X at 2. rewrite Rmult_assoc, Rinv_l, Rmult_1_r in X by lra. lra. }
  destruct c as [|c]; cbn [attempt]; rewrite N; destruct (Rlt_dec dtempmax (Rabs (t - (t - r * dt)) / t)); tauto.
Qed.
Lemma flat_next t n r dt : 100000 <= t <= 200000 -> 0 < r -> 0 < dt -> r * dt <= t / 200 -> n * L21 - 1600 * L21 = r * L21 ->
  temp_next (/ L21) (1600 * L21) t n dt = Ok (Some (t - r * dt), dt).
Proof. intros. rewrite temp_next_eq. destruct itmax_S as (k & ->). now apply flat_attempt. Qed.

(** Hot gas that cools for less than a step: the hypotheses of [C103_cells] and [C103_bounds] hold. *)
Lemma rest_start n T : 0 < n -> 10 <= T -> start_temp 1 1 false (rest n T) = T.
Proof.
  intros HN HT. rewrite start_floored by (try exact HN; lra). unfold floored. rewrite rest_temp by exact HN. now apply Rmax_left.
Qed.
Example C103_hot_gas : cooling_solver 1 1 (/ L21) false (1600 * L21) (10 ^ 20) 1000 [rest 1601 200000] =
               Ok ([put_temp 1 1 false (rest 1601 200000) (200000 - 1 * (160000 / 1601))], 160000 / 1601).
Proof.
  pose proof L21_pos as LP. pose proof rest_start as ST. destruct (flat_curve 200000 ltac:(lra)) as [EL1 ED1].
  unfold cooling_solver. cbn [min_dt]. unfold cell_dt. rewrite ST by lra. cbv zeta. rewrite EL1. cbn [rest cd].
    replace (8 / 10 * (200000 / 1601 / (L21 * / L21))) with (160000 / 1601) by (field; lra).
    rewrite (Rmin_left (160000 / 1601) 1000) by lra.
    rewrite (flat_next _ _ 1) by lra. cbn [bind fst snd]. rewrite (Rmin_right (10 ^ 20)) by lra. rewrite Rmin_left by lra.
    cbn [steps cell_step]. fold (rest 1601 200000). rewrite ST by lra. cbn [rest cd]. rewrite (flat_next _ _ 1) by lra. cbn [bind fst snd].
    destruct (Req_EM_T (160000 / 1601) (160000 / 1601)) as [_|X]; [reflexivity|congruence].
Qed.
(** Gas in equilibrium: the hypotheses of [C103_equilibrium]. *)
Example C103_balanced_gas : balanced 1 1 false (1600 * L21) (rest 1600 100000).
Proof.
  pose proof L21_pos as LP. destruct (flat_curve 100000 ltac:(lra)) as [EL2 ED2].
  unfold balanced. rewrite rest_temp by lra. split; [cbn; lra|]. split; [lra|]. exists L21, 0. split; [exact EL2|]. split; [exact ED2|]. split; [lra|]. reflexivity.
Qed.

(** Two Domains: the first is cooled for about 100 time units, then the second cuts
    the time step to 50, which is what the Mesh then advances. *)
Theorem C103_domains_refuted : exists unitC heat U1 U1' U2, 0 < unitC /\ 0 < heat /\
  integrate_cooling 1 1 unitC false heat 1000 [[U1]; [U2]] = Ok ([[U1']; [U2]], 50) /\
  temperature 1 1 false U1 = 200000 /\ temperature 1 1 false U1' < 199901 /\
  implicit unitC heat 50 (cd U1) 200000 199950.
Proof.
  pose proof L21_pos as LP.
  assert (P20 : 1000 <= 10 ^ 20) by lra.
  exists (/ L21), (1600 * L21), (rest 1601 200000), (put_temp 1 1 false (rest 1601 200000) (200000 - 1 * (160000 / 1601))), (rest 1600 100000).
  assert (UCP : 0 < / L21) by now apply Rinv_0_lt_compat.
  split; [exact UCP|]. split; [lra|].
  destruct (flat_curve 100000 ltac:(lra)) as [EL2 ED2].
  assert (C2 : cooling_solver 1 1 (/ L21) false (1600 * L21) (10 ^ 20) (160000 / 1601) [rest 1600 100000] = Ok ([rest 1600 100000], 50)).
  { pose proof C103_balanced_gas as B.
    assert (CT : cooling_time 1 1 (/ L21) false (rest 1600 100000) (100000 / 1600)).
    { exists L21. unfold floored. rewrite rest_temp by lra. rewrite Rmax_left by lra. split; [exact EL2|]. cbn [rest cd]. field. lra. }
    destruct (C103_equilibrium 1 1 (/ L21) false (1600 * L21) (10 ^ 20) (160000 / 1601) [rest 1600 100000]) as (m & E & _ & _ & M & A); try lra.
    - discriminate.
    - intros U [<-|[]]. exact B.
    - rewrite E. f_equal. f_equal.
      pose proof (M _ _ (or_introl eq_refl) CT) as U50.
      destruct A as [->|[->|(U & t & [<-|[]] & (L & X & Y) & ->)]]; [lra|lra|].
      unfold floored in X, Y. rewrite rest_temp in X, Y by lra. rewrite Rmax_left in X, Y by lra. rewrite EL2 in X. injection X as <-. cbn [rest cd] in Y.
      assert (Z : t * 1600 = 100000). { rewrite <- Y. field. lra. } lra. }
  split.
  { cbn [integrate_cooling]. rewrite C103_hot_gas. cbn [bind]. rewrite (Rmin_right 1000) by lra. rewrite C2. cbn [bind]. rewrite Rmin_right by lra. reflexivity. }
  split; [apply rest_temp; lra|]. split.
  { rewrite put_temperature; [|lra|lra|cbn; lra]. rewrite Rmax_left by lra. lra. }
  exists 199950, L21, 0. destruct (flat_curve 199950 ltac:(lra)) as [EL3 ED3]. split; [exact EL3|]. split; [exact ED3|]. cbn [rest cd]. split.
  - replace (50 * / L21 * (1601 * L21 - 1600 * L21)) with 50 by (field; lra). lra.
  - replace (199950 - 199950) with 0 by ring. rewrite Rabs_R0, Rabs_right; lra.
Qed.
Print Assumptions C103_domains_refuted.

(** With one Domain the Mesh takes the step for which the cells were cooled, if the
    first estimate of it was kept.  Missing: several Domains (refuted above). *)
Theorem C103_one_domain_partial : forall Gamma_1 unitT unitC mhd heat dt l l' dt',
  0 < Gamma_1 -> 0 < unitT -> 0 < unitC -> 0 < dt -> l <> [] -> (forall U, In U l -> 0 < cd U) ->
  integrate_cooling Gamma_1 unitT unitC mhd heat dt [l] = Ok ([l'], dt') ->
  exists m, 0 < dt' <= m /\ m <= dt /\
    (forall U t, In U l -> cooling_time Gamma_1 unitT unitC mhd U t -> m <= 8 / 10 * t) /\
    Forall2 (fun U U' => exists d, dt' <= d <= m /\ cooled Gamma_1 unitT unitC mhd heat d U U') l l' /\
    (dt' = m -> Forall2 (cooled Gamma_1 unitT unitC mhd heat dt') l l').
Proof.
  intros g uT uC mhd heat dt l l' dt' Hg HT HC Hdt NE HD H. cbn [integrate_cooling] in H.
  destruct (cooling_solver _ _ _ _ _ _ _ _) as [[k d]| |] eqn:E; try discriminate. cbn [bind] in H.
  injection H as -> E2.
  destruct (C103_cells g uT uC mhd heat (10 ^ 20) dt l l' d Hg HT HC Hdt ltac:(apply pow_lt; lra) NE HD E) as (m & M1 & M2 & M3 & M4 & M5).
  assert (X : dt' = d) by (rewrite <- E2; apply Rmin_right; lra). subst d. exists m. auto.
Qed.
Print Assumptions C103_one_domain_partial.
