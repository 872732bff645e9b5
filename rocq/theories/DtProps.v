(** * C16, C20, C21, C22: time steps and the main loop *)
From Coq Require Import Reals Lra Lia Psatz List Bool Arith ZArith.
From Verif Require Import DtModel.
Import ListNotations.
Open Scope R_scope.

(** ** Specification *)
Definition vel1 (c : cell) : R := c_M1 c / c_d c.
Definition vel2 (c : cell) : R := c_M2 c / c_d c.
Definition vel3 (c : cell) : R := c_M3 c / c_d c.
Definition ekin (c : cell) : R := (c_M1 c * c_M1 c + c_M2 c * c_M2 c + c_M3 c * c_M3 c) / (2 * c_d c).
Definition emag (c : cell) : R := (c_B1 c * c_B1 c + c_B2 c * c_B2 c + c_B3 c * c_B3 c) / 2.
(** Square of the sound speed: gamma P / d, or the isothermal constant. *)
Definition sound_sq (cfg : dcfg) (c : cell) : R :=
  match d_eos cfg with
  | Isothermal cs2 => cs2
  | Adiabatic g => g * ((g - 1) * (c_E c - ekin c - if d_mhd cfg then emag c else 0)) / c_d c
  end.
(** Fast magnetosonic speed along an axis: the larger root x^2 of
    x^4 - (a^2 + B^2/d) x^2 + a^2 Bn^2/d = 0, Bn being the field along the axis. *)
Definition is_fast_sq (asq bsq bn d x : R) : Prop :=
  x * x - (asq + bsq / d) * x + asq * (bn * bn) / d = 0 /\
  forall y, y * y - (asq + bsq / d) * y + asq * (bn * bn) / d = 0 -> y <= x.
(** dt times the signal speed stays below cour*dx along each active axis. *)
Definition cfl_holds (cour dt : R) (g : grid) (c : cell) (w1 w2 w3 : R) : Prop :=
  ((1 < g_N1 g)%nat -> dt * (Rabs (vel1 c) + w1) <= cour * g_dx1 g) /\
  ((1 < g_N2 g)%nat -> dt * (Rabs (vel2 c) + w2) <= cour * g_dx2 g) /\
  ((1 < g_N3 g)%nat -> dt * (Rabs (vel3 c) + w3) <= cour * g_dx3 g).
Definition grid_ok (g : grid) : Prop := 0 < g_dx1 g /\ 0 < g_dx2 g /\ 0 < g_dx3 g.

(** ** The maximum over cells, Grids and processes *)
Definition acc_le (a b : acc) : Prop :=
  a_v1 a <= a_v1 b /\ a_v2 a <= a_v2 b /\ a_v3 a <= a_v3 b /\ a_dti a <= a_dti b.
Lemma acc_refl : forall a, acc_le a a.
Proof. intros; repeat split; lra. Qed.
Lemma acc_trans : forall a b c, acc_le a b -> acc_le b c -> acc_le a c.
Proof. unfold acc_le. intros. intuition lra. Qed.
Ltac rmax := first [apply Rle_refl | (eapply Rle_trans; [|apply Rmax_l]); rmax | (eapply Rle_trans; [|apply Rmax_r]); rmax].
Lemma cell_step_le : forall cfg g a c, acc_le a (cell_step cfg g a c).
Proof.
  intros. unfold cell_step. destruct (cell_speeds cfg c) as [[s1 s2] s3]. unfold acc_le. cbn [a_v1 a_v2 a_v3 a_dti].
  repeat split; first [apply Rle_refl | destruct (many _); [apply Rmax_l|apply Rle_refl]].
Qed.
Lemma part_step_le : forall g a p, acc_le a (part_step g a p).
Proof. intros. unfold part_step, acc_le. cbn [a_v1 a_v2 a_v3 a_dti]. repeat split; first [apply Rle_refl | destruct (many _); [apply Rmax_l|apply Rle_refl]]. Qed.
Lemma dti_step_le : forall g a, acc_le a (dti_step g a).
Proof.
  intros. unfold dti_step, acc_le. cbn [a_v1 a_v2 a_v3 a_dti]. repeat split; try lra.
  destruct (many (g_N1 g)), (many (g_N2 g)), (many (g_N3 g)); rmax.
Qed.
Lemma fold_le : forall A (f : acc -> A -> acc), (forall a x, acc_le a (f a x)) -> forall l a, acc_le a (fold_left f l a).
Proof. intros A f H. induction l as [|x l IH]; intros a; simpl; [apply acc_refl|]. eapply acc_trans; [apply H|apply IH]. Qed.
Lemma grid_step_le : forall cfg a g, acc_le a (grid_step cfg a g).
Proof.
  intros. unfold grid_step. eapply acc_trans; [|apply dti_step_le].
  eapply acc_trans; [apply (fold_le _ (cell_step cfg g)); intros; apply cell_step_le|].
  apply fold_le. intros; apply part_step_le.
Qed.
Lemma cells_max : forall cfg g c cs a, In c cs ->
  let '(s1, s2, s3) := cell_speeds cfg c in
  let b := fold_left (cell_step cfg g) cs a in
  ((1 < g_N1 g)%nat -> s1 <= a_v1 b) /\ ((1 < g_N2 g)%nat -> s2 <= a_v2 b) /\ ((1 < g_N3 g)%nat -> s3 <= a_v3 b).
Proof.
  intros cfg g c cs. induction cs as [|x cs IH]; intros a I; [contradiction|]. destruct I as [->|I].
  - assert (L := fold_le _ (cell_step cfg g) (fun a x => cell_step_le cfg g a x) cs (cell_step cfg g a c)).
    simpl. unfold cell_step in L at 1. destruct (cell_speeds cfg c) as [[s1 s2] s3] eqn:E.
    unfold acc_le in L. cbn [a_v1 a_v2 a_v3 a_dti] in L. destruct L as (L1 & L2 & L3 & _). unfold many in *.
    split; [|split]; intros K; apply Nat.ltb_lt in K; rewrite K in *; (eapply Rle_trans; [|eassumption]); apply Rmax_r.
  - simpl. apply IH. auto.
Qed.
Lemma parts_max : forall g p ps a, In p ps ->
  let b := fold_left (part_step g) ps a in
  ((1 < g_N1 g)%nat -> p_v1 p <= a_v1 b) /\ ((1 < g_N2 g)%nat -> p_v2 p <= a_v2 b) /\ ((1 < g_N3 g)%nat -> p_v3 p <= a_v3 b).
Proof.
  intros g p ps. induction ps as [|x ps IH]; intros a I; [contradiction|]. destruct I as [->|I].
  - assert (L := fold_le _ (part_step g) (fun a x => part_step_le g a x) ps (part_step g a p)).
    simpl. unfold part_step in L at 1. unfold acc_le in L. cbn [a_v1 a_v2 a_v3 a_dti] in L.
    destruct L as (L1 & L2 & L3 & _). unfold many in *.
    split; [|split]; intros K; apply Nat.ltb_lt in K; rewrite K in *; (eapply Rle_trans; [|eassumption]); apply Rmax_r.
  - simpl. apply IH. auto.
Qed.
Lemma dti_max : forall g a,
  ((1 < g_N1 g)%nat -> a_v1 a / g_dx1 g <= a_dti (dti_step g a)) /\
  ((1 < g_N2 g)%nat -> a_v2 a / g_dx2 g <= a_dti (dti_step g a)) /\
  ((1 < g_N3 g)%nat -> a_v3 a / g_dx3 g <= a_dti (dti_step g a)).
Proof.
  intros. unfold dti_step, many. cbn [a_dti].
  split; [|split]; intros K; apply Nat.ltb_lt in K; rewrite K;
  repeat match goal with |- context [if ?x then _ else _] => destruct x end; rmax.
Qed.
(** A quantity bounded by the accumulated velocities of one Grid is bounded through max_dti. *)
Lemma max_dti_bound : forall cfg gs g, In g gs -> exists a,
  acc_le (fold_left (part_step g) (g_parts g) (fold_left (cell_step cfg g) (g_cells g) a))
         (fold_left (part_step g) (g_parts g) (fold_left (cell_step cfg g) (g_cells g) a)) /\
  a_dti (grid_step cfg a g) <= max_dti cfg gs.
Proof.
  intros cfg gs g I. unfold max_dti. generalize acc0. induction gs as [|x gs IH]; intros a; [contradiction|].
  destruct I as [->|I].
  - exists a. split; [apply acc_refl|]. simpl.
    apply (fold_le _ (grid_step cfg) (grid_step_le cfg) gs (grid_step cfg a g)).
  - simpl. apply IH. auto.
Qed.
Lemma max_dti_nonneg : forall cfg gs, 0 <= max_dti cfg gs.
Proof. intros. unfold max_dti. assert (L := fold_le _ (grid_step cfg) (grid_step_le cfg) gs acc0). destruct L as (_ & _ & _ & L). exact L. Qed.

Lemma allmin_le : forall l x, In (Some x) l -> exists m, allmin l = Some m /\ m <= x.
Proof.
  induction l as [|y l IH]; intros x I; [contradiction|]. simpl. destruct I as [->|I].
  - destruct (allmin l) as [m|]; simpl; [exists (Rmin x m); split; auto; apply Rmin_l|exists x; split; auto; lra].
  - destruct (IH x I) as (m & E & L). fold (allmin l). rewrite E. destruct y as [y|]; simpl; [|eauto].
    exists (Rmin y m). split; auto. eapply Rle_trans; [apply Rmin_r|auto].
Qed.

(** The final limits only make dt smaller. *)
Lemma limit_le_raw : forall mode nstep old raw diff time tlim dt,
  limit_dt mode nstep old (Some raw) diff time tlim = Some dt -> dt <= raw.
Proof.
  intros mode nstep old raw diff time tlim dt H. unfold limit_dt in H.
  set (d0 := if (nstep =? 0)%nat then Some raw else omin (Some raw) (match old with Some x => Some (2 * x) | None => None end)) in H.
  assert (D0 : exists x, d0 = Some x /\ x <= raw).
  { unfold d0. destruct (nstep =? 0)%nat; [eexists; split; eauto; lra|]. destruct old as [o|]; simpl; eexists; split; eauto; [apply Rmin_l|lra]. }
  destruct D0 as (x & -> & L).
  set (d1 := if Rlt_dec time tlim then if Rlt_dec (tlim - time) x then Some (tlim - time) else Some x else Some x) in H.
  assert (D1 : exists y, d1 = Some y /\ y <= raw).
  { unfold d1. destruct (Rlt_dec time tlim); [destruct (Rlt_dec (tlim - time) x)|]; eexists; split; eauto; lra. }
  destruct D1 as (y & -> & L1).
  destruct mode; [injection H as <-; auto| |].
  - destruct diff as [d|]; simpl in H; injection H as <-; auto. eapply Rle_trans; [apply Rmin_l|auto].
  - destruct diff as [d|]; [|injection H as <-; auto]. destruct (Rlt_dec (109.7045774 * d) y); injection H as <-; lra.
Qed.

Lemma in_new_dt : forall cfg mode nstep time tlim ps x, In x (new_dt cfg mode nstep time tlim ps) ->
  exists p, In p ps /\ x = limit_dt mode nstep (pr_dt p)
     (allmin (map (fun p => inv_dti (d_cour cfg) (max_dti cfg (pr_grids p))) ps))
     (allmin (map (fun p => inv_dti (d_cour cfg) (pr_dti_diff p)) ps)) time tlim.
Proof. intros. unfold new_dt in H. apply in_map_iff in H. destruct H as (p & <- & I). eauto. Qed.

(** Core: any speed [s] with s/dx <= max_dti of some process is limited. *)
Lemma dt_times_speed : forall cfg mode nstep time tlim ps dt p s dx,
  0 <= d_cour cfg -> In (Some dt) (new_dt cfg mode nstep time tlim ps) -> In p ps ->
  0 < dx -> 0 <= s -> s / dx <= max_dti cfg (pr_grids p) -> dt * s <= d_cour cfg * dx.
Proof.
  intros cfg mode nstep time tlim ps dt p s dx C I IP DX S0 L.
  destruct (Req_dec s 0) as [->|NZ]; [nra|].
  assert (SP : 0 < s / dx) by (apply Rdiv_lt_0_compat; lra).
  set (m := max_dti cfg (pr_grids p)) in *.
  assert (EI : inv_dti (d_cour cfg) m = Some (d_cour cfg / m)).
  { unfold inv_dti. destruct (Req_EM_T m 0); [lra|reflexivity]. }
  destruct (allmin_le (map (fun p => inv_dti (d_cour cfg) (max_dti cfg (pr_grids p))) ps) (d_cour cfg / m)) as (r & ER & LR).
  { rewrite <- EI. apply (in_map (fun p => inv_dti (d_cour cfg) (max_dti cfg (pr_grids p)))). auto. }
  apply in_new_dt in I. destruct I as (q & IQ & E). rewrite ER in E. symmetry in E. apply limit_le_raw in E.
  assert (D : dt * m <= d_cour cfg).
  { assert (dt <= d_cour cfg / m) by lra. apply Rmult_le_compat_r with (r := m) in H; [|lra].
    unfold Rdiv in H. rewrite Rmult_assoc, Rinv_l in H by lra. lra. }
  assert (SM : s <= m * dx).
  { apply Rmult_le_compat_r with (r := dx) in L; [|lra]. unfold Rdiv in L. rewrite Rmult_assoc, Rinv_l in L by lra. lra. }
  destruct (Rle_lt_dec 0 dt) as [P|N].
  - apply Rle_trans with (dt * (m * dx)); [apply Rmult_le_compat_l; auto|]. rewrite <- Rmult_assoc. apply Rmult_le_compat_r; lra.
  - apply Rle_trans with 0; [nra|]. apply Rmult_le_pos; lra.
Qed.

Lemma cell_limited : forall cfg mode nstep time tlim ps dt p g c w1 w2 w3 s1 s2 s3,
  0 <= d_cour cfg -> In (Some dt) (new_dt cfg mode nstep time tlim ps) -> In p ps ->
  In g (pr_grids p) -> grid_ok g -> In c (g_cells g) -> cell_speeds cfg c = (s1, s2, s3) ->
  0 <= w1 -> 0 <= w2 -> 0 <= w3 ->
  Rabs (vel1 c) + w1 <= s1 -> Rabs (vel2 c) + w2 <= s2 -> Rabs (vel3 c) + w3 <= s3 ->
  cfl_holds (d_cour cfg) dt g c w1 w2 w3.
Proof.
  intros cfg mode nstep time tlim ps dt p g c w1 w2 w3 s1 s2 s3 C I IP IG (X1 & X2 & X3) IC E W1 W2 W3 L1 L2 L3.
  destruct (max_dti_bound cfg _ g IG) as (a & _ & B).
  assert (M := cells_max cfg g c (g_cells g) a IC). rewrite E in M.
  set (a1 := fold_left (cell_step cfg g) (g_cells g) a) in *.
  set (a2 := fold_left (part_step g) (g_parts g) a1) in *.
  assert (A12 : acc_le a1 a2) by (apply fold_le; intros; apply part_step_le). destruct A12 as (A1 & A2 & A3 & _).
  unfold grid_step in B. fold a1 a2 in B. destruct (dti_max g a2) as (D1 & D2 & D3). destruct M as (M1 & M2 & M3).
  assert (G : forall s dx v, 0 < dx -> s <= v -> v / dx <= a_dti (dti_step g a2) -> s / dx <= max_dti cfg (pr_grids p)).
  { intros s dx v DX SV V. eapply Rle_trans; [|exact B]. eapply Rle_trans; [|exact V].
    unfold Rdiv. apply Rmult_le_compat_r; [|auto]. left. apply Rinv_0_lt_compat. auto. }
  split; [|split]; intros K.
  - eapply dt_times_speed; eauto; [assert (X := Rabs_pos (vel1 c)); lra|].
    apply (G _ _ (a_v1 a2)); auto. specialize (M1 K). lra.
  - eapply dt_times_speed; eauto; [assert (X := Rabs_pos (vel2 c)); lra|].
    apply (G _ _ (a_v2 a2)); auto. specialize (M2 K). lra.
  - eapply dt_times_speed; eauto; [assert (X := Rabs_pos (vel3 c)); lra|].
    apply (G _ _ (a_v3 a2)); auto. specialize (M3 K). lra.
Qed.

(** ** C20, hydrodynamics *)
Lemma qsq_ekin : forall c, 0 < c_d c -> 1/2 * c_d c * (c_M1 c * (1 / c_d c) * (c_M1 c * (1 / c_d c)) + c_M2 c * (1 / c_d c) * (c_M2 c * (1 / c_d c)) + c_M3 c * (1 / c_d c) * (c_M3 c * (1 / c_d c))) = ekin c.
Proof. intros. unfold ekin. field. lra. Qed.
Theorem C20_hydro_cfl : forall cfg mode nstep time tlim ps dt p g c,
  d_mhd cfg = false -> 0 <= d_cour cfg -> match d_eos cfg with Adiabatic ga => 1 < ga | Isothermal _ => True end ->
  In (Some dt) (new_dt cfg mode nstep time tlim ps) -> In p ps -> In g (pr_grids p) -> grid_ok g ->
  In c (g_cells g) -> 0 < c_d c ->
  let cs := sqrt (sound_sq cfg c) in cfl_holds (d_cour cfg) dt g c cs cs cs.
Proof.
  intros cfg mode nstep time tlim ps dt p g c H C GA I IP IG GO IC D cs.
  destruct (cell_speeds cfg c) as [[s1 s2] s3] eqn:E.
  assert (CS : 0 <= cs) by apply sqrt_pos.
  assert (E0 := E). unfold cell_speeds in E. rewrite H in E. cbv zeta in E. set (asq := asq_of _ _ _ _ _) in E.
  injection E as E1 E2 E3.
  assert (LE : cs <= sqrt asq).
  { unfold cs. apply sqrt_le_1_alt. unfold asq, asq_of, sound_sq. rewrite H. destruct (d_eos cfg) as [ga|c2]; [|lra].
    rewrite qsq_ekin by auto. rewrite Rminus_0_r.
    assert (X := Rmax_l ((ga - 1) * (c_E c - ekin c)) TINY_NUMBER).
    unfold Rdiv. rewrite Rmult_1_l. apply Rmult_le_compat_r; [left; apply Rinv_0_lt_compat; auto|].
    apply Rmult_le_compat_l; lra. }
  unfold Rdiv in E1, E2, E3. rewrite Rmult_1_l in E1, E2, E3.
  eapply cell_limited; eauto; unfold vel1, vel2, vel3, Rdiv; lra.
Qed.
Print Assumptions C20_hydro_cfl.

Example C20_hydro_example : exists cfg ps dt p g c,
  d_mhd cfg = false /\ d_eos cfg = Adiabatic (5/3) /\ 0 <= d_cour cfg /\
  In (Some dt) (new_dt cfg NoDiff 3 0 1 ps) /\ In p ps /\ In g (pr_grids p) /\ grid_ok g /\ In c (g_cells g) /\ 0 < c_d c /\ c_M1 c <> 0.
Proof.
  pose (c := Cell 1 2 0 0 5 0 0 0 0 0 0). pose (g := Grid 8 1 1 (1/10) 1 1 [c; c] []).
  pose (cfg := DCfg false (Adiabatic (5/3)) (4/10)). pose (p := Proc [g] 0 (Some (1/100))).
  assert (N : exists dt, In (Some dt) (new_dt cfg NoDiff 3 0 1 [p])).
  { unfold new_dt. cbn [map]. unfold limit_dt. cbn [Nat.eqb allmin fold_right].
    destruct (inv_dti _ _) as [r|]; cbn [omin p pr_dt];
      (destruct (Rlt_dec 0 1) as [_|F]; [|lra]); cbn [omin];
      match goal with |- context [Rlt_dec ?a ?b] => destruct (Rlt_dec a b) end; eexists; left; reflexivity. }
  destruct N as [dt N]. exists cfg, [p], dt, p, g, c.
  repeat split; auto; try (simpl; lra); left; reflexivity.
Qed.

(** ** C20, magnetohydrodynamics *)
Definition big_root (a n t : R) : R := 1/2 * (a + n + t + sqrt ((a + n + t) * (a + n + t) - 4 * a * n)).
Lemma disc_eq : forall a n t, (a + n + t) * (a + n + t) - 4 * a * n = (n + t - a) * (n + t - a) + 4 * a * t.
Proof. intros. ring. Qed.
Lemma disc_pos : forall a n t, 0 <= a -> 0 <= t -> 0 <= (a + n + t) * (a + n + t) - 4 * a * n.
Proof. intros a n t A T. rewrite disc_eq. assert (X := Rle_0_sqr (n + t - a)). unfold Rsqr in X. assert (Y := Rmult_le_pos a t A T). lra. Qed.
Lemma big_root_root : forall a n t, 0 <= a -> 0 <= t ->
  let x := big_root a n t in x * x - (a + n + t) * x + a * n = 0.
Proof.
  intros a n t A T x. unfold x, big_root. assert (S := sqrt_sqrt _ (disc_pos a n t A T)).
  set (q := sqrt _) in *. nra.
Qed.
Lemma big_root_max : forall a n t y, 0 <= a -> 0 <= t ->
  y * y - (a + n + t) * y + a * n <= 0 -> y <= big_root a n t.
Proof.
  intros a n t y A T H. unfold big_root.
  assert (L : 2 * y - (a + n + t) <= sqrt ((a + n + t) * (a + n + t) - 4 * a * n)).
  { destruct (Rle_lt_dec (2 * y - (a + n + t)) 0) as [N|P]; [eapply Rle_trans; [exact N|apply sqrt_pos]|].
    rewrite <- (sqrt_square (2 * y - (a + n + t))) by lra. apply sqrt_le_1_alt. nra. }
  lra.
Qed.
Lemma big_root_ge : forall a n t, 0 <= a -> 0 <= n -> 0 <= t -> a <= big_root a n t /\ n <= big_root a n t.
Proof. intros. split; apply big_root_max; auto; nra. Qed.
Lemma big_root_mono : forall a1 n1 t1 a2 n2 t2, 0 <= a1 -> 0 <= n1 -> 0 <= t1 ->
  a1 <= a2 -> n1 <= n2 -> t1 <= t2 -> big_root a1 n1 t1 <= big_root a2 n2 t2.
Proof.
  intros a1 n1 t1 a2 n2 t2 A N T LA LN LT.
  destruct (big_root_ge a1 n1 t1 A N T) as [G1 G2].
  destruct (big_root_ge a2 n2 t2) as [H1 H2]; try lra.
  assert (E := big_root_root a1 n1 t1 A T). cbv zeta in E. set (x := big_root a1 n1 t1) in *.
  destruct (Rle_lt_dec x n2) as [C|C]; [lra|].
  apply big_root_max; try lra.
  assert (K : (a2 - a1) * (n2 - x) + (n2 - n1) * (a1 - x) - (t2 - t1) * x <= 0).
  { assert (0 <= (a2 - a1) * (x - n2)) by (apply Rmult_le_pos; lra).
    assert (0 <= (n2 - n1) * (x - a1)) by (apply Rmult_le_pos; lra).
    assert (0 <= (t2 - t1) * x) by (apply Rmult_le_pos; lra). lra. }
  lra.
Qed.
Lemma cfsq_big_root : forall asq bn bt d, 0 < d ->
  cfsq asq (bn * bn + bt) bt (1 / d) = big_root asq (bn * bn / d) (bt / d).
Proof.
  intros. unfold cfsq, big_root. f_equal. f_equal; [field; lra|]. f_equal. field. lra.
Qed.
Lemma fast_is_big_root : forall asq bn bt d x, 0 < d -> 0 <= asq -> 0 <= bt ->
  is_fast_sq asq (bn * bn + bt) bn d x -> x = big_root asq (bn * bn / d) (bt / d).
Proof.
  intros asq bn bt d x D A B [R M]. assert (BD : 0 <= bt / d) by (apply Rmult_le_pos; [auto|left; apply Rinv_0_lt_compat; auto]).
  assert (E : forall y, y * y - (asq + (bn * bn + bt) / d) * y + asq * (bn * bn) / d =
                        y * y - (asq + bn * bn / d + bt / d) * y + asq * (bn * bn / d)) by (intros; field; lra).
  apply Rle_antisym.
  - apply big_root_max; auto. rewrite <- E. lra.
  - apply M. rewrite E. apply big_root_root; auto.
Qed.

(** The claim of the comment in new_dt.c, "always larger than cell-centered B", holds
    for these: *)
Definition face_dominates (bc bi : R) : Prop := 0 <= bc \/ bi = bc.
Lemma face_b_sq : forall bc bi, face_dominates bc bi -> bc * bc <= face_b bc bi * face_b bc bi.
Proof.
  intros bc bi [H| ->]; unfold face_b.
  - assert (X := Rabs_pos (bi - bc)). nra.
  - rewrite Rminus_diag_eq, Rabs_R0 by reflexivity. lra.
Qed.
(** Full statement: as in C20_hydro_cfl, with the fast speeds, for every cell.  Proved:
    for isothermal cells whose fields are non-negative (or equal to the face fields),
    and for adiabatic cells whose face fields equal the cell-centred ones.  It is false
    in general: see C20_mhd_cfl_refuted. *)
Theorem C20_mhd_cfl_partial : forall cfg mode nstep time tlim ps dt p g c x1 x2 x3,
  d_mhd cfg = true -> 0 <= d_cour cfg ->
  match d_eos cfg with
  | Isothermal cs2 => 0 <= cs2 /\ face_dominates (c_B1 c) (c_B1i c) /\ face_dominates (c_B2 c) (c_B2i c) /\ face_dominates (c_B3 c) (c_B3i c)
  | Adiabatic ga => 1 < ga /\ 0 <= sound_sq cfg c /\ c_B1i c = c_B1 c /\ c_B2i c = c_B2 c /\ c_B3i c = c_B3 c
  end ->
  In (Some dt) (new_dt cfg mode nstep time tlim ps) -> In p ps -> In g (pr_grids p) -> grid_ok g ->
  In c (g_cells g) -> 0 < c_d c ->
  let bsq := c_B1 c * c_B1 c + c_B2 c * c_B2 c + c_B3 c * c_B3 c in
  is_fast_sq (sound_sq cfg c) bsq (c_B1 c) (c_d c) x1 ->
  is_fast_sq (sound_sq cfg c) bsq (c_B2 c) (c_d c) x2 ->
  is_fast_sq (sound_sq cfg c) bsq (c_B3 c) (c_d c) x3 ->
  cfl_holds (d_cour cfg) dt g c (sqrt x1) (sqrt x2) (sqrt x3).
Proof.
  intros cfg mode nstep time tlim ps dt p g c x1 x2 x3 H C HE I IP IG GO IC D bsq F1 F2 F3.
  destruct (cell_speeds cfg c) as [[s1 s2] s3] eqn:E.
  assert (E0 := E). unfold cell_speeds in E. rewrite H in E. cbv zeta in E.
  set (b1 := face_b (c_B1 c) (c_B1i c)) in *. set (b2 := face_b (c_B2 c) (c_B2i c)) in *. set (b3 := face_b (c_B3 c) (c_B3i c)) in *.
  set (asq := asq_of _ _ _ _ _) in E.
  assert (K : 0 <= sound_sq cfg c /\ sound_sq cfg c <= asq /\ c_B1 c * c_B1 c <= b1 * b1 /\ c_B2 c * c_B2 c <= b2 * b2 /\ c_B3 c * c_B3 c <= b3 * b3).
  { destruct (d_eos cfg) as [ga|cs2] eqn:EO.
    - destruct HE as (G1 & S0 & Q1 & Q2 & Q3).
      assert (X1 : b1 = c_B1 c) by (unfold b1, face_b; rewrite Q1, Rminus_diag_eq, Rabs_R0 by reflexivity; lra).
      assert (X2 : b2 = c_B2 c) by (unfold b2, face_b; rewrite Q2, Rminus_diag_eq, Rabs_R0 by reflexivity; lra).
      assert (X3 : b3 = c_B3 c) by (unfold b3, face_b; rewrite Q3, Rminus_diag_eq, Rabs_R0 by reflexivity; lra).
      repeat split; auto; try (rewrite ?X1, ?X2, ?X3; lra).
      unfold asq, asq_of, sound_sq. rewrite EO, H, X1, X2, X3. rewrite qsq_ekin by auto.
      replace (1 / 2 * (c_B1 c * c_B1 c + c_B2 c * c_B2 c + c_B3 c * c_B3 c)) with (emag c) by (unfold emag; field).
      assert (X := Rmax_l ((ga - 1) * (c_E c - ekin c - emag c)) TINY_NUMBER).
      unfold Rdiv. rewrite Rmult_1_l. apply Rmult_le_compat_r; [left; apply Rinv_0_lt_compat; auto|].
      apply Rmult_le_compat_l; lra.
    - destruct HE as (G1 & Q1 & Q2 & Q3).
      repeat split; try (apply face_b_sq; auto).
      + unfold sound_sq. rewrite EO. auto.
      + unfold asq, asq_of, sound_sq. rewrite EO. lra. }
  destruct K as (S0 & SA & K1 & K2 & K3).
  assert (Di : 0 <= / c_d c) by (left; apply Rinv_0_lt_compat; auto).
  assert (G : forall bn bt an at_ x, is_fast_sq (sound_sq cfg c) (bn * bn + bt) bn (c_d c) x -> 0 <= bt ->
     bn * bn <= an * an -> bt <= at_ -> sqrt x <= sqrt (cfsq asq (an * an + at_) at_ (1 / c_d c))).
  { intros bn bt an at_ x F B0 L1 L2. apply sqrt_le_1_alt. rewrite (fast_is_big_root _ _ _ _ _ D S0 B0 F).
    rewrite cfsq_big_root by auto. apply big_root_mono; auto.
    - apply Rmult_le_pos; [nra|auto].
    - apply Rmult_le_pos; auto.
    - apply Rmult_le_compat_r; auto.
    - apply Rmult_le_compat_r; auto. }
  injection E as E1 E2 E3.
  assert (L1 : sqrt x1 <= sqrt (cfsq asq (b1 * b1 + b2 * b2 + b3 * b3) (b2 * b2 + b3 * b3) (1 / c_d c))).
  { rewrite (Rplus_assoc (b1 * b1)). apply (G (c_B1 c) (c_B2 c * c_B2 c + c_B3 c * c_B3 c)); [|nra|auto|lra].
    unfold bsq in F1. rewrite Rplus_assoc in F1. exact F1. }
  assert (L2 : sqrt x2 <= sqrt (cfsq asq (b1 * b1 + b2 * b2 + b3 * b3) (b1 * b1 + b3 * b3) (1 / c_d c))).
  { replace (b1 * b1 + b2 * b2 + b3 * b3) with (b2 * b2 + (b1 * b1 + b3 * b3)) by ring.
    apply (G (c_B2 c) (c_B1 c * c_B1 c + c_B3 c * c_B3 c)); [|nra|auto|lra].
    replace (c_B2 c * c_B2 c + (c_B1 c * c_B1 c + c_B3 c * c_B3 c)) with bsq by (unfold bsq; ring). exact F2. }
  assert (L3 : sqrt x3 <= sqrt (cfsq asq (b1 * b1 + b2 * b2 + b3 * b3) (b1 * b1 + b2 * b2) (1 / c_d c))).
  { replace (b1 * b1 + b2 * b2 + b3 * b3) with (b3 * b3 + (b1 * b1 + b2 * b2)) by ring.
    apply (G (c_B3 c) (c_B1 c * c_B1 c + c_B2 c * c_B2 c)); [|nra|auto|lra].
    replace (c_B3 c * c_B3 c + (c_B1 c * c_B1 c + c_B2 c * c_B2 c)) with bsq by (unfold bsq; ring). exact F3. }
  assert (V : forall m, m * (1 / c_d c) = m / c_d c) by (intros; field; lra).
  rewrite !V in E1, E2, E3.
  eapply cell_limited; eauto; try apply sqrt_pos; unfold vel1, vel2, vel3; lra.
Qed.
Print Assumptions C20_mhd_cfl_partial.

(** One process, one Grid of cells along x1. *)
Lemma one_cell_dt : forall cfg c parts N dx time tlim v, (1 < N)%nat -> 0 < dx -> 0 < v ->
  a_v1 (fold_left (part_step (Grid N 1 1 dx 1 1 [c] parts)) parts (cell_step cfg (Grid N 1 1 dx 1 1 [c] parts) acc0 c)) = v ->
  time < tlim -> d_cour cfg * dx / v <= tlim - time ->
  In (Some (d_cour cfg * dx / v)) (new_dt cfg NoDiff 0 time tlim [Proc [Grid N 1 1 dx 1 1 [c] parts] 0 None]).
Proof.
  intros cfg c parts N dx time tlim v K DX V E T L. unfold new_dt. cbn [map pr_grids pr_dti_diff pr_dt allmin fold_right].
  set (g := Grid N 1 1 dx 1 1 [c] parts) in *.
  assert (M : max_dti cfg [g] = v / dx).
  { unfold max_dti. cbn [fold_left]. unfold grid_step. cbn [g_cells g_parts g fold_left].
    change (fold_left (part_step g) parts (cell_step cfg g acc0 c)) with (fold_left (part_step g) parts (cell_step cfg g acc0 c)).
    unfold dti_step. cbn [a_dti].
    assert (Z : a_dti (fold_left (part_step g) parts (cell_step cfg g acc0 c)) = 0).
    { assert (P : forall l a, a_dti (fold_left (part_step g) l a) = a_dti a) by (induction l; intros; simpl; auto; rewrite IHl; reflexivity).
      rewrite P. unfold cell_step. destruct (cell_speeds cfg c) as [[? ?] ?]. reflexivity. }
    rewrite Z, E. change (many (g_N2 g)) with false. change (many (g_N3 g)) with false. cbn iota.
    replace (many (g_N1 g)) with true by (symmetry; apply Nat.ltb_lt; exact K).
    change (g_dx1 g) with dx. apply Rmax_right. left. apply Rdiv_lt_0_compat; auto. }
  rewrite M. left.
  assert (P : 0 < v / dx) by (apply Rdiv_lt_0_compat; auto).
  unfold inv_dti. destruct (Req_EM_T (v / dx) 0); [lra|]. cbn [omin].
  replace (d_cour cfg / (v / dx)) with (d_cour cfg * dx / v) by (field; split; lra).
  unfold limit_dt. cbn [Nat.eqb]. destruct (Rlt_dec time tlim); [|lra]. destruct (Rlt_dec (tlim - time) (d_cour cfg * dx / v)); [lra|reflexivity].
Qed.

(** The general claim fails: a cell with B2 = -1 whose left face has B2 = -2 is treated
    as unmagnetised, and dt exceeds the limit set by its fast speed by a factor sqrt 2. *)
Theorem C20_mhd_cfl_refuted : exists cfg ps dt p g c x1,
  d_mhd cfg = true /\ d_eos cfg = Isothermal 1 /\ 0 < d_cour cfg /\
  In (Some dt) (new_dt cfg NoDiff 0 0 100 ps) /\ In p ps /\ In g (pr_grids p) /\ grid_ok g /\ In c (g_cells g) /\ 0 < c_d c /\ (1 < g_N1 g)%nat /\
  is_fast_sq (sound_sq cfg c) (c_B1 c * c_B1 c + c_B2 c * c_B2 c + c_B3 c * c_B3 c) (c_B1 c) (c_d c) x1 /\
  dt * (Rabs (vel1 c) + sqrt x1) > d_cour cfg * g_dx1 g.
Proof.
  pose (c := Cell 1 0 0 0 0 0 (-1) 0 0 (-2) 0). pose (cfg := DCfg true (Isothermal 1) (1/2)).
  pose (g := Grid 8 1 1 1 1 1 [c] []). pose (p := Proc [g] 0 None).
  exists cfg, [p], (1/2 * 1 / 1), p, g, c, 2.
  split; [reflexivity|]. split; [reflexivity|]. split; [simpl; lra|]. split.
  - apply (one_cell_dt cfg c [] 8 1 0 100 1); try lra; [lia| |simpl; lra].
    cbn [fold_left]. unfold cell_step, cell_speeds. cbn [d_mhd cfg c c_d c_M1 c_M2 c_M3 c_B1 c_B2 c_B3 c_B1i c_B2i c_B3i].
    cbn [a_v1 many g_N1 Nat.ltb Nat.leb acc0 g].
    unfold asq_of. cbn [d_eos cfg]. unfold face_b, cfsq.
    replace (-2 - -1) with (-1) by lra. rewrite (Rabs_left (-1)) by lra. rewrite Rminus_0_r, Rabs_R0.
    replace (0 * (1 / 1)) with 0 by lra. rewrite Rabs_R0.
    replace (1 / 2 * _) with (1 / 2 * (1 + sqrt 1)).
    2:{ f_equal. f_equal; [lra|]. f_equal. lra. }
    rewrite sqrt_1. replace (1 / 2 * (1 + 1)) with 1 by lra. rewrite sqrt_1. rewrite Rplus_0_l. apply Rmax_right. lra.
  - split; [left; reflexivity|]. split; [left; reflexivity|]. split; [unfold grid_ok; simpl; lra|].
    split; [left; reflexivity|]. split; [simpl; lra|]. split; [simpl; lia|]. split.
    + unfold is_fast_sq, sound_sq. cbn. split; [field|]. intros y Y.
      assert (y * (y - 2) = 0) by (replace (y * (y - 2)) with (y * y - (1 + (0 * 0 + -1 * -1 + 0 * 0) / 1) * y + 1 * (0 * 0) / 1) by field; exact Y).
      apply Rmult_integral in H. lra.
    + unfold vel1. cbn. rewrite Rdiv_0_l || (unfold Rdiv; rewrite Rmult_0_l). rewrite Rabs_R0.
      assert (1 < sqrt 2). { rewrite <- sqrt_1. apply sqrt_lt_1; lra. } lra.
Qed.
Print Assumptions C20_mhd_cfl_refuted.

(** ** C21 *)
Theorem C21_dt_limits : forall cfg mode nstep time tlim ps i p dt,
  nth_error ps i = Some p -> nth_error (new_dt cfg mode nstep time tlim ps) i = Some (Some dt) ->
  (nstep <> 0%nat -> forall old, pr_dt p = Some old -> dt <= 2 * old) /\
  (time < tlim -> time + dt <= tlim).
Proof.
  intros cfg mode nstep time tlim ps i p dt IP I. unfold new_dt in I. rewrite nth_error_map, IP in I. cbn [option_map] in I. injection I as E.
  set (raw := allmin (map _ ps)) in E. set (diff := allmin (map _ ps)) in E. unfold limit_dt in E.
  set (d0 := if (nstep =? 0)%nat then raw else omin raw (match pr_dt p with Some x => Some (2 * x) | None => None end)) in E.
  set (d1 := if Rlt_dec time tlim then match d0 with Some x => if Rlt_dec (tlim - time) x then Some (tlim - time) else Some x | None => Some (tlim - time) end else d0) in E.
  assert (B : forall y, d0 = Some y -> nstep <> 0%nat -> forall old, pr_dt p = Some old -> y <= 2 * old).
  { intros y Y NZ o O. unfold d0 in Y. destruct (Nat.eqb_spec nstep 0); [contradiction|].
    rewrite O in Y. destruct raw as [r|]; simpl in Y; injection Y as <-; [apply Rmin_r|lra]. }
  assert (B0 : nstep <> 0%nat -> forall old, pr_dt p = Some old -> exists y, d0 = Some y).
  { intros NZ o O. unfold d0. destruct (Nat.eqb_spec nstep 0); [contradiction|]. rewrite O. destruct raw; simpl; eauto. }
  assert (A : forall x, d1 = Some x -> (nstep <> 0%nat -> forall old, pr_dt p = Some old -> x <= 2 * old) /\ (time < tlim -> time + x <= tlim)).
  { intros x X. unfold d1 in X. destruct (Rlt_dec time tlim).
    - split; [intros NZ o O; destruct (B0 NZ o O) as [y Y]; assert (Z := B y Y NZ o O); rewrite Y in X; destruct (Rlt_dec (tlim - time) y); injection X as <-; lra|].
      intros _. destruct d0 as [y|]; [destruct (Rlt_dec (tlim - time) y)|]; injection X as <-; lra.
    - split; [intros NZ; apply B; auto|lra]. }
  assert (F : (exists x, d1 = Some x /\ dt <= x) \/ d1 = None).
  { destruct d1 as [x|] eqn:D1; [left|right; auto]. exists x. split; auto. destruct mode.
    - injection E as <-. lra.
    - destruct diff; simpl in E; injection E as <-; [apply Rmin_l|lra].
    - destruct diff as [d|]; [|injection E as <-; lra]. destruct (Rlt_dec (109.7045774 * d) x); injection E as <-; lra. }
  destruct F as [(x & D1 & L)|D1].
  - destruct (A x D1) as [A1 A2]. split.
    + intros NZ o O. specialize (A1 NZ o O). lra.
    + intros T. specialize (A2 T). lra.
  - split.
    + intros NZ o O. destruct (B0 NZ o O) as [y Y]. unfold d1 in D1. rewrite Y in D1.
      destruct (Rlt_dec time tlim); [destruct (Rlt_dec (tlim - time) y)|]; discriminate.
    + intros T. unfold d1 in D1. destruct (Rlt_dec time tlim); [|lra].
      destruct d0 as [y|]; [destruct (Rlt_dec (tlim - time) y)|]; discriminate.
Qed.
Print Assumptions C21_dt_limits.
(** With explicit diffusion (no super time stepping) dt also respects every process's
    diffusive limit. *)
Theorem C21_diffusion_limit : forall cfg nstep time tlim ps p dt,
  In p ps -> In (Some dt) (new_dt cfg Plain nstep time tlim ps) -> 0 < pr_dti_diff p ->
  dt * pr_dti_diff p <= d_cour cfg.
Proof.
  intros cfg nstep time tlim ps p dt IP I P. apply in_new_dt in I. destruct I as (q & IQ & E).
  destruct (allmin_le (map (fun p => inv_dti (d_cour cfg) (pr_dti_diff p)) ps) (d_cour cfg / pr_dti_diff p)) as (r & ER & LR).
  { apply in_map_iff. exists p. split; auto. unfold inv_dti. destruct (Req_EM_T (pr_dti_diff p) 0); [lra|reflexivity]. }
  rewrite ER in E. unfold limit_dt in E.
  set (d1 := if Rlt_dec time tlim then _ else _) in E.
  assert (L : dt <= r). { destruct d1; simpl in E; injection E as ->; [apply Rmin_r|lra]. }
  assert (L2 : dt <= d_cour cfg / pr_dti_diff p) by lra.
  apply Rmult_le_compat_r with (r := pr_dti_diff p) in L2; [|lra].
  unfold Rdiv in L2. rewrite Rmult_assoc, Rinv_l in L2 by lra. lra.
Qed.
Print Assumptions C21_diffusion_limit.
(** All processes (hence all Grids) keep the same time step. *)
Theorem C21_same_dt_everywhere : forall cfg mode nstep time tlim ps old,
  (forall p, In p ps -> pr_dt p = old) ->
  forall x y, In x (new_dt cfg mode nstep time tlim ps) -> In y (new_dt cfg mode nstep time tlim ps) -> x = y.
Proof.
  intros. apply in_new_dt in H0, H1. destruct H0 as (p & P & ->), H1 as (q & Q & ->). rewrite (H p P), (H q Q). reflexivity.
Qed.
Print Assumptions C21_same_dt_everywhere.

(** ** C22 *)
(** Full statement: dt*|v| <= cour*dx for every particle.  Proved for velocities that are
    not negative; false for negative ones, see C22_particle_refuted. *)
Theorem C22_particle_cfl_partial : forall cfg mode nstep time tlim ps dt p g q,
  0 <= d_cour cfg -> In (Some dt) (new_dt cfg mode nstep time tlim ps) -> In p ps -> In g (pr_grids p) -> grid_ok g ->
  In q (g_parts g) ->
  ((1 < g_N1 g)%nat -> 0 <= p_v1 q -> dt * p_v1 q <= d_cour cfg * g_dx1 g) /\
  ((1 < g_N2 g)%nat -> 0 <= p_v2 q -> dt * p_v2 q <= d_cour cfg * g_dx2 g) /\
  ((1 < g_N3 g)%nat -> 0 <= p_v3 q -> dt * p_v3 q <= d_cour cfg * g_dx3 g).
Proof.
  intros cfg mode nstep time tlim ps dt p g q C I IP IG (X1 & X2 & X3) IQ.
  destruct (max_dti_bound cfg _ g IG) as (a & _ & B).
  set (a1 := fold_left (cell_step cfg g) (g_cells g) a) in *.
  destruct (parts_max g q (g_parts g) a1 IQ) as (M1 & M2 & M3).
  unfold grid_step in B. fold a1 in B. set (a2 := fold_left (part_step g) (g_parts g) a1) in *.
  destruct (dti_max g a2) as (D1 & D2 & D3).
  assert (G : forall s dx v, 0 < dx -> s <= v -> v / dx <= a_dti (dti_step g a2) -> s / dx <= max_dti cfg (pr_grids p)).
  { intros s dx v DX SV V. eapply Rle_trans; [|exact B]. eapply Rle_trans; [|exact V].
    unfold Rdiv. apply Rmult_le_compat_r; [|auto]. left. apply Rinv_0_lt_compat. auto. }
  split; [|split]; intros K P; eapply dt_times_speed; eauto.
Qed.
Print Assumptions C22_particle_cfl_partial.

Theorem C22_particle_refuted : exists cfg ps dt p g q,
  0 < d_cour cfg /\ In (Some dt) (new_dt cfg NoDiff 0 0 100 ps) /\ In p ps /\ In g (pr_grids p) /\ grid_ok g /\
  (1 < g_N1 g)%nat /\ In q (g_parts g) /\ (forall c, In c (g_cells g) -> 0 < c_d c) /\
  dt * Rabs (p_v1 q) > 4 * g_dx1 g.
Proof.
  pose (c := Cell 1 0 0 0 0 0 0 0 0 0 0). pose (cfg := DCfg false (Isothermal 1) (1/2)).
  pose (q := Part (-10) 0 0). pose (g := Grid 8 1 1 1 1 1 [c] [q]). pose (p := Proc [g] 0 None).
  exists cfg, [p], (1/2 * 1 / 1), p, g, q.
  split; [simpl; lra|]. split.
  - apply (one_cell_dt cfg c [q] 8 1 0 100 1); try lra; [lia| |simpl; lra].
    cbn [fold_left]. unfold part_step, cell_step, cell_speeds. cbn [d_mhd cfg c c_d c_M1 c_M2 c_M3].
    cbn [a_v1 many g_N1 Nat.ltb Nat.leb acc0 g p_v1 q]. unfold asq_of. cbn [d_eos cfg].
    replace (0 * (1 / 1)) with 0 by lra. rewrite Rabs_R0, sqrt_1. rewrite Rplus_0_l. rewrite (Rmax_right 0 1) by lra. apply Rmax_left. lra.
  - split; [left; reflexivity|]. split; [left; reflexivity|]. split; [unfold grid_ok; simpl; lra|].
    split; [simpl; lia|]. split; [left; reflexivity|]. split; [intros c0 [<-|[]]; simpl; lra|].
    cbn. rewrite Rabs_left by lra. lra.
Qed.
Print Assumptions C22_particle_refuted.

(** ** C16 *)
Lemma limit1_stop : forall mode nstep old raw diff time tlim, time < tlim ->
  time + limit1 mode nstep old raw diff time tlim <= tlim.
Proof.
  intros. unfold limit1, limit_dt. destruct (Rlt_dec time tlim); [|contradiction].
  set (d0 := if (nstep =? 0)%nat then _ else _).
  assert (E : exists x, match d0 with Some x => if Rlt_dec (tlim - time) x then Some (tlim - time) else Some x | None => Some (tlim - time) end = Some x /\ x <= tlim - time).
  { destruct d0 as [y|]; [destruct (Rlt_dec (tlim - time) y)|]; eexists; split; eauto; lra. }
  destruct E as (x & -> & L). destruct mode; [lra| |].
  - destruct diff as [d|]; simpl; [assert (Z := Rmin_l x d)|]; lra.
  - destruct diff as [d|]; [destruct (Rlt_dec (109.7045774 * d) x)|]; lra.
Qed.
Lemma loop_cond_true : forall e s, loop_cond e s = true ->
  m_time s < e_tlim e /\ ((e_nlim e < 0)%Z \/ (Z.of_nat (m_nstep s) < e_nlim e)%Z).
Proof.
  intros e s H. unfold loop_cond in H. apply andb_true_iff in H. destruct H as [A B].
  destruct (Rlt_dec _ _); [|discriminate]. split; auto. apply orb_true_iff in B. destruct B as [B|B]; apply Z.ltb_lt in B; auto.
Qed.
Lemma loop_cond_false : forall e s, loop_cond e s = false ->
  e_tlim e <= m_time s \/ ((0 <= e_nlim e)%Z /\ (e_nlim e <= Z.of_nat (m_nstep s))%Z).
Proof.
  intros e s H. unfold loop_cond in H. destruct (Rlt_dec _ _); [|left; lra]. simpl in H. right.
  apply orb_false_iff in H. destruct H as [A B]. apply Z.ltb_ge in A, B. auto.
Qed.
(** Every state reached by the loop of a fresh run. *)
Theorem C16_never_beyond_limits : forall e t0 k s, t0 <= e_tlim e -> loop e k (start e t0) s ->
  m_time s <= e_tlim e /\ m_nstep s = k /\ ((0 <= e_nlim e)%Z -> (Z.of_nat (m_nstep s) <= e_nlim e)%Z).
Proof.
  intros e t0 k s T L.
  assert (I : m_time s <= e_tlim e /\ (m_time s < e_tlim e -> m_time s + m_dt s <= e_tlim e) /\ m_nstep s = k /\ ((0 <= e_nlim e)%Z -> (Z.of_nat (m_nstep s) <= e_nlim e)%Z)).
  { remember (start e t0) as s0 eqn:E. induction L as [s|k s s' L IH C]; subst s.
    - unfold start. cbn [m_time m_dt m_nstep]. split; [auto|]. split; [intros; apply limit1_stop; auto|]. split; [reflexivity|lia].
    - destruct (IH eq_refl) as (I1 & I2 & I3 & I4). apply loop_cond_true in C. destruct C as [C1 C2].
      unfold cycle. cbn [m_time m_dt m_nstep]. split; [apply I2; auto|]. split; [intros; apply limit1_stop; auto|]. split; [lia|lia]. }
  intuition.
Qed.
Print Assumptions C16_never_beyond_limits.
(** When the loop ends by itself, time is exactly tlim or nstep exactly nlim. *)
Theorem C16_stops_at_limit : forall e t0 k s, t0 <= e_tlim e -> loop e k (start e t0) s -> loop_cond e s = false ->
  m_time s = e_tlim e \/ ((0 <= e_nlim e)%Z /\ Z.of_nat (m_nstep s) = e_nlim e).
Proof.
  intros e t0 k s T L C. destruct (C16_never_beyond_limits e t0 k s T L) as (A & _ & B).
  apply loop_cond_false in C. destruct C as [C|[C1 C2]]; [left; lra|right; split; auto]. specialize (B C1). lia.
Qed.
Print Assumptions C16_stops_at_limit.

Lemma limit1_ge : forall mode nstep old raw diff time tlim m, time < tlim -> 0 < m ->
  m <= raw -> (forall d, diff = Some d -> m <= d) -> (nstep <> 0%nat -> m <= old) ->
  m <= limit1 mode nstep old raw diff time tlim \/ time + limit1 mode nstep old raw diff time tlim = tlim.
Proof.
  intros mode nstep old raw diff time tlim m T M R D O. unfold limit1, limit_dt. destruct (Rlt_dec time tlim); [|contradiction].
  set (d0 := if (nstep =? 0)%nat then Some raw else omin (Some raw) (Some (2 * old))).
  assert (E : exists y, d0 = Some y /\ m <= y).
  { unfold d0. destruct (Nat.eqb_spec nstep 0); [eauto|]. eexists. split; [reflexivity|]. apply Rmin_glb; auto. specialize (O n). lra. }
  destruct E as (y & -> & Y).
  assert (E : exists x, (if Rlt_dec (tlim - time) y then Some (tlim - time) else Some y) = Some x /\ (m <= x \/ time + x = tlim)).
  { destruct (Rlt_dec (tlim - time) y); eexists; split; eauto. right. lra. }
  destruct E as (x & -> & X). destruct mode; [auto| |].
  - destruct diff as [d|]; simpl; auto. specialize (D d eq_refl). unfold Rmin. destruct (Rle_dec x d); auto.
  - destruct diff as [d|]; auto. specialize (D d eq_refl). destruct (Rlt_dec (109.7045774 * d) x); auto. left. lra.
Qed.
(** The loop ends: if the CFL and diffusive limits stay above some d > 0, a fresh run makes
    at most (tlim - t0)/min(d, tlim - t0) + 1 cycles. *)
Theorem C16_terminates : forall e t0 d k s, t0 < e_tlim e -> 0 < d ->
  (forall n, d <= e_raw e n) -> (forall n x, e_diff e n = Some x -> d <= x) ->
  loop e k (start e t0) s -> (INR k - 1) * Rmin d (e_tlim e - t0) <= e_tlim e - t0.
Proof.
  intros e t0 d k s T D R F L. set (m := Rmin d (e_tlim e - t0)).
  assert (MP : 0 < m) by (apply Rmin_glb_lt; lra).
  assert (ML : m <= d) by apply Rmin_l.
  assert (MT : m <= e_tlim e - t0) by apply Rmin_r.
  assert (I : (m_time s = e_tlim e /\ (INR k - 1) * m <= e_tlim e - t0) \/
     (m_time s < e_tlim e /\ t0 + INR k * m <= m_time s /\ (m <= m_dt s \/ m_time s + m_dt s = e_tlim e))).
  { remember (start e t0) as s0 eqn:E. induction L as [s|k s s' L IH C]; subst s.
    - right. unfold start. cbn [m_time m_dt m_nstep]. simpl (INR 0). split; [auto|]. split; [lra|].
      apply limit1_ge; auto; [specialize (R 0%nat); lra|intros x X; specialize (F 0%nat x X); lra|congruence].
    - assert (NB := C16_never_beyond_limits e t0 (S k) (cycle e s') (Rlt_le _ _ T) (loopS e k _ _ L C)). destruct NB as (NB & _ & _).
      apply loop_cond_true in C. destruct C as [C _]. destruct (IH eq_refl) as [[I1 I2]|(I1 & I2 & I3)]; [lra|].
      rewrite S_INR. unfold cycle in *. cbn [m_time m_dt m_nstep] in *.
      destruct (Req_dec (m_time s' + m_dt s') (e_tlim e)) as [Q|Q].
      + left. split; auto. lra.
      + right. split; [lra|]. destruct I3 as [I3|I3]; [|contradiction]. split; [lra|].
        apply limit1_ge; auto; [lra|specialize (R (S (m_nstep s'))); lra|intros x X; specialize (F _ x X); lra]. }
  destruct I as [[_ I]|(I1 & I2 & _)]; [auto|]. lra.
Qed.
Print Assumptions C16_terminates.
Example C16_example : exists e t0 s, loop e 2 (start e t0) s /\ loop_cond e s = false /\ m_time s = e_tlim e /\ t0 < e_tlim e.
Proof.
  pose (e := Me NoDiff (fun _ => 1) (fun _ => None) (3/2) (-1)). pose (s0 := Ms 0 0 1). pose (s1 := Ms 1 1 (1/2)).
  assert (E0 : start e 0 = s0).
  { unfold start, s0. f_equal. unfold limit1, limit_dt. cbn. destruct (Rlt_dec 0 (3/2)); [|lra]. destruct (Rlt_dec (3/2 - 0) 1); [lra|reflexivity]. }
  assert (E1 : cycle e s0 = s1).
  { unfold cycle, s0, s1. cbn [m_time m_dt m_nstep]. f_equal; [lra|]. unfold limit1, limit_dt. cbn.
    destruct (Rlt_dec (0 + 1) (3/2)); [|lra]. rewrite Rmin_left by lra. destruct (Rlt_dec (3/2 - (0 + 1)) 1); lra. }
  assert (C : forall t n d, t < 3/2 -> loop_cond e (Ms t n d) = true).
  { intros. unfold loop_cond. cbn [m_time e_tlim e]. destruct (Rlt_dec t (3/2)); [reflexivity|contradiction]. }
  exists e, 0, (cycle e s1). split; [|split; [|split]].
  - apply loopS; [|apply C; lra]. rewrite E0, <- E1. apply loopS; [apply loop0|apply C; lra].
  - unfold loop_cond, cycle, s1. cbn [m_time m_dt e_tlim e]. destruct (Rlt_dec _ _); [lra|reflexivity].
  - unfold cycle, s1. cbn. lra.
  - cbn. lra.
Qed.
(** A restarted run keeps the dt of the restart file for its first cycle (new_dt is not
    called before the loop), so it can step over a tlim that was lowered. *)
Theorem C16_restart_overshoot_refuted : exists e s s', m_time s < e_tlim e /\ (forall n, 0 < e_raw e n) /\
  loop e 1 s s' /\ e_tlim e < m_time s'.
Proof.
  pose (e := Me NoDiff (fun _ => 1) (fun _ => None) 1 (-1)). pose (s := Ms (3/4) 5 (1/2)).
  exists e, s, (cycle e s). split; [cbn; lra|]. split; [intros; cbn; lra|]. split.
  - apply loopS; [apply loop0|]. unfold loop_cond. cbn [m_time e_tlim e s]. destruct (Rlt_dec (3/4) 1); [reflexivity|lra].
  - cbn. lra.
Qed.
Print Assumptions C16_restart_overshoot_refuted.
