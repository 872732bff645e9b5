(** * C101: the isothermal exact Riemann solver *)
From Coq Require Import Reals List Bool Lra Lia Psatz.
From Verif Require Import GasModel ExactModel ExactSpec ExactFacts ExactRoot ExactSample.
Import ListNotations.
Open Scope R_scope.

(** The fans of the specification satisfy the equations of isothermal gas: with
    q(x/t), the equations q_t + f(q)_x = 0 are  - xi q' + f(q)' = 0. *)
Theorem C101_fan_is_a_solution : forall c d0 u0 xi, 0 < c -> 0 < d0 ->
  exists d u : R -> R,
    (forall y, 0 < d y /\ u y - c = y /\ u y + c * ln (d y) = u0 + c * ln d0) /\
    exists d' m' p',
      derivable_pt_lim d xi d' /\
      derivable_pt_lim (fun y => d y * u y) xi m' /\
      derivable_pt_lim (fun y => d y * u y * u y + c * c * d y) xi p' /\
      - xi * d' + m' = 0 /\ - xi * m' + p' = 0.
Proof.
  intros c d0 u0 xi Hc Hd.
  exists (fun y => d0 * exp ((u0 - c - y) / c)), (fun y => y + c). split.
  - intro y. pose proof (exp_pos ((u0 - c - y) / c)) as X. split; [nra|]. split; [ring|].
    rewrite ln_mult by assumption. rewrite ln_exp. field. lra.
  - assert (De : derivable_pt_lim (fun y => d0 * exp ((u0 - c - y) / c)) xi (d0 * (exp ((u0 - c - xi) / c) * (- / c)))).
    { apply (derivable_pt_lim_scal (fun y => exp ((u0 - c - y) / c))).
      apply (derivable_pt_lim_comp (fun y => (u0 - c - y) / c) exp).
      - assert (L : derivable_pt_lim (fun y => (u0 - c) / c + (- / c) * y) xi (0 + (- / c) * 1)).
        { apply (derivable_pt_lim_plus (fun _ => (u0 - c) / c)); [apply derivable_pt_lim_const|].
          apply (derivable_pt_lim_scal (fun y => y)). apply derivable_pt_lim_id. }
        replace (0 + - / c * 1) with (- / c) in L by ring.
        intros eps He. destruct (L eps He) as (del & H). exists del. intros h Hh Hh'. specialize (H h Hh Hh').
        replace ((u0 - c - (xi + h)) / c - (u0 - c - xi) / c) with
          ((u0 - c) / c + - / c * (xi + h) - ((u0 - c) / c + - / c * xi)) by (field; lra). exact H.
      - apply derivable_pt_lim_exp. }
    assert (Du : derivable_pt_lim (fun y => y + c) xi (1 + 0)).
    { apply (derivable_pt_lim_plus (fun y => y) (fun _ => c)); [apply derivable_pt_lim_id | apply derivable_pt_lim_const]. }
    pose proof (derivable_pt_lim_mult _ _ _ _ _ De Du) as Dm.
    pose proof (derivable_pt_lim_mult _ _ _ _ _ Dm Du) as Dmu.
    pose proof (derivable_pt_lim_scal _ (c * c) _ _ De) as Dp.
    pose proof (derivable_pt_lim_plus _ _ _ _ _ Dmu Dp) as Dpp.
    do 3 eexists. split; [exact De|]. split; [exact Dm|]. split; [exact Dpp|].
    unfold mult_fct. split; field; lra.
Qed.
Print Assumptions C101_fan_is_a_solution.

(** The Riemann problem has exactly one state between its waves. *)
Theorem C101_between : forall c Wl Wr, 0 < c -> 0 < wd Wl -> 0 < wd Wr ->
  exists d u, between c Wl Wr d u /\ forall d' u', between c Wl Wr d' u' -> d' = d /\ u' = u.
Proof.
  intros c Wl Wr Hc Hl Hr.
  assert (E : exists d u, between c Wl Wr d u).
  { destruct (Rle_dec (dmax Wl Wr) (zmid c Wl Wr * zmid c Wl Wr)) as [A|A].
    { eexists. eexists. apply two_shocks; assumption. }
    destruct (Rle_dec (draref c Wl Wr) (dmin Wl Wr)) as [B|B].
    { eexists. eexists. apply two_raref; assumption. }
    destruct (gap_zero c Hc Wl Wr Hl Hr ltac:(lra) ltac:(lra)) as (r & R1 & R2).
    pose proof (dmin_pos Wl Wr Hl Hr).
    exists r, (wvx Wl - phi c r (wd Wl)). apply between_phi; try assumption.
    split; [lra|]. split; [reflexivity|]. apply (gap_between c Wl Wr Hl Hr); [lra|exact R2]. }
  destruct E as (d & u & E). exists d, u. split; [exact E|]. intros d' u' E'.
  exact (between_unique c Hc Wl Wr Hl Hr _ _ _ _ E' E).
Qed.
Print Assumptions C101_between.

Section Unique.
Variables c dl ul ds us : R.
Hypothesis Hc : 0 < c.
Hypothesis Hl : 0 < dl.
Hypothesis Hd : 0 < ds.

Lemma raref_left_v : raref_left c dl ul ds us -> ul <= us.
Proof.
  intros [A B]. destruct (Req_dec ds dl) as [E|E]; [rewrite E in B; lra|].
  pose proof (ln_lt ds dl Hd ltac:(lra)). nra.
Qed.
Lemma ln_inj a b : 0 < a -> 0 < b -> ln a = ln b -> a = b.
Proof. intros. now apply ln_inv. Qed.

Lemma left_fun d u d' u' : left_of c dl ul ds us 0 d u -> left_of c dl ul ds us 0 d' u' ->
  d * u = d' * u' /\ d * u * u + c * c * d = d' * u' * u' + c * c * d'.
Proof.
  assert (SS : forall s s', shock_left c dl ul ds us s -> shock_left c dl ul ds us s' -> s = s').
  { intros s s' A B. apply shock_left_psi in A; [|assumption|assumption|assumption]. apply shock_left_psi in B; [|assumption|assumption|assumption].
    destruct A as (_ & _ & ->), B as (_ & _ & ->). reflexivity. }
  assert (SR : forall s, shock_left c dl ul ds us s -> raref_left c dl ul ds us -> False).
  { intros s (A & _) (B & _). lra. }
  assert (SZ : shock_left c dl ul ds us 0 -> dl * ul = ds * us /\ dl * ul * ul + c * c * dl = ds * us * us + c * c * ds).
  { intros (_ & (A & B) & _). split; lra. }
  intros A B. destruct A as [s S1 S2|s S1 S2|R1 R2|d u R1 R2 R3 R4 R5|R1 R2];
  destruct B as [s' S1' S2'|s' S1' S2'|R1' R2'|d' u' R1' R2' R3' R4' R5'|R1' R2'];
  try (exfalso; eapply SR; eassumption); try (split; reflexivity).
  - pose proof (SS s s' S1 S1'). subst s'. assert (s = 0) by lra. subst s. now apply SZ.
  - pose proof (SS s s' S1 S1'). subst s'. assert (s = 0) by lra. subst s. destruct (SZ S1). split; lra.
  - assert (u' = ul) by lra. assert (ln d' = ln dl) by nra. assert (d' = dl) by (now apply ln_inj). subst. split; reflexivity.
  - pose proof (raref_left_v R1). assert (us = ul) by lra. destruct R1 as [_ R1].
    assert (ln ds = ln dl) by nra. assert (ds = dl) by (now apply ln_inj). subst. split; congruence.
  - assert (u = ul) by lra. assert (ln d = ln dl) by nra. assert (d = dl) by (now apply ln_inj). subst. split; reflexivity.
  - assert (u = u') by lra. assert (ln d = ln d') by nra. assert (d = d') by (now apply ln_inj). subst. split; reflexivity.
  - assert (u = us) by lra. destruct R1 as [_ R1]. assert (ln d = ln ds) by nra. assert (d = ds) by (now apply ln_inj). subst. split; reflexivity.
  - pose proof (raref_left_v R1). assert (us = ul) by lra. destruct R1 as [_ R1].
    assert (ln ds = ln dl) by nra. assert (ds = dl) by (now apply ln_inj). subst. split; congruence.
  - assert (u' = us) by lra. destruct R1 as [_ R1]. assert (ln d' = ln ds) by nra. assert (d' = ds) by (now apply ln_inj). subst. split; reflexivity.
Qed.

Lemma left_contact d u : us <= 0 -> left_of c dl ul ds us 0 d u -> d = ds /\ u = us.
Proof.
  intros Z A. destruct A as [s S1 S2|s S1 S2|R1 R2|d u R1 R2 R3 R4 R5|R1 R2]; auto.
  - exfalso. apply shock_left_psi in S1; [|assumption|assumption|assumption]. destruct S1 as (_ & A & ->).
    unfold psi in A. pose proof (sqrt_lt_R0 _ Hl). pose proof (sqrt_lt_R0 _ Hd).
    assert (0 < sqrt dl / sqrt ds) by (apply Rdiv_lt_0_compat; lra). nra.
  - exfalso. pose proof (raref_left_v R1). lra.
  - exfalso. lra.
Qed.

Lemma left_right_mirror xi d u : right_of c dl ul ds us xi d u -> left_of c dl (- ul) ds (- us) (- xi) d (- u).
Proof.
  assert (RM : raref_right c dl ul ds us -> raref_left c dl (- ul) ds (- us)).
  { intros [A B]. split; lra. }
  intros [s S1 S2|s S1 S2|R1 R2|d' u' R1 R2 R3 R4 R5|R1 R2].
  - apply left_ahead with (- s); [now apply shock_mirror | lra].
  - apply left_behind with (- s); [now apply shock_mirror | lra].
  - apply left_head; [auto|lra].
  - apply left_fan; [auto|lra|lra|lra|lra].
  - apply left_tail; [auto|lra].
Qed.
End Unique.

(** The flux of the exact solution through x = 0 is a function of the two states. *)
Theorem C101_one_flux : forall c Wl Wr F F', 0 < c -> 0 < wd Wl -> 0 < wd Wr ->
  length (wr Wl) = length (wr Wr) ->
  exact_flux c Wl Wr F -> exact_flux c Wl Wr F' -> F = F'.
Proof.
  intros c Wl Wr F F' Hc Hl Hr Len (ds & us & d & u & B & H) (ds' & us' & d' & u' & B' & H').
  destruct (between_unique c Hc Wl Wr Hl Hr _ _ _ _ B' B) as [-> ->]. clear B'.
  assert (Hd : 0 < ds) by apply B.
  assert (RF : forall a b a' b', right_of c (wd Wr) (wvx Wr) ds us 0 a b -> right_of c (wd Wr) (wvx Wr) ds us 0 a' b' ->
     a * b = a' * b' /\ a * b * b + c * c * a = a' * b' * b' + c * c * a').
  { intros a b a' b' X Y. apply left_right_mirror in X. apply left_right_mirror in Y. rewrite Ropp_0 in X, Y.
    destruct (left_fun c (wd Wr) (- wvx Wr) ds (- us) Hc Hr Hd _ _ _ _ X Y) as [P Q]. split; lra. }
  assert (GF : forall a b a' b' W, a * b = a' * b' -> a * b * b + c * c * a = a' * b' * b' + c * c * a' -> gas_flux c a b W = gas_flux c a' b' W).
  { intros a b a' b' W P Q. unfold gas_flux. rewrite Q, P. reflexivity. }
  assert (LC : forall a b, us <= 0 -> left_of c (wd Wl) (wvx Wl) ds us 0 a b -> a = ds /\ b = us).
  { intros. now apply (left_contact c (wd Wl) (wvx Wl)). }
  assert (RC : forall a b, 0 <= us -> right_of c (wd Wr) (wvx Wr) ds us 0 a b -> a = ds /\ b = us).
  { intros a b X Y. apply left_right_mirror in Y. rewrite Ropp_0 in Y.
    destruct (left_contact c (wd Wr) (- wvx Wr) ds (- us) Hc Hr Hd a (- b) ltac:(lra) Y). split; lra. }
  assert (ZF : forall W W', us = 0 -> length (wr W) = length (wr W') -> gas_flux c ds us W = gas_flux c ds us W').
  { intros W W' -> L. unfold gas_flux. apply cons1_eq; try ring.
    rewrite (map_mul (wr W) (ds * 0) 0), (map_mul (wr W') (ds * 0) 0) by ring.
    revert L. generalize (wr W) (wr W'). induction l as [|x l IH]; intros [|y l'] L; try discriminate; [reflexivity|].
    cbn [map]. f_equal; [ring|]. apply IH. now injection L. }
  destruct H as [(U & A & ->)|(U & A & ->)], H' as [(U' & A' & ->)|(U' & A' & ->)].
  - destruct (left_fun c (wd Wl) (wvx Wl) ds us Hc Hl Hd _ _ _ _ A A'). now apply GF.
  - assert (Z : us = 0) by lra. destruct (LC _ _ ltac:(lra) A) as [-> ->]. destruct (RC _ _ ltac:(lra) A') as [-> ->].
    now apply ZF.
  - assert (Z : us = 0) by lra. destruct (LC _ _ ltac:(lra) A') as [-> ->]. destruct (RC _ _ ltac:(lra) A) as [-> ->].
    now apply ZF.
  - destruct (RF _ _ _ _ A A'). now apply GF.
Qed.
Print Assumptions C101_one_flux.

Lemma good_cases c Wl Wr : 0 < c -> 0 < wd Wl -> 0 < wd Wr -> forall d u, between c Wl Wr d u ->
  ((wd Wl <= d /\ wd Wr <= d) \/ (d <= wd Wl /\ d <= wd Wr) \/
   exists b, rtsafe c (MIN (wd Wl) (wd Wr)) (MAX (wd Wl) (wd Wr)) (wvx Wl) (wvx Wr)
                      (MIN (wd Wl) (wd Wr)) (MAX (wd Wl) (wd Wr)) = Some (d, b)) ->
  exists s, intermediate c Wl Wr (sqrt (wd Wl)) (sqrt (wd Wr)) = Some s /\ good c Wl Wr s /\ sdm s = d /\ svx s = u.
Proof.
  intros Hc Hl Hr d u B H.
  destruct (intermediate_ok c Hc Wl Wr Hl Hr) as (I1 & I2 & I3).
  pose proof (min_max Wl Wr) as MM. pose proof (dmin_pos Wl Wr Hl Hr) as DP.
  destruct (proj1 (between_phi c Hc Wl Wr Hl Hr d u) B) as (D0 & D1 & D2).
  destruct (Rle_dec (dmax Wl Wr) (zmid c Wl Wr * zmid c Wl Wr)) as [A|A].
  { specialize (I1 A). eexists. split; [exact I1|]. cbn [sdm svx].
    pose proof (two_shocks c Hc Wl Wr Hl Hr A) as T.
    destruct (between_unique c Hc Wl Wr Hl Hr _ _ _ _ T B) as [E1 E2]. split; [|split; assumption].
    constructor; cbn [lraref rraref sdm svx]; try discriminate; [exact T| |]; intros _;
    destruct MM as [(_ & E & ?)|(_ & E & ?)]; rewrite E in A; lra. }
  assert (Z : zmid c Wl Wr * zmid c Wl Wr < dmax Wl Wr) by lra.
  pose proof (not_two_shocks c Hc Wl Wr Hl Hr d D0 D2 Z) as DM.
  destruct (Rle_dec (draref c Wl Wr) (dmin Wl Wr)) as [A'|A'].
  { specialize (I2 Z A'). eexists. split; [exact I2|]. cbn [sdm svx].
    pose proof (two_raref c Hc Wl Wr Hl Hr A') as T.
    destruct (between_unique c Hc Wl Wr Hl Hr _ _ _ _ T B) as [E1 E2]. split; [|split; assumption].
    constructor; cbn [lraref rraref sdm svx]; try discriminate; [exact T| |]; intros _;
    destruct MM as [(E & _ & ?)|(E & _ & ?)]; rewrite E in A'; lra. }
  assert (M : mixed c Wl Wr) by (split; lra).
  pose proof (not_two_raref c Hc Wl Wr Hl Hr d D0 D2 ltac:(lra)) as Dm.
  destruct (I3 M) as (r & b & R1 & R2).
  destruct H as [H|[H|(b' & H)]].
  - exfalso. destruct MM as [(E & E' & ?)|(E & E' & ?)]; rewrite E' in DM; lra.
  - exfalso. destruct MM as [(E & E' & ?)|(E & E' & ?)]; rewrite E in Dm; lra.
  - change (MIN (wd Wl) (wd Wr)) with (dmin Wl Wr) in H. change (MAX (wd Wl) (wd Wr)) with (dmax Wl Wr) in H.
    rewrite H in R1. injection R1 as <- <-.
    destruct (Rlt_dec (dmin Wl Wr) d); [|contradiction].
    eexists. split; [exact R2|].
    destruct (Rlt_dec (wd Wr) (wd Wl)) as [L|L]; cbn [sdm svx].
    + assert (Hu : u = wvx Wl - chi c d (wd Wl)).
      { rewrite <- phi_le; [exact D1|]. destruct MM as [(E & E' & ?)|(E & E' & ?)]; rewrite E' in DM; lra. }
      split; [|split; [reflexivity|lra]].
      constructor; cbn [lraref rraref sdm svx]; try discriminate; [rewrite <- Hu; exact B| |]; intros _;
      destruct MM as [(E & E' & ?)|(E & E' & ?)]; rewrite E, E' in *; lra.
    + assert (Hu : u = wvx Wr + chi c d (wd Wr)).
      { rewrite <- phi_le; [lra|]. destruct MM as [(E & E' & ?)|(E & E' & ?)]; rewrite E' in DM; lra. }
      split; [|split; [reflexivity|lra]].
      constructor; cbn [lraref rraref sdm svx]; try discriminate; [rewrite <- Hu; exact B| |]; intros _;
      destruct MM as [(E & E' & ?)|(E & E' & ?)]; rewrite E, E' in *; lra.
Qed.

(** The solver returns the flux of the exact solution through x = 0: always if
    the state between the waves is denser than both input states or thinner than
    both; in the other case if the iteration found its density. *)
Theorem C101_exact : forall c Ul Ur Wl Wr, 0 < c -> 0 < wd Wl -> 0 < wd Wr ->
  conserved Wl Ul -> conserved Wr Ur ->
  (forall d u, between c Wl Wr d u ->
     (wd Wl <= d /\ wd Wr <= d) \/ (d <= wd Wl /\ d <= wd Wr) \/
     exists b, rtsafe c (MIN (wd Wl) (wd Wr)) (MAX (wd Wl) (wd Wr)) (wvx Wl) (wvx Wr)
                        (MIN (wd Wl) (wd Wr)) (MAX (wd Wl) (wd Wr)) = Some (d, b)) ->
  exists F, exact_fluxes c Ul Ur Wl Wr = Flux F /\ exact_flux c Wl Wr F.
Proof.
  intros c Ul Ur Wl Wr Hc Hl Hr Cl Cr H.
  destruct (C101_between c Wl Wr Hc Hl Hr) as (d & u & B & _).
  destruct (good_cases c Wl Wr Hc Hl Hr d u B (H d u B)) as (s & E & G & _).
  exact (sample c Hc Wl Wr Ul Ur Hl Hr Cl Cr s E G).
Qed.
Print Assumptions C101_exact.

(** The state between the waves that the solver finds.  It is the exact one if it
    is denser than both input states or thinner than both, and the kinds of the
    waves are right.  Otherwise the iteration returns a density between the two,
    and unless it used up its 100 steps it is within 2^-51 (max density / min
    density) of the exact one. *)
Theorem C101_between_accuracy : forall c Wl Wr d u, 0 < c -> 0 < wd Wl -> 0 < wd Wr ->
  between c Wl Wr d u ->
  let lo := Rmin (wd Wl) (wd Wr) in
  let hi := Rmax (wd Wl) (wd Wr) in
  exists s, intermediate c Wl Wr (sqrt (wd Wl)) (sqrt (wd Wr)) = Some s /\ 0 < sdm s /\
    (hi <= d -> sdm s = d /\ svx s = u) /\
    (d <= lo -> sdm s = d /\ svx s = u) /\
    (hi < d -> lraref s = false /\ rraref s = false) /\
    (d < lo -> lraref s = true /\ rraref s = true) /\
    (lo < d < hi ->
       exists r b, rtsafe c lo hi (wvx Wl) (wvx Wr) lo hi = Some (r, b) /\ lo <= r <= hi /\
         (b = true -> Rabs (r - d) <= / 2 ^ 51 * (hi / lo)) /\
         (lo < r -> sdm s = r /\ Rabs (svx s - u) <= c * Rabs (r - d) / lo /\
            (lraref s = true <-> wd Wr < wd Wl) /\ (rraref s = true <-> wd Wl < wd Wr))).
Proof.
  intros c Wl Wr d u Hc Hl Hr B lo hi.
  assert (Elo : lo = dmin Wl Wr).
  { unfold lo, dmin, MIN, Rmin. destruct (Rle_dec (wd Wl) (wd Wr)), (Rlt_dec (wd Wl) (wd Wr)); lra. }
  assert (Ehi : hi = dmax Wl Wr).
  { unfold hi, dmax, MAX, Rmax. destruct (Rle_dec (wd Wl) (wd Wr)), (Rlt_dec (wd Wr) (wd Wl)); lra. }
  rewrite Elo, Ehi. clear lo hi Elo Ehi.
  destruct (intermediate_ok c Hc Wl Wr Hl Hr) as (I1 & I2 & I3).
  pose proof (min_max Wl Wr) as MM. pose proof (dmin_pos Wl Wr Hl Hr) as DP. pose proof (dmin_max Wl Wr) as DQ.
  destruct (proj1 (between_phi c Hc Wl Wr Hl Hr d u) B) as (D0 & D1 & D2).
  destruct (Rle_dec (dmax Wl Wr) (zmid c Wl Wr * zmid c Wl Wr)) as [A|A].
  { specialize (I1 A). eexists. split; [exact I1|]. cbn [sdm svx lraref rraref].
    pose proof (two_shocks c Hc Wl Wr Hl Hr A) as T. split; [apply T|].
    destruct (between_unique c Hc Wl Wr Hl Hr _ _ _ _ T B) as [E1 E2].
    split; [auto|]. split; [auto|]. split; [auto|]. split; intro; exfalso; lra. }
  assert (Z : zmid c Wl Wr * zmid c Wl Wr < dmax Wl Wr) by lra.
  pose proof (not_two_shocks c Hc Wl Wr Hl Hr d D0 D2 Z) as DM.
  destruct (Rle_dec (draref c Wl Wr) (dmin Wl Wr)) as [A'|A'].
  { specialize (I2 Z A'). eexists. split; [exact I2|]. cbn [sdm svx lraref rraref].
    pose proof (two_raref c Hc Wl Wr Hl Hr A') as T. split; [apply T|].
    destruct (between_unique c Hc Wl Wr Hl Hr _ _ _ _ T B) as [E1 E2].
    split; [auto|]. split; [auto|]. split; [intro; exfalso; lra|]. split; [auto|].
    intros (F & _). exfalso. lra. }
  assert (M : mixed c Wl Wr) by (split; lra).
  pose proof (not_two_raref c Hc Wl Wr Hl Hr d D0 D2 ltac:(lra)) as Dm.
  destruct (I3 M) as (r & b & R1 & R2).
  assert (Zd : gap c Wl Wr d = 0) by (apply (gap_between c Wl Wr Hl Hr); [lra|exact D2]).
  destruct (rtsafe_ok c Hc Wl Wr Hl Hr d M ltac:(lra) Zd) as (r' & b' & R3 & R4 & R5).
  rewrite R1 in R3. injection R3 as <- <-.
  assert (LN : forall k, 0 < k -> dmin Wl Wr < r -> Rabs (chi c r k - chi c d k) <= c * Rabs (r - d) / dmin Wl Wr).
  { intros k Hk Hrr. unfold chi. replace (c * (ln r - ln k) - c * (ln d - ln k)) with (c * (ln r - ln d)) by ring.
    rewrite Rabs_mult, (Rabs_right c) by lra. unfold Rdiv. rewrite Rmult_assoc. apply Rmult_le_compat_l; [lra|].
    assert (LB : forall x y, dmin Wl Wr <= x -> x <= y -> ln y - ln x <= (y - x) * / dmin Wl Wr).
    { intros x y X1 X2. rewrite <- ln_quot by lra.
      assert (P : 0 < y / x) by (apply Rdiv_lt_0_compat; lra).
      pose proof (exp_ineq1_le (ln (y / x))) as Q. rewrite exp_ln in Q by exact P.
      apply Rle_trans with (y / x - 1); [lra|].
      replace (y / x - 1) with ((y - x) * / x) by (field; lra).
      apply Rmult_le_compat_l; [lra|]. apply Rinv_le_contravar; lra. }
    destruct (Rle_dec r d) as [T|T].
    - rewrite (Rabs_left1 (r - d)) by lra. pose proof (LB r d ltac:(lra) T) as Q.
      assert (ln r <= ln d). { destruct (Req_dec r d) as [->|]; [lra|]. left. apply ln_increasing; lra. }
      rewrite (Rabs_left1 (ln r - ln d)) by lra. lra.
    - rewrite (Rabs_right (r - d)) by lra. pose proof (LB d r ltac:(lra) ltac:(lra)) as Q.
      assert (ln d < ln r) by (apply ln_increasing; lra).
      rewrite (Rabs_right (ln r - ln d)) by lra. lra. }
  assert (XA : xacc = / 2 ^ 51) by (unfold xacc, DBL_EPSILON; cbn [pow]; field).
  eexists. split; [exact R2|]. split.
  { destruct (Rlt_dec (dmin Wl Wr) r); [destruct (Rlt_dec (wd Wr) (wd Wl)); cbn [sdm]; lra|].
    cbn [sdm]. now apply draref_pos. }
  split; [intro; exfalso; lra|]. split; [intro; exfalso; lra|]. split; [intro; exfalso; lra|].
  split; [intro; exfalso; lra|]. intros _. exists r, b. split; [exact R1|]. split; [exact R4|].
  split; [rewrite <- XA; exact R5|]. intro L.
  destruct (Rlt_dec (dmin Wl Wr) r); [|contradiction].
  destruct (Rlt_dec (wd Wr) (wd Wl)) as [Q|Q]; cbn [sdm svx lraref rraref].
  - split; [reflexivity|]. split.
    + assert (Hu : u = wvx Wl - chi c d (wd Wl)).
      { rewrite <- phi_le; [exact D1|]. destruct MM as [(E & E' & ?)|(E & E' & ?)]; rewrite E' in DM; lra. }
      rewrite Hu. replace (wvx Wl - chi c r (wd Wl) - (wvx Wl - chi c d (wd Wl))) with (- (chi c r (wd Wl) - chi c d (wd Wl))) by ring.
      rewrite Rabs_Ropp. now apply LN.
    + split; split; intro; try lra; try discriminate; reflexivity.
  - assert (Q' : wd Wl < wd Wr).
    { destruct MM as [(E & E' & ?)|(E & E' & ?)]; rewrite E, E' in *; lra. }
    split; [reflexivity|]. split.
    + assert (Hu : u = wvx Wr + chi c d (wd Wr)).
      { rewrite <- phi_le; [lra|]. destruct MM as [(E & E' & ?)|(E & E' & ?)]; rewrite E' in DM; lra. }
      rewrite Hu. replace (wvx Wr + chi c r (wd Wr) - (wvx Wr + chi c d (wd Wr))) with (chi c r (wd Wr) - chi c d (wd Wr)) by ring.
      now apply LN.
    + split; split; intro; try lra; try discriminate; reflexivity.
Qed.
Print Assumptions C101_between_accuracy.

(** The solver returns a flux whenever the densities are positive, and stops the
    program otherwise. *)
Theorem C101_completes : forall c Ul Ur Wl Wr, 0 < c -> conserved Wl Ul -> conserved Wr Ur ->
  ((exists F, exact_fluxes c Ul Ur Wl Wr = Flux F) <-> 0 < wd Wl /\ 0 < wd Wr) /\
  (exact_fluxes c Ul Ur Wl Wr = Stops <-> ~ (0 < wd Wl /\ 0 < wd Wr)).
Proof.
  intros c Ul Ur Wl Wr Hc Cl Cr.
  assert (Y : 0 < wd Wl /\ 0 < wd Wr -> exists F, exact_fluxes c Ul Ur Wl Wr = Flux F).
  { intros [Hl Hr]. destruct (C101_between c Wl Wr Hc Hl Hr) as (d & u & B & _).
    destruct (C101_between_accuracy c Wl Wr d u Hc Hl Hr B) as (s & E & P & _).
    exact (runs c Hc Wl Wr Ul Ur Hl Hr Cl Cr s E P). }
  assert (N : ~ (0 < wd Wl /\ 0 < wd Wr) -> exact_fluxes c Ul Ur Wl Wr = Stops).
  { intro H. unfold exact_fluxes. destruct Cl as (C1 & _), Cr as (C2 & _). rewrite C1, C2.
    destruct (Rlt_dec 0 (wd Wl)); [|reflexivity]. destruct (Rlt_dec 0 (wd Wr)); [|reflexivity]. tauto. }
  assert (Dec : (0 < wd Wl /\ 0 < wd Wr) \/ ~ (0 < wd Wl /\ 0 < wd Wr)).
  { destruct (Rlt_dec 0 (wd Wl)), (Rlt_dec 0 (wd Wr)); tauto. }
  split; split.
  - intros (F & E). destruct Dec as [D|D]; [exact D|]. rewrite (N D) in E. discriminate.
  - exact Y.
  - intros E D. destruct (Y D) as (F & E'). rewrite E' in E. discriminate.
  - exact N.
Qed.
Print Assumptions C101_completes.

(** Equal states: the flux of the gas. *)
Theorem C101_consistent : forall c U W, 0 < c -> 0 < wd W -> conserved W U ->
  exact_fluxes c U U W W = Flux (gas_flux c (wd W) (wvx W) W).
Proof.
  intros c U W Hc H C.
  assert (B : between c W W (wd W) (wvx W)).
  { split; [exact H|]. split; right; split; lra. }
  destruct (C101_exact c U U W W Hc H H C C) as (F & E & X).
  { intros d u B'. left. destruct (between_unique c Hc W W H H _ _ _ _ B' B) as [-> _]. lra. }
  rewrite E. f_equal. apply (C101_one_flux c W W); try assumption; [reflexivity|].
  exists (wd W), (wvx W), (wd W), (wvx W). split; [exact B|].
  assert (RL : raref_left c (wd W) (wvx W) (wd W) (wvx W)) by (split; lra).
  assert (RR : raref_right c (wd W) (wvx W) (wd W) (wvx W)) by (split; lra).
  destruct (Rle_dec 0 (wvx W)) as [V|V].
  - left. split; [exact V|]. split; [|reflexivity].
    destruct (Rle_dec 0 (wvx W - c)); [now apply left_head | apply left_tail; [exact RL|lra]].
  - right. split; [lra|]. split; [|reflexivity].
    destruct (Rle_dec (wvx W + c) 0); [now apply right_head | apply right_tail; [exact RR|lra]].
Qed.
Print Assumptions C101_consistent.

(** ** Thin gas
    The iteration stops when its step is smaller than 2^-51, whatever the
    density.  For densities below that number it stops after one step: here the
    exact density between the waves is 4 e, and the one found is off by more than
    a tenth of it. *)
Lemma ln_lower x : 0 < x -> 1 - / x <= ln x.
Proof.
  intro H. pose proof (exp_ineq1_le (- ln x)) as Q. rewrite exp_Ropp, exp_ln in Q by exact H. lra.
Qed.
Lemma ln_upper x : 0 < x -> ln x <= x - 1.
Proof.
  intro H. pose proof (exp_ineq1_le (ln x)) as Q. rewrite exp_ln in Q by exact H. lra.
Qed.

Theorem C101_thin_gas_refuted : forall e, 0 < e <= / 2 ^ 55 ->
  exists Wl Wr u s, wd Wl = 16 * e /\ wd Wr = e /\
    between 1 Wl Wr (4 * e) u /\
    intermediate 1 Wl Wr (sqrt (wd Wl)) (sqrt (wd Wr)) = Some s /\
    Rabs (sdm s - 4 * e) >= / 8 * (4 * e).
Proof.
  intros e [He1 He2].
  set (Wl := Prim1 (16 * e) 0 0 0 0 0 0 []). set (Wr := Prim1 e (2 * ln 2 - 3 / 2) 0 0 0 0 0 []).
  assert (Hl : 0 < wd Wl) by (cbn; lra). assert (Hr : 0 < wd Wr) by (cbn; lra).
  assert (Emin : dmin Wl Wr = e).
  { unfold dmin, MIN. cbn [wd Wl Wr]. destruct (Rlt_dec (16 * e) e); lra. }
  assert (Emax : dmax Wl Wr = 16 * e).
  { unfold dmax, MAX. cbn [wd Wl Wr]. destruct (Rlt_dec e (16 * e)); lra. }
  pose proof (sqrt_lt_R0 e He1) as Se.
  assert (S4 : sqrt (4 * e) = 2 * sqrt e).
  { rewrite sqrt_mult by lra. replace 4 with (2 * 2) by ring. rewrite sqrt_square; lra. }
  assert (L2 : ln 4 = 2 * ln 2). { replace 4 with (2 * 2) by ring. rewrite ln_mult by lra. ring. }
  assert (L16 : ln 16 = 4 * ln 2). { replace 16 with (4 * 4) by ring. rewrite ln_mult by lra. lra. }
  assert (G4 : gap 1 Wl Wr (4 * e) = 0).
  { unfold gap, chi, psi. rewrite Emin, Emax, S4. cbn [wvx Wl Wr].
    rewrite !ln_mult by lra. rewrite L2, L16. field. lra. }
  assert (B : between 1 Wl Wr (4 * e) (wvx Wl - phi 1 (4 * e) (wd Wl))).
  { apply between_phi; try assumption; try lra. split; [lra|]. split; [reflexivity|].
    apply (gap_between 1 Wl Wr Hl Hr); [rewrite Emin, Emax; lra | exact G4]. }
  destruct (proj1 (between_phi 1 ltac:(lra) Wl Wr Hl Hr _ _) B) as (_ & _ & SUM).
  assert (M : mixed 1 Wl Wr).
  { split.
    - destruct (Rlt_dec (dmin Wl Wr) (draref 1 Wl Wr)) as [|N]; [assumption|]. exfalso.
      pose proof (two_raref 1 ltac:(lra) Wl Wr Hl Hr ltac:(lra)) as T.
      destruct (between_unique 1 ltac:(lra) Wl Wr Hl Hr _ _ _ _ T B) as [E _]. rewrite E, Emin in N. lra.
    - destruct (Rlt_dec (zmid 1 Wl Wr * zmid 1 Wl Wr) (dmax Wl Wr)) as [|N]; [assumption|]. exfalso.
      pose proof (two_shocks 1 ltac:(lra) Wl Wr Hl Hr ltac:(lra)) as T.
      destruct (between_unique 1 ltac:(lra) Wl Wr Hl Hr _ _ _ _ T B) as [E _]. rewrite E, Emax in N. lra. }
  destruct (intermediate_ok 1 ltac:(lra) Wl Wr Hl Hr) as (_ & _ & I3).
  destruct (I3 M) as (r & b & R1 & R2).
  exists Wl, Wr, (wvx Wl - phi 1 (4 * e) (wd Wl)). eexists.
  split; [reflexivity|]. split; [reflexivity|]. split; [exact B|]. split; [exact R2|].
  (* the one step *)
  assert (XA : xacc = / 2 ^ 51) by (unfold xacc, DBL_EPSILON; cbn [pow]; field).
  assert (X : 16 * e <= xacc).
  { rewrite XA. replace (/ 2 ^ 51) with (16 * / 2 ^ 55) by (cbn [pow]; field). lra. }
  set (t := sqrt (17 / 2)).
  assert (Ht : t * t = 17 / 2) by (apply sqrt_sqrt; lra).
  assert (Ht0 : 0 < t) by (apply sqrt_lt_R0; lra).
  assert (Ht1 : 2.91 < t < 2.92) by (split; nra).
  assert (Sr : sqrt (17 / 2 * e) = t * sqrt e) by (apply sqrt_mult; lra).
  set (L := ln (17 / 8)).
  assert (HL : 9 / 17 <= L <= 9 / 8).
  { split; [pose proof (ln_lower (17 / 8) ltac:(lra)) as Q; fold L in Q | pose proof (ln_upper (17 / 8) ltac:(lra)) as Q; fold L in Q]; lra. }
  assert (G0 : gap 1 Wl Wr (17 / 2 * e) = L - 3 / 2 + t - / t).
  { unfold gap, chi, psi. rewrite Emin, Emax, Sr. cbn [wvx Wl Wr].
    rewrite !ln_mult by lra. rewrite L16.
    assert (E : ln (17 / 2) = L + 2 * ln 2).
    { unfold L. rewrite <- L2, <- ln_mult by lra. f_equal. field. }
    rewrite E. field. lra. }
  assert (G1 : slope 1 Wl Wr (17 / 2 * e) = / (17 / 2 * e) * (1 + 19 / 4 / t)).
  { unfold slope, half. rewrite Emin. rewrite sqrt_mult by lra. rewrite Sr.
    replace (t * sqrt e * sqrt e) with (t * e) by (rewrite Rmult_assoc, sqrt_sqrt by lra; reflexivity).
    field. lra. }
  assert (It : 0.342 < / t < 0.344).
  { split; apply Rmult_lt_reg_r with t; try lra; rewrite Rinv_l; lra. }
  assert (Nw : gap 1 Wl Wr (17 / 2 * e) / slope 1 Wl Wr (17 / 2 * e) = e * (17 / 2 * (L - 3 / 2 + t - / t) / (1 + 19 / 4 * / t))).
  { rewrite G0, G1. field. lra. }
  set (st := 17 / 2 * (L - 3 / 2 + t - / t) / (1 + 19 / 4 * / t)) in *.
  assert (Hst : 5 <= st < 7.5).
  { assert (ES : st * (1 + 19 / 4 * / t) = 17 / 2 * (L - 3 / 2 + t - / t)) by (unfold st; field; lra).
    clearbody st. clear - ES It Ht1 HL. split; nra. }
  assert (D0 : 0 < slope 1 Wl Wr (17 / 2 * e)).
  { apply slope_pos; try assumption; rewrite ?Emin, ?Emax; lra. }
  assert (RR : r = 17 / 2 * e \/ r = 17 / 2 * e - e * st).
  { revert R1. unfold rtsafe.
    destruct M as [M1 M2].
    pose proof (gap_lo 1 ltac:(lra) Wl Wr Hl Hr M1) as GL. pose proof (gap_hi 1 ltac:(lra) Wl Wr Hl Hr M2) as GU.
    rewrite Emin, Emax in *.
    pose proof (srder_ok 1 Wl Wr Hl Hr) as SO. rewrite Emin, Emax in SO.
    rewrite (SO e), (SO (16 * e)) by lra. cbn [obind].
    replace (half * (e + 16 * e)) with (17 / 2 * e) by (unfold half; field).
    rewrite (SO (17 / 2 * e)) by lra. cbn [obind].
    destruct (Rlt_dec 0 (gap 1 Wl Wr e)); [lra|]. destruct (Rlt_dec (gap 1 Wl Wr e) 0) as [_|]; [|lra].
    destruct (Rlt_dec (gap 1 Wl Wr (16 * e)) 0); [lra|]. cbn [orb].
    destruct (Req_EM_T (gap 1 Wl Wr e) 0); [lra|]. destruct (Req_EM_T (gap 1 Wl Wr (16 * e)) 0); [lra|].
    assert (MX : exists k, MAXIT = S k) by (eexists; reflexivity). destruct MX as (steps & ->). cbn [rt_loop].
    match goal with |- (if ?b then _ else _) = _ -> _ => destruct b end.
    - unfold half. destruct (Req_EM_T e (e + 1 / 2 * (16 * e - e))) as [Q|_]; [lra|].
      destruct (Rlt_dec (Rabs (1 / 2 * (16 * e - e))) xacc) as [_|Q].
      + intro E. injection E as E _. left. lra.
      + exfalso. apply Q. rewrite Rabs_right by lra. lra.
    - rewrite odiv_ok by lra. cbn [obind]. rewrite Nw.
      destruct (Req_EM_T (17 / 2 * e) (17 / 2 * e - e * st)) as [Q|_]; [nra|].
      destruct (Rlt_dec (Rabs (e * st)) xacc) as [_|Q].
      + intro E. injection E as E _. right. lra.
      + exfalso. apply Q. rewrite Rabs_right by nra. nra. }
  assert (Rlo : e < r) by (destruct RR as [->| ->]; nra).
  rewrite Emin. destruct (Rlt_dec e r); [|contradiction].
  assert (S : sdm (if Rlt_dec (wd Wr) (wd Wl) then Star true false r (wvx Wl - chi 1 r (wd Wl)) else Star false true r (wvx Wr + chi 1 r (wd Wr))) = r).
  { destruct (Rlt_dec (wd Wr) (wd Wl)); reflexivity. }
  rewrite S. destruct RR as [->| ->].
  - rewrite Rabs_right by lra. lra.
  - rewrite Rabs_left1 by nra. nra.
Qed.
Print Assumptions C101_thin_gas_refuted.

(** The hypotheses can be met with two shocks: equal gas that collides. *)
Example C101_two_shocks :
  let Wl := Prim1 1 1 2 3 0 0 0 [5] in let Wr := Prim1 1 (-1) 0 0 0 0 0 [7] in
  exists Ul Ur F, conserved Wl Ul /\ conserved Wr Ur /\
    exact_fluxes 1 Ul Ur Wl Wr = Flux F /\ exact_flux 1 Wl Wr F /\
    forall d u, between 1 Wl Wr d u -> 1 < d.
Proof.
  intros Wl Wr.
  assert (Hl : 0 < wd Wl) by (cbn; lra). assert (Hr : 0 < wd Wr) by (cbn; lra).
  assert (D : forall d u, between 1 Wl Wr d u -> 1 < d).
  { intros d u B. apply between_phi in B; [|lra|assumption|assumption]. destruct B as (B1 & _ & B2).
    cbn [wd wvx Wl Wr] in B2. destruct (Rlt_dec 1 d) as [|N]; [assumption|]. exfalso.
    rewrite !phi_le in B2 by lra. destruct (Req_dec d 1) as [->|E]; [rewrite chi_self in B2; lra|].
    pose proof (chi_lt 1 ltac:(lra) d 1 1 B1 ltac:(lra)). rewrite (chi_self 1 1) in H. lra. }
  exists (Cons1 1 1 2 3 0 0 0 [5]), (Cons1 1 (-1) 0 0 0 0 0 [7]).
  destruct (C101_exact 1 (Cons1 1 1 2 3 0 0 0 [5]) (Cons1 1 (-1) 0 0 0 0 0 [7]) Wl Wr ltac:(lra) Hl Hr) as (F & E & X).
  - unfold conserved; cbn; repeat split; lra.
  - unfold conserved; cbn; repeat split; lra.
  - intros d u B. left. specialize (D d u B). cbn [wd Wl Wr]. lra.
  - exists F. split; [unfold conserved; cbn; repeat split; lra|]. split; [unfold conserved; cbn; repeat split; lra|]. auto.
Qed.

(** They can be met with a rarefaction and a shock: the iteration starts at the
    density 4 between the densities 7 and 1, which is the exact one here. *)
Example C101_rarefaction_and_shock :
  let Wl := Prim1 7 0 2 3 0 0 0 [5] in let Wr := Prim1 1 (- (ln (4 / 7) + 3 / 2)) 0 0 0 0 0 [7] in
  exists u, between 1 Wl Wr 4 u /\
    rtsafe 1 (MIN (wd Wl) (wd Wr)) (MAX (wd Wl) (wd Wr)) (wvx Wl) (wvx Wr)
             (MIN (wd Wl) (wd Wr)) (MAX (wd Wl) (wd Wr)) = Some (4, true).
Proof.
  intros Wl Wr.
  assert (Hl : 0 < wd Wl) by (cbn; lra). assert (Hr : 0 < wd Wr) by (cbn; lra).
  change (MIN (wd Wl) (wd Wr)) with (dmin Wl Wr). change (MAX (wd Wl) (wd Wr)) with (dmax Wl Wr).
  assert (Emin : dmin Wl Wr = 1).
  { unfold dmin, MIN. cbn [wd Wl Wr]. destruct (Rlt_dec 7 1); lra. }
  assert (Emax : dmax Wl Wr = 7).
  { unfold dmax, MAX. cbn [wd Wl Wr]. destruct (Rlt_dec 1 7); lra. }
  assert (S4 : sqrt 4 = 2). { replace 4 with (2 * 2) by ring. rewrite sqrt_square; lra. }
  assert (G4 : gap 1 Wl Wr 4 = 0).
  { unfold gap, chi, psi. rewrite Emin, Emax, S4, sqrt_1. cbn [wvx Wl Wr]. rewrite ln_quot by lra. field. }
  assert (B : between 1 Wl Wr 4 (wvx Wl - phi 1 4 (wd Wl))).
  { apply between_phi; try assumption; try lra. split; [lra|]. split; [reflexivity|].
    apply (gap_between 1 Wl Wr Hl Hr); [rewrite Emin, Emax; lra | exact G4]. }
  eexists. split; [exact B|].
  assert (GL : gap 1 Wl Wr 1 < 0).
  { rewrite <- G4. apply gap_lt; try assumption; rewrite ?Emin, ?Emax; lra. }
  assert (GU : 0 < gap 1 Wl Wr 7).
  { rewrite <- G4. apply gap_lt; try assumption; rewrite ?Emin, ?Emax; lra. }
  assert (D0 : 0 < slope 1 Wl Wr 4).
  { apply slope_pos; try assumption; rewrite ?Emin, ?Emax; lra. }
  unfold rtsafe. pose proof (srder_ok 1 Wl Wr Hl Hr) as SO. rewrite Emin, Emax in *.
  rewrite (SO 1), (SO 7) by lra. cbn [obind].
  replace (half * (1 + 7)) with 4 by (unfold half; field).
  rewrite (SO 4) by lra. cbn [obind].
  destruct (Rlt_dec 0 (gap 1 Wl Wr 1)); [lra|]. destruct (Rlt_dec (gap 1 Wl Wr 1) 0) as [_|]; [|lra].
  destruct (Rlt_dec (gap 1 Wl Wr 7) 0); [lra|]. cbn [orb].
  destruct (Req_EM_T (gap 1 Wl Wr 1) 0); [lra|]. destruct (Req_EM_T (gap 1 Wl Wr 7) 0); [lra|].
  assert (MX : exists k, MAXIT = S k) by (eexists; reflexivity). destruct MX as (steps & ->). cbn [rt_loop].
  rewrite G4.
  destruct (Rlt_dec 0 (((4 - 7) * slope 1 Wl Wr 4 - 0) * ((4 - 1) * slope 1 Wl Wr 4 - 0))) as [Q|_]; [nra|].
  destruct (Rlt_dec (Rabs (Rabs (7 - 1) * slope 1 Wl Wr 4)) (Rabs (2 * 0))) as [Q|_].
  { rewrite Rmult_0_r, Rabs_R0 in Q. pose proof (Rabs_pos (Rabs (7 - 1) * slope 1 Wl Wr 4)). lra. }
  rewrite odiv_ok by lra. cbn [obind].
  destruct (Req_EM_T 4 (4 - 0 / slope 1 Wl Wr 4)) as [Q|Q].
  - rewrite <- Q. reflexivity.
  - exfalso. apply Q. unfold Rdiv. ring.
Qed.
