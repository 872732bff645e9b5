(** * Facts about the isothermal Riemann problem *)
From Coq Require Import Reals List Bool Lra Lia Psatz Ranalysis5.
From Verif Require Import GasModel ExactModel ExactSpec.
Import ListNotations.
Open Scope R_scope.

Section Facts.
Variable c : R.
Hypothesis Hc : 0 < c.

(** The change of the velocity across a shock and across a rarefaction. *)
Definition psi (d k : R) : R := c * (sqrt d / sqrt k - sqrt k / sqrt d).
Definition chi (d k : R) : R := c * (ln d - ln k).
Definition phi (d k : R) : R := if Rlt_dec k d then psi d k else chi d k.

Lemma ln_lt d1 d2 : 0 < d1 -> d1 < d2 -> ln d1 < ln d2.
Proof. intros; now apply ln_increasing. Qed.

Lemma chi_lt d1 d2 k : 0 < d1 -> d1 < d2 -> chi d1 k < chi d2 k.
Proof. intros H1 H2. unfold chi. pose proof (ln_lt _ _ H1 H2). nra. Qed.

Lemma psi_lt d1 d2 k : 0 < d1 -> 0 < k -> d1 < d2 -> psi d1 k < psi d2 k.
Proof.
  intros H1 Hk H2. unfold psi.
  pose proof (sqrt_lt_R0 d1 H1). pose proof (sqrt_lt_R0 k Hk).
  pose proof (sqrt_lt_1 d1 d2 ltac:(lra) ltac:(lra) H2) as Hs.
  generalize dependent (sqrt d1). generalize dependent (sqrt d2). generalize dependent (sqrt k).
  intros z Hz y x Hx Hs. apply Rmult_lt_compat_l; [exact Hc|].
  assert (x / z < y / z) by (apply Rmult_lt_compat_r; [apply Rinv_0_lt_compat; lra | lra]).
  assert (z / y < z / x) by (apply Rmult_lt_compat_l; [lra | apply Rinv_lt_contravar; nra]).
  lra.
Qed.

Lemma psi_self k : 0 < k -> psi k k = 0.
Proof. intro H. unfold psi. ring. Qed.
Lemma chi_self k : chi k k = 0.
Proof. unfold chi. ring. Qed.
Lemma phi_ge d k : 0 < k -> k <= d -> phi d k = psi d k.
Proof.
  intros Hk H. unfold phi. destruct (Rlt_dec k d); [reflexivity|].
  assert (d = k) as -> by lra. now rewrite chi_self, psi_self.
Qed.
Lemma phi_le d k : d <= k -> phi d k = chi d k.
Proof. intro H. unfold phi. destruct (Rlt_dec k d); [lra | reflexivity]. Qed.

Lemma phi_lt d1 d2 k : 0 < d1 -> 0 < k -> d1 < d2 -> phi d1 k < phi d2 k.
Proof.
  intros H1 Hk H. destruct (Rle_dec d2 k) as [A|A].
  - rewrite !phi_le by lra. now apply chi_lt.
  - destruct (Rle_dec k d1) as [B|B].
    + rewrite !phi_ge by lra. now apply psi_lt.
    + rewrite (phi_le d1) by lra. rewrite (phi_ge d2) by lra.
      apply Rlt_trans with 0.
      * rewrite <- (chi_self k). apply chi_lt; lra.
      * rewrite <- (psi_self k Hk). apply psi_lt; lra.
Qed.

(** ** The waves in terms of [phi] *)
Lemma shock_left_psi dl ul d u s : 0 < dl -> 0 < d ->
  shock_left c dl ul d u s <->
  dl < d /\ u = ul - psi d dl /\ s = ul - c * (sqrt d / sqrt dl).
Proof.
  intros H1 H2. unfold shock_left, jump, psi.
  pose proof (sqrt_lt_R0 d H2) as P. pose proof (sqrt_lt_R0 dl H1) as Q.
  pose proof (sqrt_sqrt d ltac:(lra)) as E1. pose proof (sqrt_sqrt dl ltac:(lra)) as E2.
  set (x := sqrt d) in *. set (z := sqrt dl) in *. clearbody x z.
  subst d dl. split.
  - intros (Hlt & (J1 & J2) & L1 & L2). split; [exact Hlt|].
    assert (z < x) by nra.
    set (w := u - ul). set (t := s - ul).
    assert (T1 : t * (x * x - z * z) = x * x * w) by (unfold t, w; lra).
    assert (T2 : t * (x * x * w) = x * x * (w * w) + c * c * (x * x - z * z)).
    { unfold t, w.
      replace ((s - ul) * (x * x * (u - ul))) with
        (s * (x * x * u - z * z * ul) - ul * (x * x * u - z * z * ul) - ul * (s * (x * x - z * z) - ul * (x * x - z * z))) by ring.
      rewrite J2, J1. ring. }
    assert (Ht : t < 0) by (unfold t; lra).
    assert (Hq : 0 < x * x - z * z) by nra.
    assert (T3 : (x * z * w) * (x * z * w) = (c * (x * x - z * z)) * (c * (x * x - z * z))).
    { assert (K : t * (x * x - z * z) * (x * x * w) = (x * x * (w * w) + c * c * (x * x - z * z)) * (x * x - z * z)).
      { rewrite <- T2. ring. }
      rewrite T1 in K. lra. }
    assert (Hw : w < 0) by nra.
    assert (T4 : x * z * w = - (c * (x * x - z * z))).
    { assert (0 < x * z) by nra. assert (x * z * w < 0) by nra.
      assert ((x * z * w + c * (x * x - z * z)) * (x * z * w - c * (x * x - z * z)) = 0) by lra.
      apply Rmult_integral in H4. destruct H4; nra. }
    assert (Ew : w = - (c * (x / z - z / x))).
    { replace (- (c * (x / z - z / x))) with (- (c * (x * x - z * z)) / (x * z)) by (field; lra).
      rewrite <- T4. field. lra. }
    split; [unfold w in Ew; lra|].
    assert (Et : t = - (c * (x / z))).
    { apply Rmult_eq_reg_r with (x * x - z * z); [|lra]. rewrite T1, Ew. field. lra. }
    unfold t in Et. lra.
  - intros (Hlt & -> & ->). split; [exact Hlt|].
    assert (z < x) by nra. split; [split; field; lra|].
    assert (1 < x / z) by (apply Rmult_lt_reg_r with z; [lra | unfold Rdiv; rewrite Rmult_assoc, Rinv_l; lra]).
    assert (z / x < 1) by (apply Rmult_lt_reg_r with x; [lra | unfold Rdiv; rewrite Rmult_assoc, Rinv_l; lra]).
    split; nra.
Qed.

Lemma shock_mirror dr ur d u s :
  shock_right c dr ur d u s <-> shock_left c dr (- ur) d (- u) (- s).
Proof.
  unfold shock_right, shock_left, jump.
  split; intros (A & (B1 & B2) & C1 & C2); repeat split; lra.
Qed.

Lemma shock_right_psi dr ur d u s : 0 < dr -> 0 < d ->
  shock_right c dr ur d u s <->
  dr < d /\ u = ur + psi d dr /\ s = ur + c * (sqrt d / sqrt dr).
Proof.
  intros H1 H2. rewrite shock_mirror, shock_left_psi by assumption.
  split; intros (A & B & D); repeat split; lra.
Qed.

Lemma wave_left dl ul d u : 0 < dl -> 0 < d ->
  ((exists s, shock_left c dl ul d u s) \/ raref_left c dl ul d u) <-> u = ul - phi d dl.
Proof.
  intros H1 H2. split.
  - intros [(s & H)|(H & E)].
    + apply shock_left_psi in H; [|lra|lra]. destruct H as (A & B & _). rewrite phi_ge by lra. exact B.
    + rewrite phi_le by lra. unfold chi. lra.
  - intros E. destruct (Rlt_dec dl d) as [A|A].
    + left. exists (ul - c * (sqrt d / sqrt dl)). apply shock_left_psi; [lra|lra|].
      rewrite phi_ge in E by lra. repeat split; lra.
    + right. rewrite phi_le in E by lra. unfold chi in E. split; lra.
Qed.

Lemma wave_right dr ur d u : 0 < dr -> 0 < d ->
  ((exists s, shock_right c dr ur d u s) \/ raref_right c dr ur d u) <-> u = ur + phi d dr.
Proof.
  intros H1 H2. split.
  - intros [(s & H)|(H & E)].
    + apply shock_right_psi in H; [|lra|lra]. destruct H as (A & B & _). rewrite phi_ge by lra. exact B.
    + rewrite phi_le by lra. unfold chi. lra.
  - intros E. destruct (Rlt_dec dr d) as [A|A].
    + left. exists (ur + c * (sqrt d / sqrt dr)). apply shock_right_psi; [lra|lra|].
      rewrite phi_ge in E by lra. repeat split; lra.
    + right. rewrite phi_le in E by lra. unfold chi in E. split; lra.
Qed.

Section States.
Variables Wl Wr : prim1.
Hypothesis Hl : 0 < wd Wl.
Hypothesis Hr : 0 < wd Wr.
Notation dl := (wd Wl).
Notation dr := (wd Wr).
Notation vl := (wvx Wl).
Notation vr := (wvx Wr).

Lemma between_phi d u :
  between c Wl Wr d u <-> 0 < d /\ u = vl - phi d dl /\ phi d dl + phi d dr = vl - vr.
Proof.
  unfold between. split.
  - intros (H & A & B). apply wave_left in A; [|assumption|assumption].
    apply wave_right in B; [|assumption|assumption]. repeat split; lra.
  - intros (H & A & B). split; [exact H|]. split.
    + now apply wave_left.
    + apply wave_right; [assumption|assumption|lra].
Qed.

Lemma between_unique d u d' u' : between c Wl Wr d u -> between c Wl Wr d' u' -> d = d' /\ u = u'.
Proof.
  intros A B. apply between_phi in A. apply between_phi in B.
  destruct A as (A1 & A2 & A3), B as (B1 & B2 & B3).
  assert (d = d').
  { destruct (Rtotal_order d d') as [H|[H|H]]; [|exact H|].
    - pose proof (phi_lt d d' dl A1 Hl H). pose proof (phi_lt d d' dr A1 Hr H). lra.
    - pose proof (phi_lt d' d dl B1 Hl H). pose proof (phi_lt d' d dr B1 Hr H). lra. }
  subst d'. split; [reflexivity | lra].
Qed.

Definition dmin := MIN dl dr.
Definition dmax := MAX dl dr.
Lemma min_max : (dmin = dl /\ dmax = dr /\ dl <= dr) \/ (dmin = dr /\ dmax = dl /\ dr <= dl).
Proof.
  unfold dmin, dmax, MIN, MAX. destruct (Rlt_dec dl dr), (Rlt_dec dr dl); lra.
Qed.
Lemma dmin_pos : 0 < dmin. Proof. destruct min_max as [(-> & _)|(-> & _)]; lra. Qed.
Lemma dmin_max : dmin <= dmax. Proof. destruct min_max as [(-> & -> & H)|(-> & -> & H)]; lra. Qed.

Lemma sum_psi d : dmax <= d -> phi d dl + phi d dr = psi d dl + psi d dr.
Proof.
  intro H. rewrite !phi_ge; [reflexivity| | | |]; try lra;
  destruct min_max as [(_ & E & ?)|(_ & E & ?)]; rewrite E in H; lra.
Qed.
Lemma sum_chi d : d <= dmin -> phi d dl + phi d dr = chi d dl + chi d dr.
Proof.
  intro H. rewrite !phi_le; [reflexivity| |];
  destruct min_max as [(E & _ & ?)|(E & _ & ?)]; rewrite E in H; lra.
Qed.
Lemma sum_mixed d : dmin <= d <= dmax -> phi d dl + phi d dr = chi d dmax + psi d dmin.
Proof.
  intros [H1 H2]. destruct min_max as [(E & E' & ?)|(E & E' & ?)]; rewrite E in *; rewrite E' in *.
  - rewrite (phi_ge d dl), (phi_le d dr) by lra. lra.
  - rewrite (phi_ge d dr), (phi_le d dl) by lra. lra.
Qed.
Lemma sum_lt a b : 0 < a -> a < b -> phi a dl + phi a dr < phi b dl + phi b dr.
Proof. intros H1 H2. pose proof (phi_lt a b dl H1 Hl H2). pose proof (phi_lt a b dr H1 Hr H2). lra. Qed.

(** ** The two guesses of the code *)
Definition ztmp := sqrt dl * sqrt dr * (vl - vr) / (2 * c * (sqrt dl + sqrt dr)).
Definition zmid := ztmp + sqrt (ztmp * ztmp + sqrt dl * sqrt dr).

Lemma zpos : 0 < sqrt dl /\ 0 < sqrt dr.
Proof. split; now apply sqrt_lt_R0. Qed.
Lemma zrad : 0 < ztmp * ztmp + sqrt dl * sqrt dr.
Proof. destruct zpos. assert (0 < sqrt dl * sqrt dr) by nra. nra. Qed.
Lemma zmid_pos : 0 < zmid.
Proof.
  unfold zmid. pose proof zrad as H. destruct zpos as [P Q].
  assert (0 < sqrt dl * sqrt dr) by nra.
  pose proof (sqrt_sqrt (ztmp * ztmp + sqrt dl * sqrt dr) ltac:(lra)) as E.
  pose proof (sqrt_lt_R0 _ H) as S.
  set (y := sqrt (ztmp * ztmp + sqrt dl * sqrt dr)) in *. clearbody y.
  destruct (Rlt_dec 0 (ztmp + y)); [assumption|]. assert (y <= - ztmp) by lra. nra.
Qed.
Lemma zmid_eq : zmid * zmid = 2 * ztmp * zmid + sqrt dl * sqrt dr.
Proof.
  unfold zmid. pose proof zrad as H.
  pose proof (sqrt_sqrt (ztmp * ztmp + sqrt dl * sqrt dr) ltac:(lra)) as E.
  set (y := sqrt (ztmp * ztmp + sqrt dl * sqrt dr)) in *. clearbody y.
  replace ((ztmp + y) * (ztmp + y)) with (ztmp * ztmp + 2 * ztmp * y + y * y) by ring. rewrite E. ring.
Qed.
Lemma psi_mid : psi (zmid * zmid) dl + psi (zmid * zmid) dr = vl - vr.
Proof.
  pose proof zmid_pos as P. destruct zpos as [Q1 Q2]. unfold psi.
  rewrite sqrt_square by lra.
  pose proof zmid_eq as E. unfold ztmp in E.
  set (z := zmid) in *. clearbody z. set (a := sqrt dl) in *. set (b := sqrt dr) in *. clearbody a b.
  assert (E' : (z * z - a * b) * (c * (a + b)) = a * b * (vl - vr) * z).
  { rewrite E. field. lra. }
  apply Rmult_eq_reg_r with (a * b * z); [|apply Rgt_not_eq; repeat apply Rmult_lt_0_compat; assumption].
  replace ((c * (z / a - a / z) + c * (z / b - b / z)) * (a * b * z)) with ((z * z - a * b) * (c * (a + b))) by (field; lra).
  rewrite E'. ring.
Qed.

Definition draref := sqrt dl * sqrt dr * exp ((vl - vr) / (2 * c)).
Lemma draref_pos : 0 < draref.
Proof. unfold draref. destruct zpos. pose proof (exp_pos ((vl - vr) / (2 * c))). apply Rmult_lt_0_compat; nra. Qed.
Lemma ln_sqrt x : 0 < x -> 2 * ln (sqrt x) = ln x.
Proof.
  intro H. pose proof (sqrt_lt_R0 x H). rewrite <- (sqrt_sqrt x) at 2 by lra. rewrite ln_mult by lra. ring.
Qed.
Lemma chi_draref : chi draref dl + chi draref dr = vl - vr.
Proof.
  unfold chi, draref. destruct zpos as [P Q].
  rewrite ln_mult; [|now apply Rmult_lt_0_compat|apply exp_pos]. rewrite ln_exp. rewrite (ln_mult (sqrt dl)) by assumption.
  pose proof (ln_sqrt dl Hl). pose proof (ln_sqrt dr Hr).
  replace (c * (ln (sqrt dl) + ln (sqrt dr) + (vl - vr) / (2 * c) - ln dl) + c * (ln (sqrt dl) + ln (sqrt dr) + (vl - vr) / (2 * c) - ln dr))
    with (c * (2 * ln (sqrt dl) + 2 * ln (sqrt dr) - ln dl - ln dr) + (vl - vr)) by (field; lra).
  rewrite H, H0. ring.
Qed.

Lemma two_shocks : dmax <= zmid * zmid -> between c Wl Wr (zmid * zmid) (vl - psi (zmid * zmid) dl).
Proof.
  intro H. pose proof zmid_pos. apply between_phi. split; [nra|]. split.
  - rewrite phi_ge; [reflexivity|assumption|]. destruct min_max as [(_ & E & ?)|(_ & E & ?)]; rewrite E in H; lra.
  - rewrite sum_psi by assumption. apply psi_mid.
Qed.
Lemma not_two_shocks d : 0 < d -> phi d dl + phi d dr = vl - vr -> zmid * zmid < dmax -> d < dmax.
Proof.
  intros H E A. destruct (Rlt_dec d dmax) as [|B]; [assumption|]. exfalso.
  pose proof zmid_pos. pose proof psi_mid as M.
  assert (dmax <= d) by lra. rewrite sum_psi in E by lra.
  pose proof (psi_lt (zmid * zmid) d dl ltac:(nra) Hl ltac:(lra)).
  pose proof (psi_lt (zmid * zmid) d dr ltac:(nra) Hr ltac:(lra)). lra.
Qed.
Lemma two_raref : draref <= dmin -> between c Wl Wr draref (vl - chi draref dl).
Proof.
  intro H. pose proof draref_pos. apply between_phi. split; [assumption|]. split.
  - rewrite phi_le; [reflexivity|]. destruct min_max as [(E & _ & ?)|(E & _ & ?)]; rewrite E in H; lra.
  - rewrite sum_chi by assumption. apply chi_draref.
Qed.
Lemma not_two_raref d : 0 < d -> phi d dl + phi d dr = vl - vr -> dmin < draref -> dmin < d.
Proof.
  intros H E A. destruct (Rlt_dec dmin d) as [|B]; [assumption|]. exfalso.
  pose proof draref_pos. pose proof chi_draref as M.
  assert (d <= dmin) by lra. rewrite sum_chi in E by lra.
  pose proof (chi_lt d draref dl H ltac:(lra)).
  pose proof (chi_lt d draref dr H ltac:(lra)). lra.
Qed.

(** ** The function whose zero is sought *)
Definition gap (d : R) : R := (vr - vl) + (chi d dmax + psi d dmin).
Definition slope (d : R) : R := c / d * (1 + half * (d + dmin) / sqrt (d * dmin)).

Lemma gap_lo : dmin < draref -> gap dmin < 0.
Proof.
  intro A. unfold gap. rewrite <- sum_mixed by (pose proof dmin_max; lra).
  rewrite sum_chi by lra. pose proof chi_draref as M. pose proof dmin_pos as P.
  pose proof (chi_lt dmin draref dl P A). pose proof (chi_lt dmin draref dr P A). lra.
Qed.
Lemma gap_hi : zmid * zmid < dmax -> 0 < gap dmax.
Proof.
  intro A. unfold gap. rewrite <- sum_mixed by (pose proof dmin_max; lra).
  rewrite sum_psi by lra. pose proof psi_mid as M. pose proof zmid_pos as P.
  pose proof (psi_lt (zmid * zmid) dmax dl ltac:(nra) Hl A).
  pose proof (psi_lt (zmid * zmid) dmax dr ltac:(nra) Hr A). lra.
Qed.

Lemma srder_ok d : 0 < d -> srder c d vl vr dmin dmax = Some (gap d, slope d).
Proof.
  intro H. pose proof dmin_pos as P. pose proof dmin_max as Q.
  assert (S : 0 < d * dmin) by nra. pose proof (sqrt_lt_R0 _ S) as S'.
  unfold srder, odiv, osqrt, olog.
  destruct (Req_EM_T dmax 0); [lra|]. cbn [obind].
  destruct (Rlt_dec 0 (d / dmax)) as [_|N]; [|exfalso; apply N; apply Rdiv_lt_0_compat; lra]. cbn [obind].
  destruct (Rlt_dec (d * dmin) 0); [lra|]. cbn [obind].
  destruct (Req_EM_T (sqrt (d * dmin)) 0); [lra|]. cbn [obind].
  destruct (Req_EM_T d 0); [lra|]. cbn [obind].
  f_equal. f_equal; unfold gap, slope, chi, psi.
  unfold Rdiv at 1. rewrite ln_mult by (try apply Rinv_0_lt_compat; lra). rewrite ln_Rinv by lra.
  rewrite sqrt_mult by lra.
  assert (E : (d - dmin) / (sqrt d * sqrt dmin) = sqrt d / sqrt dmin - sqrt dmin / sqrt d).
  { pose proof (sqrt_lt_R0 _ H). pose proof (sqrt_lt_R0 _ P).
    rewrite <- (sqrt_sqrt d) at 1 by lra. rewrite <- (sqrt_sqrt dmin) at 1 by lra. field. lra. }
  rewrite E. ring.
Qed.

Lemma gap_deriv d : 0 < d -> derivable_pt_lim gap d (slope d).
Proof.
  intro H. pose proof dmin_pos as P. pose proof (sqrt_lt_R0 d H) as Sd. pose proof (sqrt_lt_R0 _ P) as Sm.
  assert (L : derivable_pt_lim (fun x => (vr - vl - c * ln dmax) + (c * ln x + (c / sqrt dmin * sqrt x + (- (c * sqrt dmin)) * (1 / sqrt x)))) d
     (0 + (c * / d + (c / sqrt dmin * / (2 * sqrt d) + (- (c * sqrt dmin)) * ((0 * sqrt d - / (2 * sqrt d) * 1) / Rsqr (sqrt d)))))).
  { apply (derivable_pt_lim_plus (fun _ => vr - vl - c * ln dmax)); [apply derivable_pt_lim_const|].
    apply (derivable_pt_lim_plus (fun x => c * ln x)).
    - apply (derivable_pt_lim_scal ln). now apply derivable_pt_lim_ln.
    - apply (derivable_pt_lim_plus (fun x => c / sqrt dmin * sqrt x)).
      + apply (derivable_pt_lim_scal sqrt). now apply derivable_pt_lim_sqrt.
      + apply (derivable_pt_lim_scal (fun x => 1 / sqrt x)).
        assert (D : derivable_pt_lim (fct_cte 1 / sqrt)%F d ((0 * sqrt d - / (2 * sqrt d) * 1) / Rsqr (sqrt d))).
        { apply derivable_pt_lim_div; [apply derivable_pt_lim_const | now apply derivable_pt_lim_sqrt | lra]. }
        exact D. }
  assert (V : 0 + (c * / d + (c / sqrt dmin * / (2 * sqrt d) + (- (c * sqrt dmin)) * ((0 * sqrt d - / (2 * sqrt d) * 1) / Rsqr (sqrt d)))) = slope d).
  { unfold slope, half, Rsqr. rewrite sqrt_mult by lra.
    pose proof (sqrt_sqrt d ltac:(lra)) as E1. pose proof (sqrt_sqrt dmin ltac:(lra)) as E2.
    set (x := sqrt d) in *. set (m := sqrt dmin) in *. clearbody x m. rewrite <- E1, <- E2. field. lra. }
  rewrite V in L. intros eps He. destruct (L eps He) as (del & HD). 
  exists del. intros h Hh Hh'. specialize (HD h Hh Hh').
  unfold gap, chi, psi.
  replace (vr - vl + (c * (ln (d + h) - ln dmax) + c * (sqrt (d + h) / sqrt dmin - sqrt dmin / sqrt (d + h))) -
    (vr - vl + (c * (ln d - ln dmax) + c * (sqrt d / sqrt dmin - sqrt dmin / sqrt d))))
  with (vr - vl - c * ln dmax + (c * ln (d + h) + (c / sqrt dmin * sqrt (d + h) + - (c * sqrt dmin) * (1 / sqrt (d + h)))) -
      (vr - vl - c * ln dmax + (c * ln d + (c / sqrt dmin * sqrt d + - (c * sqrt dmin) * (1 / sqrt d))))); [exact HD|].
  unfold Rdiv. ring.
Qed.

Lemma slope_bounds d : dmin <= d <= dmax -> 2 * c / dmax <= slope d <= 2 * c / dmin.
Proof.
  intros [A B]. pose proof dmin_pos as P. unfold slope, half. rewrite sqrt_mult by lra.
  assert (Hd : 0 < d) by lra.
  pose proof (sqrt_lt_R0 d Hd) as Sd. pose proof (sqrt_lt_R0 _ P) as Sm.
  pose proof (sqrt_sqrt d ltac:(lra)) as E1. pose proof (sqrt_sqrt dmin ltac:(lra)) as E2.
  pose proof (sqrt_le_1 dmin d ltac:(lra) ltac:(lra) A) as A'.
  set (x := sqrt d) in *. set (m := sqrt dmin) in *. clearbody x m.
  assert (G : 1 <= 1 / 2 * (d + dmin) / (x * m)).
  { apply Rmult_le_reg_r with (x * m); [nra|]. unfold Rdiv. rewrite Rmult_assoc, Rinv_l by nra.
    rewrite <- E1, <- E2. pose proof (Rle_0_sqr (x - m)) as K. unfold Rsqr in K. lra. }
  assert (cd : 0 < c / d) by (apply Rdiv_lt_0_compat; lra).
  split.
  - apply Rle_trans with (2 * (c / d)); [|nra].
    replace (2 * c / dmax) with (2 * (c * / dmax)) by (unfold Rdiv; ring).
    apply Rmult_le_compat_l; [lra|]. apply Rmult_le_compat_l; [lra|].
    apply Rinv_le_contravar; lra.
  - apply Rmult_le_reg_r with (d * dmin * (x * m)); [repeat apply Rmult_lt_0_compat; lra|].
    replace (c / d * (1 + 1 / 2 * (d + dmin) / (x * m)) * (d * dmin * (x * m)))
      with (c * (dmin * (x * m + 1 / 2 * (d + dmin)))) by (field; lra).
    replace (2 * c / dmin * (d * dmin * (x * m))) with (c * (2 * d * (x * m))) by (field; lra).
    apply Rmult_le_compat_l; [lra|].
    rewrite <- E1, <- E2. assert (X : exists k, 0 <= k /\ x = m + k) by (exists (x - m); split; lra).
    destruct X as (k & Hk & ->).
    assert (0 <= m * k) by nra. assert (0 <= m * m * (m * k)) by (apply Rmult_le_pos; nra).
    assert (0 <= m * m * (k * k)) by nra. assert (0 <= m * k * (k * k)) by nra. nra.
Qed.

Lemma gap_mvt a b : 0 < dmin -> dmin <= a <= dmax -> dmin <= b <= dmax -> a < b ->
  exists x, a < x < b /\ gap b - gap a = slope x * (b - a).
Proof.
  intros P A B H.
  destruct (MVT_cor2 gap slope a b H) as (x & E & X).
  - intros y Hy. apply gap_deriv. lra.
  - exists x. split; [exact X | exact E].
Qed.

Lemma gap_zero : dmin < draref -> zmid * zmid < dmax -> exists r, dmin < r < dmax /\ gap r = 0.
Proof.
  intros A B. pose proof (gap_lo A) as L. pose proof (gap_hi B) as U. pose proof dmin_pos as P.
  assert (dmin < dmax).
  { pose proof dmin_max. destruct (Rtotal_order dmin dmax) as [|[E|]]; [assumption| |lra]. rewrite E in L. lra. }
  destruct (IVT_interv gap dmin dmax) as (r & R1 & R2); [|assumption|assumption|assumption|].
  - intros a Ha. apply derivable_continuous_pt. exists (slope a). apply gap_deriv. lra.
  - exists r. split; [|exact R2].
    destruct (Req_dec r dmin) as [->|]; [lra|]. destruct (Req_dec r dmax) as [->|]; lra.
Qed.
Lemma gap_between d : dmin <= d <= dmax -> gap d = 0 <-> phi d dl + phi d dr = vl - vr.
Proof. intro H. unfold gap. rewrite <- sum_mixed by assumption. split; lra. Qed.

End States.
End Facts.
