(** * The root finder and the intermediate state of the isothermal exact solver *)
From Coq Require Import Reals List Bool Lra Lia Psatz.
From Verif Require Import GasModel ExactModel ExactSpec ExactFacts.
Import ListNotations.
Open Scope R_scope.

Lemma xacc_pos : 0 < xacc.
Proof. unfold xacc, DBL_EPSILON. assert (0 < / 2 ^ 52) by (apply Rinv_0_lt_compat, pow_lt; lra). lra. Qed.

Lemma signs a b : a <= b -> a * b <= 0 -> a <= 0 /\ 0 <= b.
Proof.
  intros H1 H2. split.
  - destruct (Rle_dec a 0); [assumption|]. exfalso. nra.
  - destruct (Rle_dec 0 b); [assumption|]. exfalso. nra.
Qed.

Section Root.
Variable c : R.
Hypothesis Hc : 0 < c.
Variables Wl Wr : prim1.
Hypothesis Hl : 0 < wd Wl.
Hypothesis Hr : 0 < wd Wr.
Notation dl := (wd Wl).
Notation dr := (wd Wr).
Notation vl := (wvx Wl).
Notation vr := (wvx Wr).
Notation dmin := (dmin Wl Wr).
Notation dmax := (dmax Wl Wr).
Notation gap := (gap c Wl Wr).
Notation slope := (slope c Wl Wr).

Lemma slope_pos d : dmin <= d <= dmax -> 0 < slope d.
Proof.
  intro H. pose proof (slope_bounds c Hc Wl Wr Hl Hr d H) as [A _].
  pose proof (dmin_pos Wl Wr Hl Hr). assert (0 < 2 * c / dmax) by (apply Rdiv_lt_0_compat; lra). lra.
Qed.

Lemma gap_lt a b : dmin <= a <= dmax -> dmin <= b <= dmax -> a < b -> gap a < gap b.
Proof.
  intros A B H. pose proof (dmin_pos Wl Wr Hl Hr) as P.
  destruct (gap_mvt c Wl Wr Hl Hr a b P A B H) as (x & X & E).
  assert (0 < slope x) by (apply slope_pos; lra). nra.
Qed.

Lemma newton_close r0 root : dmin <= r0 <= dmax -> dmin <= root <= dmax -> gap root = 0 ->
  Rabs (r0 - gap r0 / slope r0 - root) <= Rabs (gap r0 / slope r0) * (dmax / dmin).
Proof.
  intros A B Z. pose proof (dmin_pos Wl Wr Hl Hr) as P. pose proof (dmin_max Wl Wr) as Q.
  assert (K : 1 <= dmax / dmin).
  { apply Rmult_le_reg_r with dmin; [assumption|]. unfold Rdiv. rewrite Rmult_assoc, Rinv_l; lra. }
  pose proof (slope_pos r0 A) as D0. pose proof (slope_bounds c Hc Wl Wr Hl Hr r0 A) as [_ D1].
  destruct (Req_dec r0 root) as [->|N].
  { rewrite Z. unfold Rdiv. rewrite Rmult_0_l.
    replace (root - 0 - root) with 0 by ring. rewrite Rabs_R0. lra. }
  assert (S : exists S, 2 * c / dmax <= S /\ gap r0 = S * (r0 - root)).
  { destruct (Rlt_dec r0 root) as [L|L].
    - destruct (gap_mvt c Wl Wr Hl Hr r0 root P A B L) as (x & X & E).
      exists (slope x). split; [|lra]. apply (slope_bounds c Hc Wl Wr Hl Hr x). lra.
    - destruct (gap_mvt c Wl Wr Hl Hr root r0 P B A ltac:(lra)) as (x & X & E).
      exists (slope x). split; [|lra]. apply (slope_bounds c Hc Wl Wr Hl Hr x). lra. }
  destruct S as (S & S1 & S2).
  assert (L0 : 0 < 2 * c / dmax) by (apply Rdiv_lt_0_compat; lra).
  assert (E : r0 - gap r0 / slope r0 - root = gap r0 / slope r0 * (slope r0 / S - 1)).
  { rewrite S2. field. lra. }
  rewrite E, Rabs_mult. apply Rmult_le_compat_l; [apply Rabs_pos|].
  assert (0 < slope r0 / S) by (apply Rdiv_lt_0_compat; lra).
  assert (slope r0 / S <= dmax / dmin).
  { apply Rle_trans with ((2 * c / dmin) / (2 * c / dmax)); [|right; field; lra].
    unfold Rdiv at 1 3. apply Rmult_le_compat; [lra| | exact D1 | apply Rinv_le_contravar; lra].
    left. apply Rinv_0_lt_compat. lra. }
  apply Rabs_le. lra.
Qed.

Lemma loop_ok : forall n xl xh rts dx dxold root,
  dmin <= xl -> xh <= dmax -> xl <= root <= xh -> xl <= rts <= xh -> gap root = 0 ->
  exists r b, rt_loop c vl vr dmin dmax n (gap rts) (slope rts) xl xh rts dx dxold = Some (r, b) /\
    dmin <= r <= dmax /\ (b = true -> Rabs (r - root) <= xacc * (dmax / dmin)).
Proof.
  pose proof (dmin_pos Wl Wr Hl Hr) as P. pose proof (dmin_max Wl Wr) as Q. pose proof xacc_pos as X.
  assert (K : 1 <= dmax / dmin).
  { apply Rmult_le_reg_r with dmin; [assumption|]. unfold Rdiv. rewrite Rmult_assoc, Rinv_l; lra. }
  assert (XK : xacc <= xacc * (dmax / dmin)) by nra.
  induction n as [|n IH]; intros xl xh rts dx dxold root Hxl Hxh Hroot Hrts Z; cbn [rt_loop].
  { exists rts, false. split; [reflexivity|]. split; [lra|discriminate]. }
  assert (go : forall rts' dx', xl <= rts' <= xh ->
     (Rabs dx' < xacc -> Rabs (rts' - root) <= xacc * (dmax / dmin)) ->
     exists r b, (if Rlt_dec (Rabs dx') xacc then Some (rts', true) else
        obind (srder c rts' vl vr dmin dmax) (fun x => match x with (f', df') =>
          if Rlt_dec f' 0 then rt_loop c vl vr dmin dmax n f' df' rts' xh rts' dx' dx
          else rt_loop c vl vr dmin dmax n f' df' xl rts' rts' dx' dx end)) = Some (r, b) /\
       dmin <= r <= dmax /\ (b = true -> Rabs (r - root) <= xacc * (dmax / dmin))).
  { intros rts' dx' B C. destruct (Rlt_dec (Rabs dx') xacc) as [T|T].
    - exists rts', true. split; [reflexivity|]. split; [lra|]. intros _. now apply C.
    - rewrite (srder_ok c Wl Wr Hl Hr) by lra. cbn [obind].
      destruct (Rlt_dec (gap rts') 0) as [F|F].
      + apply IH; try lra. split; [|lra].
        destruct (Rle_dec rts' root) as [|N]; [assumption|]. exfalso.
        assert (gap root < gap rts') by (apply gap_lt; lra). lra.
      + apply IH; try lra. split; [lra|].
        destruct (Rle_dec root rts') as [|N]; [assumption|]. exfalso.
        assert (gap rts' < gap root) by (apply gap_lt; lra). lra. }
  pose proof (slope_pos rts ltac:(lra)) as D.
  destruct (if Rlt_dec 0 (((rts - xh) * slope rts - gap rts) * ((rts - xl) * slope rts - gap rts)) then true
            else if Rlt_dec (Rabs (dxold * slope rts)) (Rabs (2 * gap rts)) then true else false) eqn:C.
  - destruct (Req_EM_T xl (xl + half * (xh - xl))) as [E|E].
    + exists (xl + half * (xh - xl)), true. unfold half in *. repeat split; try lra.
      intros _. replace (xl + 1 / 2 * (xh - xl) - root) with 0 by lra. rewrite Rabs_R0. lra.
    + apply go; unfold half in *; [lra|]. intro T. apply Rle_trans with xacc; [|exact XK].
      apply Rlt_le. eapply Rle_lt_trans; [|exact T]. rewrite (Rabs_right (1 / 2 * (xh - xl))) by lra.
      apply Rabs_le. lra.
  - assert (A : ((rts - xh) * slope rts - gap rts) * ((rts - xl) * slope rts - gap rts) <= 0).
    { destruct (Rlt_dec 0 (((rts - xh) * slope rts - gap rts) * ((rts - xl) * slope rts - gap rts))); [discriminate|lra]. }
    assert (AB : (rts - xh) * slope rts - gap rts <= (rts - xl) * slope rts - gap rts).
    { apply Rplus_le_compat_r. apply Rmult_le_compat_r; lra. }
    destruct (signs _ _ AB A) as [B1 B2].
    unfold odiv. destruct (Req_EM_T (slope rts) 0) as [|_]; [lra|]. cbn [obind].
    assert (R1 : rts - gap rts / slope rts <= xh).
    { apply Rmult_le_reg_r with (slope rts); [exact D|]. unfold Rdiv. rewrite Rmult_minus_distr_r, Rmult_assoc, Rinv_l; lra. }
    assert (R2 : xl <= rts - gap rts / slope rts).
    { apply Rmult_le_reg_r with (slope rts); [exact D|]. unfold Rdiv. rewrite Rmult_minus_distr_r, Rmult_assoc, Rinv_l; lra. }
    pose proof (newton_close rts root ltac:(lra) ltac:(lra) Z) as N.
    destruct (Req_EM_T rts (rts - gap rts / slope rts)) as [E|E].
    + exists (rts - gap rts / slope rts), true. repeat split; try lra.
      intros _. eapply Rle_trans; [exact N|].
      assert (gap rts / slope rts = 0) as -> by lra. rewrite Rabs_R0. nra.
    + apply go; [lra|]. intro T. eapply Rle_trans; [exact N|].
      apply Rmult_le_compat_r; lra.
Qed.

(** The case with one shock and one rarefaction. *)
Definition mixed : Prop := dmin < draref c Wl Wr /\ zmid c Wl Wr * zmid c Wl Wr < dmax.

Lemma rtsafe_ok root : mixed -> dmin <= root <= dmax -> gap root = 0 ->
  exists r b, rtsafe c dmin dmax vl vr dmin dmax = Some (r, b) /\
    dmin <= r <= dmax /\ (b = true -> Rabs (r - root) <= xacc * (dmax / dmin)).
Proof.
  intros [M1 M2] Hroot Z. pose proof (dmin_pos Wl Wr Hl Hr) as P. pose proof (dmin_max Wl Wr) as Q.
  pose proof (gap_lo c Hc Wl Wr Hl Hr M1) as L. pose proof (gap_hi c Hc Wl Wr Hl Hr M2) as U.
  unfold rtsafe. rewrite !(srder_ok c Wl Wr Hl Hr) by (unfold half; lra). cbn [obind].
  destruct (Rlt_dec 0 (gap dmin)); [lra|]. destruct (Rlt_dec (gap dmin) 0) as [_|]; [|lra].
  destruct (Rlt_dec (gap dmax) 0); [lra|]. cbn [orb].
  destruct (Req_EM_T (gap dmin) 0); [lra|]. destruct (Req_EM_T (gap dmax) 0); [lra|].
  apply loop_ok; unfold half; lra.
Qed.

Lemma odiv_ok a b : b <> 0 -> odiv a b = Some (a / b).
Proof. intro H. unfold odiv. destruct (Req_EM_T b 0); [contradiction|reflexivity]. Qed.
Lemma osqrt_ok a : 0 <= a -> osqrt a = Some (sqrt a).
Proof. intro H. unfold osqrt. destruct (Rlt_dec a 0); [lra|reflexivity]. Qed.
Lemma olog_ok a : 0 < a -> olog a = Some (ln a).
Proof. intro H. unfold olog. destruct (Rlt_dec 0 a); [reflexivity|lra]. Qed.
Lemma ln_quot a b : 0 < a -> 0 < b -> ln (a / b) = ln a - ln b.
Proof. intros. unfold Rdiv. rewrite ln_mult by (try apply Rinv_0_lt_compat; lra). rewrite ln_Rinv by lra. ring. Qed.

Lemma two_rarefactions_ok :
  two_rarefactions c Wl Wr (sqrt dl) (sqrt dr) = Some (draref c Wl Wr, vl - chi c (draref c Wl Wr) dl).
Proof.
  pose proof (draref_pos c Wl Wr Hl Hr) as D. unfold two_rarefactions.
  rewrite odiv_ok by lra. cbn [obind].
  change (sqrt dl * sqrt dr * exp ((vl - vr) / (2 * c))) with (draref c Wl Wr).
  rewrite odiv_ok by lra. cbn [obind]. rewrite olog_ok by (apply Rdiv_lt_0_compat; lra). cbn [obind].
  rewrite ln_quot by lra. reflexivity.
Qed.

(** What step 1 of the code finds. *)
Lemma intermediate_ok :
  let z2 := zmid c Wl Wr * zmid c Wl Wr in
  (dmax <= z2 -> intermediate c Wl Wr (sqrt dl) (sqrt dr) = Some (Star false false z2 (vl - psi c z2 dl))) /\
  (z2 < dmax -> draref c Wl Wr <= dmin ->
     intermediate c Wl Wr (sqrt dl) (sqrt dr) = Some (Star true true (draref c Wl Wr) (vl - chi c (draref c Wl Wr) dl))) /\
  (mixed -> exists r b, rtsafe c dmin dmax vl vr dmin dmax = Some (r, b) /\
     intermediate c Wl Wr (sqrt dl) (sqrt dr) =
       Some (if Rlt_dec dmin r then
               if Rlt_dec dr dl then Star true false r (vl - chi c r dl) else Star false true r (vr + chi c r dr)
             else Star true true (draref c Wl Wr) (vl - chi c (draref c Wl Wr) dl))).
Proof.
  intro z2. destruct (zpos Wl Wr Hl Hr) as [Z1 Z2]. pose proof (zmid_pos c Wl Wr Hl Hr) as Zm.
  pose proof (zrad c Wl Wr Hl Hr) as Zr. pose proof (dmin_pos Wl Wr Hl Hr) as P.
  assert (E : intermediate c Wl Wr (sqrt dl) (sqrt dr) =
    if Rlt_dec z2 dmax then
      if Rlt_dec dmin (draref c Wl Wr) then
      '(dm3, _) <~ rtsafe c dmin dmax vl vr dmin dmax ;;
      if Rlt_dec dmin dm3 then
        if Rle_dec dm3 dmax then
          if Rlt_dec dr dl then
            q <~ odiv dm3 dl ;; l <~ olog q ;; Some (Star true false dm3 (vl - c * l))
          else
            q <~ odiv dm3 dr ;; l <~ olog q ;; Some (Star false true dm3 (vr + c * l))
        else Some (Star true true (draref c Wl Wr) (vl - chi c (draref c Wl Wr) dl))
      else Some (Star true true (draref c Wl Wr) (vl - chi c (draref c Wl Wr) dl))
      else Some (Star true true (draref c Wl Wr) (vl - chi c (draref c Wl Wr) dl))
    else Some (Star false false z2 (vl - psi c z2 dl))).
  { unfold intermediate. rewrite odiv_ok by nra. cbn [obind].
    change (sqrt dl * sqrt dr * (vl - vr) / (2 * c * (sqrt dl + sqrt dr))) with (ztmp c Wl Wr).
    rewrite osqrt_ok by lra. cbn [obind].
    change (ztmp c Wl Wr + sqrt (ztmp c Wl Wr * ztmp c Wl Wr + sqrt dl * sqrt dr)) with (zmid c Wl Wr).
    rewrite odiv_ok by nra. cbn [obind]. rewrite two_rarefactions_ok. cbn [obind].
    fold z2. change (MAX dl dr) with dmax. change (MIN dl dr) with dmin.
    assert (V : c * (z2 - dl) / (zmid c Wl Wr * sqrt dl) = psi c z2 dl).
    { unfold psi, z2. rewrite sqrt_square by lra.
      rewrite <- (sqrt_sqrt dl) at 1 by lra. field. lra. }
    rewrite V. reflexivity. }
  rewrite E. clear E. split; [|split].
  - intro H. destruct (Rlt_dec z2 dmax); [lra|reflexivity].
  - intros H1 H2. destruct (Rlt_dec z2 dmax); [|lra]. destruct (Rlt_dec dmin (draref c Wl Wr)); [lra|reflexivity].
  - intros [M1 M2].
    destruct (gap_zero c Hc Wl Wr Hl Hr M1 M2) as (root & R1 & R2).
    destruct (rtsafe_ok root (conj M1 M2) ltac:(lra) R2) as (r & b & E & B & _).
    exists r, b. split; [exact E|].
    destruct (Rlt_dec z2 dmax) as [_|N]; [|exfalso; apply N; exact M2].
    destruct (Rlt_dec dmin (draref c Wl Wr)) as [_|]; [|contradiction].
    rewrite E. cbn [obind]. destruct (Rlt_dec dmin r) as [G|G]; [|reflexivity].
    destruct (Rle_dec r dmax) as [_|]; [|lra].
    destruct (Rlt_dec dr dl).
    + rewrite odiv_ok by lra. cbn [obind]. rewrite olog_ok by (apply Rdiv_lt_0_compat; lra). cbn [obind].
      rewrite ln_quot by lra. reflexivity.
    + rewrite odiv_ok by lra. cbn [obind]. rewrite olog_ok by (apply Rdiv_lt_0_compat; lra). cbn [obind].
      rewrite ln_quot by lra. reflexivity.
Qed.

End Root.
