(** * Sampling the solution of the isothermal Riemann problem at x = 0 *)
From Coq Require Import Reals List Bool Lra Lia Psatz.
From Verif Require Import GasModel ExactModel ExactSpec ExactFacts ExactRoot.
Import ListNotations.
Open Scope R_scope.

Lemma cons1_eq a b c d a' b' c' d' l l' :
  a = a' -> b = b' -> c = c' -> d = d' -> l = l' -> Cons1 a b c d 0 0 0 l = Cons1 a' b' c' d' 0 0 0 l'.
Proof. now intros -> -> -> -> ->. Qed.
Lemma map_mul (l : list R) a b : a = b -> map (fun r => a * r) l = map (fun r => b * r) l.
Proof. now intros ->. Qed.

Section Sample.
Variable c : R.
Hypothesis Hc : 0 < c.
Variables Wl Wr : prim1.
Variables Ul Ur : cons1.
Hypothesis Hl : 0 < wd Wl.
Hypothesis Hr : 0 < wd Wr.
Hypothesis Cl : conserved Wl Ul.
Hypothesis Cr : conserved Wr Ur.
Notation dl := (wd Wl).
Notation dr := (wd Wr).
Notation vl := (wvx Wl).
Notation vr := (wvx Wr).

Lemma outer_gas W U : conserved W U -> outer_flux c U W = gas_flux c (wd W) (wvx W) W.
Proof.
  intros (A & B & C & D). unfold outer_flux, gas_flux. rewrite B, C, D.
  apply cons1_eq; try ring. now apply map_mul.
Qed.
Lemma fan_gas d u W : d <> 0 -> fan_flux c d (d * u) W = gas_flux c d u W.
Proof.
  intro H. unfold fan_flux, gas_flux. destruct (Req_EM_T d 0); [contradiction|].
  apply cons1_eq; try reflexivity. field. exact H.
Qed.
Lemma star_gas d u : star_flux c d u Wl Wr = gas_flux c d u (if Rle_dec 0 u then Wl else Wr).
Proof. unfold star_flux, gas_flux. apply cons1_eq; try ring; reflexivity. Qed.

Record good (s : star) : Prop := {
  g_btw : between c Wl Wr (sdm s) (svx s);
  g_lr : lraref s = true -> sdm s <= dl;
  g_ls : lraref s = false -> dl <= sdm s;
  g_rr : rraref s = true -> sdm s <= dr;
  g_rs : rraref s = false -> dr <= sdm s }.

Lemma left_ok s : good s ->
  exists o, left_part c s Ul Wl (sqrt dl) = Some o /\
    match o with
    | Some F => 0 <= svx s /\ exists d u, left_of c dl vl (sdm s) (svx s) 0 d u /\ F = gas_flux c d u Wl
    | None => left_of c dl vl (sdm s) (svx s) 0 (sdm s) (svx s)
    end.
Proof.
  intros [B LR LS _ _]. apply between_phi in B; [|assumption|assumption|assumption].
  destruct B as (Hd & Hu & _). unfold left_part. destruct (lraref s).
  - specialize (LR eq_refl). assert (RL : raref_left c dl vl (sdm s) (svx s)).
    { split; [exact LR|]. rewrite phi_le in Hu by lra. unfold chi in Hu. lra. }
    assert (Hv : vl <= svx s).
    { rewrite phi_le in Hu by lra. unfold chi in Hu.
      destruct (Req_dec (sdm s) dl) as [E|E]; [rewrite E in Hu; lra|].
      pose proof (ln_lt (sdm s) dl Hd ltac:(lra)). nra. }
    destruct (Rle_dec 0 (vl - c)) as [H|H].
    + eexists. split; [reflexivity|]. cbv beta iota. split; [lra|]. exists dl, vl.
      split; [now apply left_head | now apply outer_gas].
    + destruct (Rle_dec 0 (svx s - c)) as [H'|H'].
      * rewrite odiv_ok by lra. cbn [obind]. eexists. split; [reflexivity|]. cbv beta iota. split; [lra|].
        destruct Cl as (C1 & _). rewrite C1.
        pose proof (exp_pos ((vl - c) / c)) as X.
        exists (dl * exp ((vl - c) / c)), c. split.
        -- apply left_fan; [exact RL|lra|nra|lra|].
           rewrite ln_mult by assumption. rewrite ln_exp. field. lra.
        -- replace (dl * c * exp ((vl - c) / c)) with (dl * exp ((vl - c) / c) * c) by ring.
           apply fan_gas. nra.
      * exists None. split; [reflexivity|]. apply left_tail; [exact RL|lra].
  - specialize (LS eq_refl). rewrite osqrt_ok by lra. cbn [obind].
    pose proof (sqrt_lt_R0 dl Hl) as S1. pose proof (sqrt_lt_R0 _ Hd) as S2.
    rewrite odiv_ok by lra. cbn [obind].
    assert (E : c * sqrt (sdm s) / sqrt dl = c * (sqrt (sdm s) / sqrt dl)) by (unfold Rdiv; ring).
    rewrite E. clear E.
    rewrite phi_ge in Hu by lra.
    assert (Hs : vl - c * (sqrt (sdm s) / sqrt dl) < svx s).
    { unfold psi in Hu. assert (0 < sqrt dl / sqrt (sdm s)) by (apply Rdiv_lt_0_compat; lra). nra. }
    destruct (Req_dec (sdm s) dl) as [E|E].
    + assert (Hv : svx s = vl) by (rewrite E in Hu; unfold psi in Hu; lra).
      assert (RL : raref_left c dl vl (sdm s) (svx s)) by (split; [lra | rewrite E, Hv; reflexivity]).
      assert (Q : sqrt (sdm s) / sqrt dl = 1) by (rewrite E; field; lra).
      destruct (Rle_dec 0 (vl - c * (sqrt (sdm s) / sqrt dl))) as [H|H]; rewrite Q in H.
      * eexists. split; [reflexivity|]. cbv beta iota. split; [lra|]. exists dl, vl.
        split; [apply left_head; [exact RL|lra] | now apply outer_gas].
      * exists None. split; [reflexivity|]. apply left_tail; [exact RL|lra].
    + assert (SL : shock_left c dl vl (sdm s) (svx s) (vl - c * (sqrt (sdm s) / sqrt dl))).
      { apply shock_left_psi; [assumption|assumption|assumption|]. repeat split; lra. }
      destruct (Rle_dec 0 (vl - c * (sqrt (sdm s) / sqrt dl))) as [H|H].
      * eexists. split; [reflexivity|]. cbv beta iota. split; [lra|]. exists dl, vl.
        split; [now apply (left_ahead _ _ _ _ _ _ _ SL) | now apply outer_gas].
      * exists None. split; [reflexivity|]. apply (left_behind _ _ _ _ _ _ _ SL). lra.
Qed.

Lemma right_ok s : good s ->
  exists o, right_part c s Ur Wr (sqrt dr) = Some o /\
    match o with
    | Some F => svx s <= 0 /\ exists d u, right_of c dr vr (sdm s) (svx s) 0 d u /\ F = gas_flux c d u Wr
    | None => right_of c dr vr (sdm s) (svx s) 0 (sdm s) (svx s)
    end.
Proof.
  intros [B _ _ RR RS]. apply between_phi in B; [|assumption|assumption|assumption].
  destruct B as (Hd & Hu & Hsum). assert (Hu' : svx s = vr + phi c (sdm s) dr) by lra. clear Hu Hsum.
  unfold right_part. destruct (rraref s).
  - specialize (RR eq_refl). assert (RL : raref_right c dr vr (sdm s) (svx s)).
    { split; [exact RR|]. rewrite phi_le in Hu' by lra. unfold chi in Hu'. lra. }
    assert (Hv : svx s <= vr).
    { rewrite phi_le in Hu' by lra. unfold chi in Hu'.
      destruct (Req_dec (sdm s) dr) as [E|E]; [rewrite E in Hu'; lra|].
      pose proof (ln_lt (sdm s) dr Hd ltac:(lra)). nra. }
    destruct (Rle_dec (vr + c) 0) as [H|H].
    + eexists. split; [reflexivity|]. cbv beta iota. split; [lra|]. exists dr, vr.
      split; [now apply right_head | now apply outer_gas].
    + destruct (Rle_dec (svx s + c) 0) as [H'|H'].
      * rewrite odiv_ok by lra. cbn [obind]. eexists. split; [reflexivity|]. cbv beta iota. split; [lra|].
        pose proof (exp_pos (- (svx s + c) / c)) as X.
        exists (sdm s * exp (- (svx s + c) / c)), (- c). split.
        -- apply right_fan; [exact RL|lra|nra|lra|].
           rewrite ln_mult by assumption. rewrite ln_exp.
           destruct RL as [_ RL].
           replace (- c - c * (ln (sdm s) + - (svx s + c) / c)) with (svx s - c * ln (sdm s)) by (field; lra).
           exact RL.
        -- replace (- sdm s * c * exp (- (svx s + c) / c)) with (sdm s * exp (- (svx s + c) / c) * - c) by ring.
           apply fan_gas. nra.
      * exists None. split; [reflexivity|]. apply right_tail; [exact RL|lra].
  - specialize (RS eq_refl). rewrite osqrt_ok by lra. cbn [obind].
    pose proof (sqrt_lt_R0 dr Hr) as S1. pose proof (sqrt_lt_R0 _ Hd) as S2.
    rewrite odiv_ok by lra. cbn [obind].
    assert (E : c * sqrt (sdm s) / sqrt dr = c * (sqrt (sdm s) / sqrt dr)) by (unfold Rdiv; ring).
    rewrite E. clear E.
    rewrite phi_ge in Hu' by lra.
    assert (Hs : svx s < vr + c * (sqrt (sdm s) / sqrt dr)).
    { unfold psi in Hu'. assert (0 < sqrt dr / sqrt (sdm s)) by (apply Rdiv_lt_0_compat; lra). nra. }
    destruct (Req_dec (sdm s) dr) as [E|E].
    + assert (Hv : svx s = vr) by (rewrite E in Hu'; unfold psi in Hu'; lra).
      assert (RL : raref_right c dr vr (sdm s) (svx s)) by (split; [lra | rewrite E, Hv; reflexivity]).
      assert (Q : sqrt (sdm s) / sqrt dr = 1) by (rewrite E; field; lra).
      destruct (Rle_dec (vr + c * (sqrt (sdm s) / sqrt dr)) 0) as [H|H]; rewrite Q in H.
      * eexists. split; [reflexivity|]. cbv beta iota. split; [lra|]. exists dr, vr.
        split; [apply right_head; [exact RL|lra] | now apply outer_gas].
      * exists None. split; [reflexivity|]. apply right_tail; [exact RL|lra].
    + assert (SL : shock_right c dr vr (sdm s) (svx s) (vr + c * (sqrt (sdm s) / sqrt dr))).
      { apply shock_right_psi; [assumption|assumption|assumption|]. repeat split; lra. }
      destruct (Rle_dec (vr + c * (sqrt (sdm s) / sqrt dr)) 0) as [H|H].
      * eexists. split; [reflexivity|]. cbv beta iota. split; [lra|]. exists dr, vr.
        split; [now apply (right_ahead _ _ _ _ _ _ _ SL) | now apply outer_gas].
      * exists None. split; [reflexivity|]. apply (right_behind _ _ _ _ _ _ _ SL). lra.
Qed.

Lemma flux_star s : intermediate c Wl Wr (sqrt dl) (sqrt dr) = Some s -> 0 < sdm s ->
  exact_fluxes c Ul Ur Wl Wr =
  match left_part c s Ul Wl (sqrt dl) with
  | None => NotANumber
  | Some (Some F) => Flux F
  | Some None => match right_part c s Ur Wr (sqrt dr) with
                 | None => NotANumber
                 | Some (Some F) => Flux F
                 | Some None => Flux (star_flux c (sdm s) (svx s) Wl Wr)
                 end
  end.
Proof.
  intros E P. unfold exact_fluxes. destruct Cl as (C1 & _), Cr as (C2 & _). rewrite C1, C2.
  destruct (Rlt_dec 0 dl); [|contradiction]. destruct (Rlt_dec 0 dr); [|contradiction].
  rewrite !osqrt_ok by lra. cbn [obind]. rewrite E. cbn [obind].
  destruct (Rlt_dec (sdm s) 0); [lra|reflexivity].
Qed.

Lemma sample s : intermediate c Wl Wr (sqrt dl) (sqrt dr) = Some s -> good s ->
  exists F, exact_fluxes c Ul Ur Wl Wr = Flux F /\ exact_flux c Wl Wr F.
Proof.
  intros E G. pose proof (g_btw s G) as B.
  rewrite (flux_star s E) by apply B.
  destruct (left_ok s G) as (o & Eo & H). rewrite Eo. destruct o as [F|].
  - exists F. split; [reflexivity|]. destruct H as (H1 & d & u & H2 & H3).
    exists (sdm s), (svx s), d, u. split; [exact B|]. left. auto.
  - destruct (right_ok s G) as (o' & Eo' & H'). rewrite Eo'. destruct o' as [F|].
    + exists F. split; [reflexivity|]. destruct H' as (H1 & d & u & H2 & H3).
      exists (sdm s), (svx s), d, u. split; [exact B|]. right. auto.
    + eexists. split; [reflexivity|]. rewrite star_gas.
      exists (sdm s), (svx s), (sdm s), (svx s). split; [exact B|].
      destruct (Rle_dec 0 (svx s)) as [T|T]; [left | right]; repeat split; auto; lra.
Qed.

(** Whatever the iteration returns, the call stores a flux. *)
Lemma runs s : intermediate c Wl Wr (sqrt dl) (sqrt dr) = Some s -> 0 < sdm s ->
  exists F, exact_fluxes c Ul Ur Wl Wr = Flux F.
Proof.
  intros E P. rewrite (flux_star s E P).
  pose proof (sqrt_lt_R0 dl Hl). pose proof (sqrt_lt_R0 dr Hr).
  assert (L : exists o, left_part c s Ul Wl (sqrt dl) = Some o).
  { unfold left_part. destruct (lraref s).
    - destruct (Rle_dec 0 (vl - c)); [eauto|]. destruct (Rle_dec 0 (svx s - c)); [|eauto].
      rewrite odiv_ok by lra. cbn [obind]. eauto.
    - rewrite osqrt_ok by lra. cbn [obind]. rewrite odiv_ok by lra. cbn [obind].
      destruct (Rle_dec 0 (vl - c * sqrt (sdm s) / sqrt dl)); eauto. }
  assert (R : exists o, right_part c s Ur Wr (sqrt dr) = Some o).
  { unfold right_part. destruct (rraref s).
    - destruct (Rle_dec (vr + c) 0); [eauto|]. destruct (Rle_dec (svx s + c) 0); [|eauto].
      rewrite odiv_ok by lra. cbn [obind]. eauto.
    - rewrite osqrt_ok by lra. cbn [obind]. rewrite odiv_ok by lra. cbn [obind].
      destruct (Rle_dec (vr + c * sqrt (sdm s) / sqrt dr) 0); eauto. }
  destruct L as ([F|] & ->); [eauto|]. destruct R as ([F|] & ->); eauto.
Qed.

End Sample.
