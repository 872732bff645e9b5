(** * The linear systems behind Roe's solver

    For each of the four eigensystems of esystem_roe.c: the strengths the code
    computes decompose every vector completely, and the left vectors are
    eigenvectors of the matrix that linearises the equations. *)
From Coq Require Import Reals Lra List Arith Lia.
From Verif Require Import GasModel GasSpec ConvProps FluxModel FluxProps FluxProps2 RoeAlgebra.
Import ListNotations.
Open Scope R_scope.

(** Component [k] of the sum of the waves, each weighted by a function of its speed. *)
Fixpoint csum (f : R -> R) (k : nat) (waves : list (R * R * list R)) : R :=
  match waves with
  | [] => 0
  | (s, a, r) :: rest => f s * a * nth k r 0 + csum f k rest
  end.
Definition waves_of (ev : list R) (em : eigen) (w : list R) : list (R * R * list R) :=
  combine (combine ev (map (fun l => vdot l w) (e_l em))) (e_r em).

(** [A] is the matrix with these eigenvalues and eigenvectors. *)
Definition linear_system (n : nat) (ev : list R) (em : eigen) (A : list R -> list R) : Prop :=
  (forall w, length w = n -> length (A w) = n) /\
  (forall w, length w = n -> forall k, csum (fun _ => 1) k (waves_of ev em w) = nth k w 0) /\
  (forall w, length w = n ->
     map (fun l => vdot l (A w)) (e_l em) = vzip Rmult ev (map (fun l => vdot l w) (e_l em))).

Lemma cons_eq {A} (a b : A) l m : a = b -> l = m -> a :: l = b :: m.
Proof. congruence. Qed.
Ltac destr_len w :=
  let L := fresh "L" in intros L;
  repeat match type of L with length w = S _ => destruct w as [|?w w]; [discriminate L|]; cbn [length] in L; apply Nat.succ_inj in L end;
  destruct w; [|discriminate L]; clear L.

(** ** Isothermal hydrodynamics *)
Definition A_iso_hyd (a v1 v2 v3 : R) (w : list R) : list R :=
  match w with
  | [w0; w1; w2; w3] =>
      let m1 := w1 - v1 * w0 in
      [w1; v1 * w1 + v1 * m1 + a * a * w0; v1 * w2 + v2 * m1; v1 * w3 + v3 * m1]
  | _ => []
  end.
Lemma lin_iso_hyd a r : 0 < a ->
  exists em, esys_iso_hyd a r = Some em /\
    linear_system 4 [r_v1 r - a; r_v1 r; r_v1 r; r_v1 r + a] em (A_iso_hyd a (r_v1 r) (r_v2 r) (r_v3 r)).
Proof.
  intros Ha. unfold esys_iso_hyd. rewrite !odiv_ok by lra. cbn [obind].
  set (v1 := r_v1 r). set (v2 := r_v2 r). set (v3 := r_v3 r). clearbody v1 v2 v3.
  eexists. split; [reflexivity|]. split; [|split].
  - intros w. destr_len w. reflexivity.
  - intros w. destr_len w. intros k. cbn [waves_of e_l e_r map combine csum vdot].
    destruct k as [|[|[|[|k]]]]; cbn [nth]; unfold half; try (field; lra).
    destruct k; cbn [nth]; ring.
  - intros w. destr_len w. cbn [A_iso_hyd e_l map vdot vzip]. cbv zeta. unfold half. repeat (apply cons_eq; [field; lra|]). reflexivity.
Qed.

(** ** Adiabatic hydrodynamics *)
Definition A_adb_hyd (g1 asq v1 v2 v3 : R) (w : list R) : list R :=
  match w with
  | [w0; w1; w2; w3; w4] =>
      let m1 := w1 - v1 * w0 in
      let vsq := v1 * v1 + v2 * v2 + v3 * v3 in
      let dp := g1 * (w4 - (v1 * w1 + v2 * w2 + v3 * w3) + vsq / 2 * w0) in
      let u1 := v1 * w1 + v1 * m1 + dp in
      let u2 := v1 * w2 + v2 * m1 in
      let u3 := v1 * w3 + v3 * m1 in
      [w1; u1; u2; u3; (v1 * dp + asq * m1) / g1 + (v1 * u1 + v2 * u2 + v3 * u3) - vsq / 2 * w1]
  | _ => []
  end.
Lemma lin_adb_hyd c g r : g_eos c = Adiabatic g -> 1 < g ->
  TINY_NUMBER <= r_h r - half * (r_v1 r * r_v1 r + r_v2 r * r_v2 r + r_v3 r * r_v3 r) ->
  exists em a, esys_adb_hyd c r = Some em /\ osqrt (adb_asq c r) = Some a /\ 0 < a /\
    a * a = (g - 1) * (r_h r - half * (r_v1 r * r_v1 r + r_v2 r * r_v2 r + r_v3 r * r_v3 r)) /\
    linear_system 5 [r_v1 r - a; r_v1 r; r_v1 r; r_v1 r; r_v1 r + a] em (A_adb_hyd (g - 1) (a * a) (r_v1 r) (r_v2 r) (r_v3 r)).
Proof.
  intros GE Hg FL. unfold esys_adb_hyd, adb_asq, gam1. rewrite GE.
  set (v1 := r_v1 r) in *. set (v2 := r_v2 r) in *. set (v3 := r_v3 r) in *. set (h := r_h r) in *. clearbody v1 v2 v3 h.
  set (k := h - half * (v1 * v1 + v2 * v2 + v3 * v3)) in *.
  assert (T := TINY_pos). assert (MK : MAX k TINY_NUMBER = k) by (unfold MAX; destruct (Rlt_dec _ _); lra).
  rewrite MK. assert (AP : 0 < (g - 1) * k) by (apply Rmult_lt_0_compat; lra).
  rewrite osqrt_ok by lra. cbn [obind].
  assert (SP := sqrt_lt_R0 _ AP). assert (SS := sqrt_sqrt ((g - 1) * k) ltac:(lra)).
  set (a := sqrt ((g - 1) * k)) in *. clearbody a. rewrite <- SS. rewrite !odiv_ok by (apply Rgt_not_eq, Rmult_lt_0_compat; assumption).
  cbn [obind]. eexists. exists a. split; [reflexivity|]. split; [reflexivity|]. split; [exact SP|]. split; [reflexivity|].
  assert (HH : h = a * a / (g - 1) + half * (v1 * v1 + v2 * v2 + v3 * v3)) by (rewrite SS; unfold k, half; field; lra).
  clearbody k. clear SS MK FL. subst h. set (g1 := g - 1) in *. assert (G1 : 0 < g1) by (unfold g1; lra). clearbody g1.
  assert (N : g1 <> 0 /\ a <> 0) by lra.
  split; [|split].
  - intros w. destr_len w. reflexivity.
  - intros w. destr_len w. intros j. cbn [waves_of e_l e_r map combine csum vdot].
    destruct j as [|[|[|[|[|j]]]]]; cbn [nth]; unfold half; try (field; lra).
    destruct j; cbn [nth]; ring.
  - intros w. destr_len w. cbn [A_adb_hyd e_l map vdot vzip]. cbv zeta. unfold half. repeat (apply cons_eq; [field; lra|]). reflexivity.
Qed.

(** ** MHD: the relations between the quantities of the eigenvectors *)
Lemma sq_inj x y : 0 <= x -> 0 <= y -> x * x = y * y -> x = y.
Proof. intros X Y H. apply Rsqr_inj; assumption. Qed.
Lemma sign_abs b : 0 <= b * SIGN b /\ SIGN b * SIGN b = 1.
Proof. unfold SIGN. destruct (Rlt_dec b 0); lra. Qed.

(** Everything the next two lemmas need about the speeds [s] and quantities [q]. *)
Definition mhd_rel (yy b1 : R) (r : roe) (s : speeds) (q : mhdq) (a bt ry : R) : Prop :=
  0 < a /\ a * a = s_asq s /\ 0 < q_sqrtd q /\ q_sqrtd q * q_sqrtd q = r_d r /\ 0 < ry /\ ry * ry = yy /\
  q_af q * q_af q + q_as q * q_as q = 1 /\
  q_af q * q_af q * (s_cf s * s_cf s) + q_as q * q_as q * (s_cs s * s_cs s) = a * a /\
  q_af q * q_as q * (s_cf s * s_cf s - s_cs s * s_cs s) * q_sqrtd q = a * q_bt_star q /\
  s_cf s * s_cs s * q_sqrtd q = a * b1 * q_s q /\
  q_s q * q_s q = 1 /\ q_bet2 q * q_bet2 q + q_bet3 q * q_bet3 q = 1 /\ q_bt_star q = ry * bt /\
  s_vax s = b1 * q_s q / q_sqrtd q /\
  r_b2 r = bt * q_bet2 q /\ r_b3 r = bt * q_bet3 q /\
  q_bet2s q = q_bet2 q / ry /\ q_bet3s q = q_bet3 q / ry /\ q_betsq q = / (ry * ry) /\
  q_qf q = s_cf s * q_af q * q_s q /\ q_qs q = s_cs s * q_as q * q_s q /\
  q_afp q = a * q_af q / q_sqrtd q /\ q_asp q = a * q_as q / q_sqrtd q.

Lemma mhd_rel_ok c b1 r yy : eos_ok c -> g_mhd c = true -> roe_ok c r ->
  yy = match g_eos c with Isothermal _ => r_y r | Adiabatic g => (g - 1) - (g - 2) * r_y r end ->
  exists s q a bt ry, mhd_speeds c b1 r = Some s /\ mhd_q yy b1 r s = Some q /\ mhd_rel yy b1 r s q a bt ry /\
    0 < s_cf s /\ 0 <= s_cs s /\ s_cs s <= s_vax s <= s_cf s /\
    s_hp s = r_h r - (b1 * b1 / r_d r + (r_b2 r * r_b2 r + r_b3 r * r_b3 r) / r_d r) /\
    s_asq s = match g_eos c with Isothermal a => a * a + r_x r
              | Adiabatic g => MAX ((g - 1) * (s_hp s - half * (r_v1 r * r_v1 r + r_v2 r * r_v2 r + r_v3 r * r_v3 r))
                                    - (g - 2) * r_x r) TINY_NUMBER end.
Proof.
  intros E M K HY.
  destruct (mhd_speeds_ok c b1 r E M K) as (s & S0 & A0 & CF & CF2 & CS & CS2 & VX0 & VX & VX2 & VXE & BSE & L1 & L2 & L3 & L4 & SUM & PRD & HP & AE).
  destruct (K M) as [D Y]. unfold eos_ok in E. rewrite <- HY in BSE.
  assert (YP : 0 < yy) by (rewrite HY; destruct (g_eos c); lra).
  assert (BS0 : 0 <= s_btstarsq s).
  { rewrite BSE. assert (Z1 := Rle_0_sqr (r_b2 r)). assert (Z2 := Rle_0_sqr (r_b3 r)). unfold Rsqr in *. apply Rmult_le_pos; lra. }
  destruct (mhd_q_ok yy b1 r s YP D A0 BS0 L1 L3) as (q & a & bt & ry & Q0 & BE & BT & B2 & B3 & BST & BST2 & RY & RY2 & BE2 & BE3 & BSQ & AF & AS & R1 & AFE & ASE & SD & SD2 & SG & AP & AA & QF & QS & AFP & ASP).
  exists s, q, a, bt, ry. split; [exact S0|]. split; [exact Q0|].
  destruct (sign_abs b1) as [SA SS].
  split.
  2:{ split; [exact CF|]. split; [exact CS|]. split; [|split; [rewrite HP, VXE; reflexivity|exact AE]].
      split; apply Rsqr_incr_0_var; unfold Rsqr; lra. }
  unfold mhd_rel.
  split; [exact AP|]. split; [exact AA|]. split; [exact SD|]. split; [exact SD2|]. split; [exact RY|]. split; [exact RY2|].
  split; [exact R1|].
  assert (R2 : q_af q * q_af q * s_cfsq s + q_as q * q_as q * s_cssq s = s_asq s).
  { replace (q_as q * q_as q) with (1 - q_af q * q_af q) by lra. lra. }
  split; [rewrite CF2, CS2, AA; exact R2|].
  assert (DI : s_cssq s <= s_cfsq s) by lra.
  split.
  { rewrite CF2, CS2. apply sq_inj.
    - repeat apply Rmult_le_pos; lra.
    - apply Rmult_le_pos; lra.
    - transitivity ((q_af q * q_af q * (s_cfsq s - s_cssq s)) * (q_as q * q_as q * (s_cfsq s - s_cssq s)) * (q_sqrtd q * q_sqrtd q)); [ring|].
      rewrite AFE, ASE, SD2. transitivity ((a * a) * (q_bt_star q * q_bt_star q)); [|ring]. rewrite AA, BST2.
      transitivity ((s_asq s * (s_cfsq s + s_cssq s) - s_asq s * s_asq s - s_cfsq s * s_cssq s) * r_d r); [ring|].
      rewrite SUM, PRD. field. lra. }
  split.
  { rewrite SG. apply sq_inj.
    - repeat apply Rmult_le_pos; lra.
    - rewrite Rmult_assoc. apply Rmult_le_pos; lra.
    - transitivity ((s_cf s * s_cf s) * (s_cs s * s_cs s) * (q_sqrtd q * q_sqrtd q)); [ring|]. rewrite CF2, CS2, SD2, PRD, VXE.
      transitivity ((a * a) * (b1 * b1) * (SIGN b1 * SIGN b1)); [|ring]. rewrite AA, SS. field. lra. }
  split; [rewrite SG; exact SS|]. split; [exact BE|].
  split.
  { apply sq_inj; [exact BST|apply Rmult_le_pos; lra|]. rewrite BST2, BSE, B2, B3.
    transitivity ((ry * ry) * (bt * bt) * (q_bet2 q * q_bet2 q + q_bet3 q * q_bet3 q)); [rewrite RY2; ring|rewrite BE; ring]. }
  split.
  { rewrite SG. apply sq_inj; [exact VX| |].
    - unfold Rdiv. apply Rmult_le_pos; [exact SA|]. apply Rlt_le, Rinv_0_lt_compat, SD.
    - rewrite VX2, VXE, <- SD2. transitivity (b1 * b1 * (SIGN b1 * SIGN b1) / (q_sqrtd q * q_sqrtd q)); [rewrite SS; unfold Rdiv; ring|]. field. lra. }
  rewrite RY2. repeat split; assumption.
Qed.

(** ** Isothermal MHD *)
Definition A_iso_mhd (asq yy d v1 v2 v3 b1 b2 b3 : R) (w : list R) : list R :=
  match w with
  | [w0; w1; w2; w3; w4; w5] =>
      let m1 := w1 - v1 * w0 in
      let m2 := w2 - v2 * w0 in
      let m3 := w3 - v3 * w0 in
      [w1; v1 * w1 + v1 * m1 + asq * w0 + yy * (b2 * w4 + b3 * w5); v1 * w2 + v2 * m1 - b1 * w4; v1 * w3 + v3 * m1 - b1 * w5;
       v1 * w4 + (b2 * m1 - b1 * m2) / d; v1 * w5 + (b3 * m1 - b1 * m3) / d]
  | _ => []
  end.

Section Strengths.
Variables af as_ cf cs a sd bs b1 sg ry bt bet2 bet3 v1 v2 v3 : R.
Hypothesis A0 : a <> 0.
Hypothesis D0 : sd <> 0.
Hypothesis Y0 : ry <> 0.
Hypothesis R1 : af * af + as_ * as_ = 1.
Hypothesis R2 : af * af * (cf * cf) + as_ * as_ * (cs * cs) = a * a.
Hypothesis R3 : af * as_ * (cf * cf - cs * cs) * sd = a * bs.
Let q2 := bet2 / ry / / (ry * ry).
Let q3 := bet3 / ry / / (ry * ry).
Let n := half / (a * a).

Section W.
Variables w0 w1 w2 w3 w4 w5 : R.
Let m1 := w1 - v1 * w0.
Let m2 := w2 - v2 * w0.
Let m3 := w3 - v3 * w0.
Lemma str_fm X : X = (n * af * cf * (cf + v1) - cs * as_ * sg * n * (v2 * q2 + v3 * q3) - n * (a * as_ / sd) * bs) * w0 +
     (- (n * af * cf) * w1 + (cs * as_ * sg * n * q2 * w2 + (cs * as_ * sg * n * q3 * w3 +
     (n * (a * as_ / sd) * (sd * sd) * q2 * w4 + (n * (a * as_ / sd) * (sd * sd) * q3 * w5 + 0))))) ->
  X = fm af as_ cf cs a sd sg ry bet2 bet3 (a * a * w0) m1 m2 m3 w4 w5.
Proof.
  intros ->. assert (R := rel_f af as_ cf cs a sd bs D0 R1 R2 R3). unfold fm, m1, m2, m3, q2, q3, n, half.
  transitivity (((af * (cf * cf) - a * as_ / sd * bs) * w0 - af * cf * (w1 - v1 * w0)
    + cs * as_ * sg * (ry * (bet2 * (w2 - v2 * w0) + bet3 * (w3 - v3 * w0))) + a * as_ * sd * (ry * (bet2 * w4 + bet3 * w5))) / (2 * (a * a))).
  - field. repeat split; assumption.
  - rewrite R. field. assumption.
Qed.
Lemma str_fp X : X = (n * af * cf * (cf - v1) + cs * as_ * sg * n * (v2 * q2 + v3 * q3) - n * (a * as_ / sd) * bs) * w0 +
     (n * af * cf * w1 + (- (cs * as_ * sg * n * q2) * w2 + (- (cs * as_ * sg * n * q3) * w3 +
     (n * (a * as_ / sd) * (sd * sd) * q2 * w4 + (n * (a * as_ / sd) * (sd * sd) * q3 * w5 + 0))))) ->
  X = fp af as_ cf cs a sd sg ry bet2 bet3 (a * a * w0) m1 m2 m3 w4 w5.
Proof.
  intros ->. assert (R := rel_f af as_ cf cs a sd bs D0 R1 R2 R3). unfold fp, m1, m2, m3, q2, q3, n, half.
  transitivity (((af * (cf * cf) - a * as_ / sd * bs) * w0 + af * cf * (w1 - v1 * w0)
    - cs * as_ * sg * (ry * (bet2 * (w2 - v2 * w0) + bet3 * (w3 - v3 * w0))) + a * as_ * sd * (ry * (bet2 * w4 + bet3 * w5))) / (2 * (a * a))).
  - field. repeat split; assumption.
  - rewrite R. field. assumption.
Qed.
Lemma str_sm X : X = (n * as_ * cs * (cs + v1) + cf * af * sg * n * (v2 * q2 + v3 * q3) + n * (a * af / sd) * bs) * w0 +
     (- (n * as_ * cs) * w1 + (- (cf * af * sg * n) * q2 * w2 + (- (cf * af * sg * n) * q3 * w3 +
     (- (n * (a * af / sd) * (sd * sd)) * q2 * w4 + (- (n * (a * af / sd) * (sd * sd)) * q3 * w5 + 0))))) ->
  X = sm af as_ cf cs a sd sg ry bet2 bet3 (a * a * w0) m1 m2 m3 w4 w5.
Proof.
  intros ->. assert (R := rel_s af as_ cf cs a sd bs D0 R1 R2 R3). unfold sm, m1, m2, m3, q2, q3, n, half.
  transitivity (((as_ * (cs * cs) + a * af / sd * bs) * w0 - as_ * cs * (w1 - v1 * w0)
    - cf * af * sg * (ry * (bet2 * (w2 - v2 * w0) + bet3 * (w3 - v3 * w0))) - a * af * sd * (ry * (bet2 * w4 + bet3 * w5))) / (2 * (a * a))).
  - field. repeat split; assumption.
  - rewrite R. field. assumption.
Qed.
Lemma str_sp X : X = (n * as_ * cs * (cs - v1) - cf * af * sg * n * (v2 * q2 + v3 * q3) + n * (a * af / sd) * bs) * w0 +
     (n * as_ * cs * w1 + (- (- (cf * af * sg * n) * q2) * w2 + (- (- (cf * af * sg * n) * q3) * w3 +
     (- (n * (a * af / sd) * (sd * sd)) * q2 * w4 + (- (n * (a * af / sd) * (sd * sd)) * q3 * w5 + 0))))) ->
  X = sp af as_ cf cs a sd sg ry bet2 bet3 (a * a * w0) m1 m2 m3 w4 w5.
Proof.
  intros ->. assert (R := rel_s af as_ cf cs a sd bs D0 R1 R2 R3). unfold sp, m1, m2, m3, q2, q3, n, half.
  transitivity (((as_ * (cs * cs) + a * af / sd * bs) * w0 + as_ * cs * (w1 - v1 * w0)
    + cf * af * sg * (ry * (bet2 * (w2 - v2 * w0) + bet3 * (w3 - v3 * w0))) - a * af * sd * (ry * (bet2 * w4 + bet3 * w5))) / (2 * (a * a))).
  - field. repeat split; assumption.
  - rewrite R. field. assumption.
Qed.
End W.
End Strengths.

Lemma lin_iso_mhd c a0 b1 r : eos_ok c -> g_mhd c = true -> g_eos c = Isothermal a0 -> roe_ok c r ->
  exists s em, mhd_speeds c b1 r = Some s /\ esys_iso_mhd b1 r s = Some em /\
    0 <= s_cs s /\ s_cs s <= s_vax s <= s_cf s /\
    linear_system 6 [r_v1 r - s_cf s; r_v1 r - s_vax s; r_v1 r - s_cs s; r_v1 r + s_cs s; r_v1 r + s_vax s; r_v1 r + s_cf s] em
      (A_iso_mhd (a0 * a0 + r_x r) (r_y r) (r_d r) (r_v1 r) (r_v2 r) (r_v3 r) b1 (r_b2 r) (r_b3 r)).
Proof.
  intros E M GE K.
  destruct (mhd_rel_ok c b1 r (r_y r) E M K) as (s & q & a & bt & ry & S0 & Q0 & REL & CF & CS & ORD & HP & AE).
  { rewrite GE. reflexivity. }
  rewrite GE in AE.
  destruct REL as (AP & AA & SD & SD2 & RY & RY2 & R1 & R2 & R3 & R4 & SG & BE & BS & VAX & B2 & B3 & E2 & E3 & EQ & QF & QS & AFP & ASP).
  exists s. unfold esys_iso_mhd. rewrite Q0. cbn [obind].
  assert (QN : q_betsq q <> 0) by (rewrite EQ; apply Rinv_neq_0_compat, Rgt_not_eq, Rmult_lt_0_compat; exact RY).
  assert (AN : s_asq s <> 0) by (rewrite <- AA; apply Rgt_not_eq, Rmult_lt_0_compat; exact AP).
  rewrite !odiv_ok by (exact QN || exact AN || lra). cbn [obind].
  eexists. split; [exact S0|]. split; [reflexivity|]. split; [exact CS|]. split; [exact ORD|].
  rewrite <- AE. clear E K S0 Q0 HP AE GE M ORD CF CS.
  rewrite QF, QS, AFP, ASP, E2, E3, EQ, B2, B3, VAX, <- RY2, <- SD2, <- AA. clear QF QS AFP ASP E2 E3 EQ B2 B3 VAX RY2 SD2 AA AN QN.
  set (v1 := r_v1 r). set (v2 := r_v2 r). set (v3 := r_v3 r). clearbody v1 v2 v3.
  set (af := q_af q) in *. set (as_ := q_as q) in *. set (cf := s_cf s) in *. set (cs := s_cs s) in *.
  set (sd := q_sqrtd q) in *. set (sg := q_s q) in *. set (bet2 := q_bet2 q) in *. set (bet3 := q_bet3 q) in *.
  set (bs := q_bt_star q) in *. clearbody af as_ cf cs sd sg bet2 bet3 bs.
  assert (A0 : a <> 0) by lra. assert (D0 : sd <> 0) by lra. assert (Y0 : ry <> 0) by lra. clear AP SD RY.
  match goal with |- linear_system _ _ (Eigen ?rr ?ll) _ => set (L := ll) end.
  assert (STR : forall w0 w1 w2 w3 w4 w5, let m1 := w1 - v1 * w0 in let m2 := w2 - v2 * w0 in let m3 := w3 - v3 * w0 in
    map (fun l => vdot l [w0; w1; w2; w3; w4; w5]) L =
    [fm af as_ cf cs a sd sg ry bet2 bet3 (a * a * w0) m1 m2 m3 w4 w5;
     am sd sg bet2 bet3 m2 m3 w4 w5;
     sm af as_ cf cs a sd sg ry bet2 bet3 (a * a * w0) m1 m2 m3 w4 w5;
     sp af as_ cf cs a sd sg ry bet2 bet3 (a * a * w0) m1 m2 m3 w4 w5;
     ap sd sg bet2 bet3 m2 m3 w4 w5;
     fp af as_ cf cs a sd sg ry bet2 bet3 (a * a * w0) m1 m2 m3 w4 w5]).
  { intros w0 w1 w2 w3 w4 w5 m1 m2 m3. unfold L. cbn [map vdot].
    apply cons_eq; [eapply str_fm; [exact A0|exact D0|exact Y0|exact R1|exact R2|exact R3|reflexivity]|].
    apply cons_eq; [unfold am, m2, m3, half; field|].
    apply cons_eq; [eapply str_sm; [exact A0|exact D0|exact Y0|exact R1|exact R2|exact R3|reflexivity]|].
    apply cons_eq; [eapply str_sp; [exact A0|exact D0|exact Y0|exact R1|exact R2|exact R3|reflexivity]|].
    apply cons_eq; [unfold ap, m2, m3, half; field|].
    apply cons_eq; [eapply str_fp; [exact A0|exact D0|exact Y0|exact R1|exact R2|exact R3|reflexivity]|].
    reflexivity. }
  clearbody L. cbv zeta in STR.
  split; [|split].
  - intros w. destr_len w. reflexivity.
  - intros ww L6. destruct ww as [|u0 [|u1 [|u2 [|u3 [|u4 [|u5 [|]]]]]]]; try discriminate L6. clear L6. intros k. unfold waves_of. cbn [e_l e_r]. rewrite STR. cbn [combine csum].
    set (m1 := u1 - v1 * u0). set (m2 := u2 - v2 * u0). set (m3 := u3 - v3 * u0).
    assert (S0 := sum_d af as_ cf cs a sd sg ry bet2 bet3 A0 R1 (a * a * u0) m1 m2 m3 u4 u5).
    assert (S1 := sum_m1 af as_ cf cs a sd sg ry bet2 bet3 A0 R2 (a * a * u0) m1 m2 m3 u4 u5).
    assert (S2 := sum_t af as_ cf cs a sd sg ry bet2 bet3 A0 R2 SG (a * a * u0) m1 m2 m3 u4 u5).
    assert (S3 := sum_b af as_ cf cs a sd sg ry bet2 bet3 A0 D0 R1 (a * a * u0) m1 m2 m3 u4 u5).
    assert (T2 := alf_m2 sd sg ry bet2 bet3 Y0 BE m2 m3 u4 u5).
    assert (T3 := alf_m3 sd sg ry bet2 bet3 Y0 BE m2 m3 u4 u5).
    assert (T4 := alf_b2 sd sg ry bet2 bet3 D0 Y0 SG BE m2 m3 u4 u5).
    assert (T5 := alf_b3 sd sg ry bet2 bet3 D0 Y0 SG BE m2 m3 u4 u5).
    replace (a * a * u0 / (a * a)) with u0 in S0 by (field; exact A0).
    set (Fm := fm _ _ _ _ _ _ _ _ _ _ _ _ _ _ _ _) in *. set (Fp := fp _ _ _ _ _ _ _ _ _ _ _ _ _ _ _ _) in *.
    set (Sm := sm _ _ _ _ _ _ _ _ _ _ _ _ _ _ _ _) in *. set (Sp := sp _ _ _ _ _ _ _ _ _ _ _ _ _ _ _ _) in *.
    set (Am := am _ _ _ _ _ _ _ _) in *. set (Ap := ap _ _ _ _ _ _ _ _) in *. clearbody Fm Fp Sm Sp Am Ap.
    rewrite <- S2 in T2, T3. rewrite <- S3 in T4, T5. clear S2 S3.
    destruct k as [|[|[|[|[|[|k]]]]]]; cbn [nth]; [| | | | | |destruct k; cbn [nth]; ring].
    + transitivity (af * (Fm + Fp) + as_ * (Sm + Sp)); [ring|exact S0].
    + transitivity (v1 * (af * (Fm + Fp) + as_ * (Sm + Sp)) + (af * cf * (Fp - Fm) + as_ * cs * (Sp - Sm))); [ring|].
      rewrite S0, S1. unfold m1. ring.
    + transitivity (v2 * (af * (Fm + Fp) + as_ * (Sm + Sp)) + (bet2 / ry * (cs * as_ * sg * (Fm - Fp) - cf * af * sg * (Sm - Sp)) - bet3 * Am + bet3 * Ap)); [ring|].
      rewrite S0, T2. unfold m2. ring.
    + transitivity (v3 * (af * (Fm + Fp) + as_ * (Sm + Sp)) + (bet3 / ry * (cs * as_ * sg * (Fm - Fp) - cf * af * sg * (Sm - Sp)) + bet2 * Am - bet2 * Ap)); [ring|].
      rewrite S0, T3. unfold m3. ring.
    + rewrite <- T4 at 1. unfold Rdiv. ring.
    + rewrite <- T5 at 1. unfold Rdiv. ring.
  - intros ww L6. destruct ww as [|u0 [|u1 [|u2 [|u3 [|u4 [|u5 [|]]]]]]]; try discriminate L6. clear L6. cbn [A_iso_mhd e_l]. cbv zeta. rewrite !STR.
    set (m1 := u1 - v1 * u0). set (m2 := u2 - v2 * u0). set (m3 := u3 - v3 * u0).
    cbn [vzip].
    (* one step is v1 times the vector plus the step in the frame of the flow *)
    assert (SFM := step_fm af as_ cf cs a sd bs b1 sg ry bt bet2 bet3 A0 D0 R1 R2 R3 R4 SG BE BS (a * a * u0) m1 m2 m3 u4 u5).
    assert (SFP := step_fp af as_ cf cs a sd bs b1 sg ry bt bet2 bet3 A0 D0 R1 R2 R3 R4 SG BE BS (a * a * u0) m1 m2 m3 u4 u5).
    assert (SSM := step_sm af as_ cf cs a sd bs b1 sg ry bt bet2 bet3 A0 D0 R1 R2 R3 R4 SG BE BS (a * a * u0) m1 m2 m3 u4 u5).
    assert (SSP := step_sp af as_ cf cs a sd bs b1 sg ry bt bet2 bet3 A0 D0 R1 R2 R3 R4 SG BE BS (a * a * u0) m1 m2 m3 u4 u5).
    assert (SAM := step_am sd b1 sg bt bet2 bet3 D0 SG m1 m2 m3 u4 u5).
    assert (SAP := step_ap sd b1 sg bt bet2 bet3 D0 SG m1 m2 m3 u4 u5).
    set (Fm := fm _ _ _ _ _ _ _ _ _ _ (a * a * u0) _ _ _ _ _) in *. set (Fp := fp _ _ _ _ _ _ _ _ _ _ (a * a * u0) _ _ _ _ _) in *.
    set (Sm := sm _ _ _ _ _ _ _ _ _ _ (a * a * u0) _ _ _ _ _) in *. set (Sp := sp _ _ _ _ _ _ _ _ _ _ (a * a * u0) _ _ _ _ _) in *.
    set (Am := am _ _ _ _ m2 m3 u4 u5) in *. set (Ap := ap _ _ _ _ m2 m3 u4 u5) in *.
    apply cons_eq; [|apply cons_eq; [|apply cons_eq; [|apply cons_eq; [|apply cons_eq; [|apply cons_eq; [|reflexivity]]]]]].
    + transitivity (v1 * Fm + - cf * Fm); [|ring]. rewrite <- SFM. unfold Fm, fm, m1, m2, m3. field. split; assumption.
    + transitivity (v1 * Am + - (b1 * sg / sd) * Am); [|ring]. rewrite <- SAM. unfold Am, am, m1, m2, m3. field. assumption.
    + transitivity (v1 * Sm + - cs * Sm); [|ring]. rewrite <- SSM. unfold Sm, sm, m1, m2, m3. field. split; assumption.
    + transitivity (v1 * Sp + cs * Sp); [|ring]. rewrite <- SSP. unfold Sp, sp, m1, m2, m3. field. split; assumption.
    + transitivity (v1 * Ap + (b1 * sg / sd) * Ap); [|ring]. rewrite <- SAP. unfold Ap, ap, m1, m2, m3. field. assumption.
    + transitivity (v1 * Fp + cf * Fp); [|ring]. rewrite <- SFP. unfold Fp, fp, m1, m2, m3. field. split; assumption.
Qed.

(** ** Adiabatic MHD *)
Definition A_adb_mhd (g1 g2 asq yy x d v1 v2 v3 b1 b2 b3 : R) (w : list R) : list R :=
  match w with
  | [w0; w1; w2; w3; w4; w5; w6] =>
      let m1 := w1 - v1 * w0 in
      let m2 := w2 - v2 * w0 in
      let m3 := w3 - v3 * w0 in
      let vsq := v1 * v1 + v2 * v2 + v3 * v3 in
      let dp := g1 * (w4 - (v1 * w1 + v2 * w2 + v3 * w3) + vsq / 2 * w0 - (b2 * w5 + b3 * w6)) - g2 * x * w0 in
      let u1 := v1 * w1 + v1 * m1 + dp + yy * (b2 * w5 + b3 * w6) in
      let u2 := v1 * w2 + v2 * m1 - b1 * w5 in
      let u3 := v1 * w3 + v3 * m1 - b1 * w6 in
      let u5 := v1 * w5 + (b2 * m1 - b1 * m2) / d in
      let u6 := v1 * w6 + (b3 * m1 - b1 * m3) / d in
      [w1; u1; u2; u3;
       (v1 * dp + asq * m1 + g2 * x * w1) / g1 + (v1 * u1 + v2 * u2 + v3 * u3) - vsq / 2 * w1 + (b2 * u5 + b3 * u6);
       u5; u6]
  | _ => []
  end.

Lemma fm_shift af as_ cf cs a sd sg ry bet2 bet3 dp dp0 m1 m2 m3 B2 B3 : a <> 0 ->
  fm af as_ cf cs a sd sg ry bet2 bet3 dp m1 m2 m3 B2 B3 =
  fm af as_ cf cs a sd sg ry bet2 bet3 dp0 m1 m2 m3 B2 B3 + af * (dp - dp0) / (2 * (a * a)).
Proof. intros. unfold fm. field. assumption. Qed.
Lemma fp_shift af as_ cf cs a sd sg ry bet2 bet3 dp dp0 m1 m2 m3 B2 B3 : a <> 0 ->
  fp af as_ cf cs a sd sg ry bet2 bet3 dp m1 m2 m3 B2 B3 =
  fp af as_ cf cs a sd sg ry bet2 bet3 dp0 m1 m2 m3 B2 B3 + af * (dp - dp0) / (2 * (a * a)).
Proof. intros. unfold fp. field. assumption. Qed.
Lemma sm_shift af as_ cf cs a sd sg ry bet2 bet3 dp dp0 m1 m2 m3 B2 B3 : a <> 0 ->
  sm af as_ cf cs a sd sg ry bet2 bet3 dp m1 m2 m3 B2 B3 =
  sm af as_ cf cs a sd sg ry bet2 bet3 dp0 m1 m2 m3 B2 B3 + as_ * (dp - dp0) / (2 * (a * a)).
Proof. intros. unfold sm. field. assumption. Qed.
Lemma sp_shift af as_ cf cs a sd sg ry bet2 bet3 dp dp0 m1 m2 m3 B2 B3 : a <> 0 ->
  sp af as_ cf cs a sd sg ry bet2 bet3 dp m1 m2 m3 B2 B3 =
  sp af as_ cf cs a sd sg ry bet2 bet3 dp0 m1 m2 m3 B2 B3 + as_ * (dp - dp0) / (2 * (a * a)).
Proof. intros. unfold sp. field. assumption. Qed.

Lemma lin_adb_mhd c g b1 r : eos_ok c -> g_mhd c = true -> g_eos c = Adiabatic g -> roe_ok c r ->
  let vsq := r_v1 r * r_v1 r + r_v2 r * r_v2 r + r_v3 r * r_v3 r in
  let asq := (g - 1) * (r_h r - (b1 * b1 / r_d r + (r_b2 r * r_b2 r + r_b3 r * r_b3 r) / r_d r) - half * vsq) - (g - 2) * r_x r in
  TINY_NUMBER <= asq ->
  exists s em, mhd_speeds c b1 r = Some s /\ esys_adb_mhd c b1 r s = Some em /\
    0 <= s_cs s /\ s_cs s <= s_vax s <= s_cf s /\
    linear_system 7 [r_v1 r - s_cf s; r_v1 r - s_vax s; r_v1 r - s_cs s; r_v1 r; r_v1 r + s_cs s; r_v1 r + s_vax s; r_v1 r + s_cf s] em
      (A_adb_mhd (g - 1) (g - 2) asq ((g - 1) - (g - 2) * r_y r) (r_x r) (r_d r) (r_v1 r) (r_v2 r) (r_v3 r) b1 (r_b2 r) (r_b3 r)).
Proof.
  intros E M GE K vsq asq FL. assert (G1 : 1 < g) by (unfold eos_ok in E; rewrite GE in E; exact E).
  destruct (mhd_rel_ok c b1 r ((g - 1) - (g - 2) * r_y r) E M K) as (s & q & a & bt & ry & S0 & Q0 & REL & CF & CS & ORD & HP & AE).
  { rewrite GE. reflexivity. }
  rewrite GE, HP in AE. fold vsq in AE. fold asq in AE.
  assert (AE' : s_asq s = asq) by (rewrite AE; unfold MAX; destruct (Rlt_dec _ _); lra). clear AE FL. rename AE' into AE.
  destruct REL as (AP & AA & SD & SD2 & RY & RY2 & R1 & R2 & R3 & R4 & SG & BE & BS & VAX & B2 & B3 & E2 & E3 & EQ & QF & QS & AFP & ASP).
  exists s. unfold esys_adb_mhd, gam1, gam2. rewrite GE, Q0. cbn [obind].
  assert (QN : q_betsq q <> 0) by (rewrite EQ; apply Rinv_neq_0_compat, Rgt_not_eq, Rmult_lt_0_compat; exact RY).
  assert (AN : s_asq s <> 0) by (rewrite <- AA; apply Rgt_not_eq, Rmult_lt_0_compat; exact AP).
  rewrite !odiv_ok by (exact QN || exact AN || lra). cbn [obind].
  eexists. split; [exact S0|]. split; [reflexivity|]. split; [exact CS|]. split; [exact ORD|].
  assert (HPE : s_hp s = (a * a + (g - 2) * r_x r) / (g - 1) + vsq / 2).
  { rewrite AA, AE. unfold asq. rewrite <- HP. unfold half. field. lra. }
  rewrite HPE. rewrite <- AE. unfold vsq. clearbody asq. clear HPE vsq.
  clear E K S0 Q0 HP AE GE M ORD CF CS.
  rewrite QF, QS, AFP, ASP, E2, E3, EQ, B2, B3, VAX, <- RY2, <- SD2, <- AA. clear QF QS AFP ASP E2 E3 EQ B2 B3 VAX RY2 SD2 AA AN QN.
  assert (G0 : g - 1 <> 0) by lra. set (g1 := g - 1) in *. set (g2 := g - 2) in *. clearbody g1 g2. clear G1.
  set (v1 := r_v1 r). set (v2 := r_v2 r). set (v3 := r_v3 r). set (x := r_x r). clearbody v1 v2 v3 x.
  set (af := q_af q) in *. set (as_ := q_as q) in *. set (cf := s_cf s) in *. set (cs := s_cs s) in *.
  set (sd := q_sqrtd q) in *. set (sg := q_s q) in *. set (bet2 := q_bet2 q) in *. set (bet3 := q_bet3 q) in *.
  set (bs := q_bt_star q) in *. clearbody af as_ cf cs sd sg bet2 bet3 bs.
  assert (A0 : a <> 0) by lra. assert (D0 : sd <> 0) by lra. assert (Y0 : ry <> 0) by lra. clear AP SD RY.
  match goal with |- linear_system _ _ (Eigen ?rr ?ll) _ => set (L := ll) end.
  set (DP := fun w0 w1 w2 w3 w4 w5 w6 =>
     g1 * (w4 - (v1 * w1 + v2 * w2 + v3 * w3) + (v1 * v1 + v2 * v2 + v3 * v3) / 2 * w0 - (bt * bet2 * w5 + bt * bet3 * w6)) - g2 * x * w0).
  assert (STR : forall w0 w1 w2 w3 w4 w5 w6, let m1 := w1 - v1 * w0 in let m2 := w2 - v2 * w0 in let m3 := w3 - v3 * w0 in
    let dp := DP w0 w1 w2 w3 w4 w5 w6 in
    map (fun l => vdot l [w0; w1; w2; w3; w4; w5; w6]) L =
    [fm af as_ cf cs a sd sg ry bet2 bet3 dp m1 m2 m3 w5 w6;
     am sd sg bet2 bet3 m2 m3 w5 w6;
     sm af as_ cf cs a sd sg ry bet2 bet3 dp m1 m2 m3 w5 w6;
     w0 - dp / (a * a);
     sp af as_ cf cs a sd sg ry bet2 bet3 dp m1 m2 m3 w5 w6;
     ap sd sg bet2 bet3 m2 m3 w5 w6;
     fp af as_ cf cs a sd sg ry bet2 bet3 dp m1 m2 m3 w5 w6]).
  { intros w0 w1 w2 w3 w4 w5 w6 m1 m2 m3 dp. unfold L. cbn [map vdot].
    rewrite (fm_shift _ _ _ _ _ _ _ _ _ _ dp (a * a * w0)), (fp_shift _ _ _ _ _ _ _ _ _ _ dp (a * a * w0)),
            (sm_shift _ _ _ _ _ _ _ _ _ _ dp (a * a * w0)), (sp_shift _ _ _ _ _ _ _ _ _ _ dp (a * a * w0)) by exact A0.
    unfold m1, m2, m3.
    apply cons_eq; [rewrite <- (str_fm af as_ cf cs a sd bs sg ry bet2 bet3 v1 v2 v3 A0 D0 Y0 R1 R2 R3 w0 w1 w2 w3 w5 w6 _ eq_refl); unfold dp, DP, half; field; repeat split; assumption|].
    apply cons_eq; [unfold am, m2, m3, half; field|].
    apply cons_eq; [rewrite <- (str_sm af as_ cf cs a sd bs sg ry bet2 bet3 v1 v2 v3 A0 D0 Y0 R1 R2 R3 w0 w1 w2 w3 w5 w6 _ eq_refl); unfold dp, DP, half; field; repeat split; assumption|].
    apply cons_eq; [unfold dp, DP, half; field; split; assumption|].
    apply cons_eq; [rewrite <- (str_sp af as_ cf cs a sd bs sg ry bet2 bet3 v1 v2 v3 A0 D0 Y0 R1 R2 R3 w0 w1 w2 w3 w5 w6 _ eq_refl); unfold dp, DP, half; field; repeat split; assumption|].
    apply cons_eq; [unfold ap, m2, m3, half; field|].
    apply cons_eq; [rewrite <- (str_fp af as_ cf cs a sd bs sg ry bet2 bet3 v1 v2 v3 A0 D0 Y0 R1 R2 R3 w0 w1 w2 w3 w5 w6 _ eq_refl); unfold dp, DP, half; field; repeat split; assumption|].
    reflexivity. }
  clearbody L. cbv zeta in STR.
  split; [|split].
  - intros ww L7. destruct ww as [|u0 [|u1 [|u2 [|u3 [|u4 [|u5 [|u6 [|]]]]]]]]; try discriminate L7. reflexivity.
  - intros ww L7. destruct ww as [|u0 [|u1 [|u2 [|u3 [|u4 [|u5 [|u6 [|]]]]]]]]; try discriminate L7. clear L7.
    intros k. unfold waves_of. cbn [e_l e_r]. rewrite STR. cbn [combine csum].
    set (m1 := u1 - v1 * u0). set (m2 := u2 - v2 * u0). set (m3 := u3 - v3 * u0).
    remember (DP u0 u1 u2 u3 u4 u5 u6) as dp eqn:DPE. unfold DP in DPE.
    assert (S0 := sum_d af as_ cf cs a sd sg ry bet2 bet3 A0 R1 dp m1 m2 m3 u5 u6).
    assert (S1 := sum_m1 af as_ cf cs a sd sg ry bet2 bet3 A0 R2 dp m1 m2 m3 u5 u6).
    assert (S2 := sum_t af as_ cf cs a sd sg ry bet2 bet3 A0 R2 SG dp m1 m2 m3 u5 u6).
    assert (S3 := sum_b af as_ cf cs a sd sg ry bet2 bet3 A0 D0 R1 dp m1 m2 m3 u5 u6).
    assert (T2 := alf_m2 sd sg ry bet2 bet3 Y0 BE m2 m3 u5 u6).
    assert (T3 := alf_m3 sd sg ry bet2 bet3 Y0 BE m2 m3 u5 u6).
    assert (T4 := alf_b2 sd sg ry bet2 bet3 D0 Y0 SG BE m2 m3 u5 u6).
    assert (T5 := alf_b3 sd sg ry bet2 bet3 D0 Y0 SG BE m2 m3 u5 u6).
    set (Fm := fm _ _ _ _ _ _ _ _ _ _ _ _ _ _ _ _) in *. set (Fp := fp _ _ _ _ _ _ _ _ _ _ _ _ _ _ _ _) in *.
    set (Sm := sm _ _ _ _ _ _ _ _ _ _ _ _ _ _ _ _) in *. set (Sp := sp _ _ _ _ _ _ _ _ _ _ _ _ _ _ _ _) in *.
    set (Am := am _ _ _ _ _ _ _ _) in *. set (Ap := ap _ _ _ _ _ _ _ _) in *. clearbody Fm Fp Sm Sp Am Ap.
    rewrite <- S2 in T2, T3. rewrite <- S3 in T4, T5.
    destruct k as [|[|[|[|[|[|[|k]]]]]]]; cbn [nth]; [| | | | | | |destruct k; cbn [nth]; ring].
    + transitivity (af * (Fm + Fp) + as_ * (Sm + Sp) + (u0 - dp / (a * a))); [ring|rewrite S0; ring].
    + transitivity (v1 * (af * (Fm + Fp) + as_ * (Sm + Sp) + (u0 - dp / (a * a))) + (af * cf * (Fp - Fm) + as_ * cs * (Sp - Sm))); [ring|].
      rewrite S0, S1. unfold m1. ring.
    + transitivity (v2 * (af * (Fm + Fp) + as_ * (Sm + Sp) + (u0 - dp / (a * a))) + (bet2 / ry * (cs * as_ * sg * (Fm - Fp) - cf * af * sg * (Sm - Sp)) - bet3 * Am + bet3 * Ap)); [ring|].
      rewrite S0, T2. unfold m2. ring.
    + transitivity (v3 * (af * (Fm + Fp) + as_ * (Sm + Sp) + (u0 - dp / (a * a))) + (bet3 / ry * (cs * as_ * sg * (Fm - Fp) - cf * af * sg * (Sm - Sp)) + bet2 * Am - bet2 * Ap)); [ring|].
      rewrite S0, T3. unfold m3. ring.
    + (* the energy *)
      set (hp := (a * a + g2 * x) / g1 + (v1 * v1 + v2 * v2 + v3 * v3) / 2).
      transitivity (hp * (af * (Fm + Fp) + as_ * (Sm + Sp)) + v1 * (af * cf * (Fp - Fm) + as_ * cs * (Sp - Sm))
        + v2 * (bet2 / ry * (cs * as_ * sg * (Fm - Fp) - cf * af * sg * (Sm - Sp)) - bet3 * Am + bet3 * Ap)
        + v3 * (bet3 / ry * (cs * as_ * sg * (Fm - Fp) - cf * af * sg * (Sm - Sp)) + bet2 * Am - bet2 * Ap)
        + bs * / (ry * ry) * (a * as_ / sd * (Fm + Fp) - a * af / sd * (Sm + Sp))
        + ((v1 * v1 + v2 * v2 + v3 * v3) / 2 + g2 * x / g1) * (u0 - dp / (a * a))).
      { unfold hp, half, Rdiv. ring. }
      rewrite S0, S1, T2, T3, S3, BS. unfold hp, m1, m2, m3. rewrite DPE. field. repeat split; assumption.
    + rewrite <- T4 at 1. unfold Rdiv. ring.
    + rewrite <- T5 at 1. unfold Rdiv. ring.
  - intros ww L7. destruct ww as [|u0 [|u1 [|u2 [|u3 [|u4 [|u5 [|u6 [|]]]]]]]]; try discriminate L7. clear L7.
    cbn [A_adb_mhd e_l]. cbv zeta. rewrite !STR.
    match goal with |- context [fm _ _ _ _ _ _ _ _ _ _ ?D _ _ _ (_ + _) _] => set (DP2 := D) end.
    assert (DE : DP2 = v1 * DP u0 u1 u2 u3 u4 u5 u6 + a * a * (u1 - v1 * u0)).
    { unfold DP2, DP. field. repeat split; assumption. }
    clearbody DP2.
    set (m1 := u1 - v1 * u0). set (m2 := u2 - v2 * u0). set (m3 := u3 - v3 * u0).
    change (g1 * (u4 - (v1 * u1 + v2 * u2 + v3 * u3) + (v1 * v1 + v2 * v2 + v3 * v3) / 2 * u0 - (bt * bet2 * u5 + bt * bet3 * u6)) - g2 * x * u0)
      with (DP u0 u1 u2 u3 u4 u5 u6). fold m1 in DE.
    set (dp := DP u0 u1 u2 u3 u4 u5 u6) in *. clearbody dp DP. subst DP2. cbn [vzip].
    assert (SFM := step_fm af as_ cf cs a sd bs b1 sg ry bt bet2 bet3 A0 D0 R1 R2 R3 R4 SG BE BS dp m1 m2 m3 u5 u6).
    assert (SFP := step_fp af as_ cf cs a sd bs b1 sg ry bt bet2 bet3 A0 D0 R1 R2 R3 R4 SG BE BS dp m1 m2 m3 u5 u6).
    assert (SSM := step_sm af as_ cf cs a sd bs b1 sg ry bt bet2 bet3 A0 D0 R1 R2 R3 R4 SG BE BS dp m1 m2 m3 u5 u6).
    assert (SSP := step_sp af as_ cf cs a sd bs b1 sg ry bt bet2 bet3 A0 D0 R1 R2 R3 R4 SG BE BS dp m1 m2 m3 u5 u6).
    assert (SAM := step_am sd b1 sg bt bet2 bet3 D0 SG m1 m2 m3 u5 u6).
    assert (SAP := step_ap sd b1 sg bt bet2 bet3 D0 SG m1 m2 m3 u5 u6).
    set (Fm := fm _ _ _ _ _ _ _ _ _ _ dp _ _ _ _ _) in *. set (Fp := fp _ _ _ _ _ _ _ _ _ _ dp _ _ _ _ _) in *.
    set (Sm := sm _ _ _ _ _ _ _ _ _ _ dp _ _ _ _ _) in *. set (Sp := sp _ _ _ _ _ _ _ _ _ _ dp _ _ _ _ _) in *.
    set (Am := am _ _ _ _ m2 m3 u5 u6) in *. set (Ap := ap _ _ _ _ m2 m3 u5 u6) in *.
    apply cons_eq; [|apply cons_eq; [|apply cons_eq; [|apply cons_eq; [|apply cons_eq; [|apply cons_eq; [|apply cons_eq; [|reflexivity]]]]]]].
    + transitivity (v1 * Fm + - cf * Fm); [|ring]. rewrite <- SFM. unfold Fm, fm, m1, m2, m3. field. split; assumption.
    + transitivity (v1 * Am + - (b1 * sg / sd) * Am); [|ring]. rewrite <- SAM. unfold Am, am, m1, m2, m3. field. assumption.
    + transitivity (v1 * Sm + - cs * Sm); [|ring]. rewrite <- SSM. unfold Sm, sm, m1, m2, m3. field. split; assumption.
    + unfold m1. field. assumption.
    + transitivity (v1 * Sp + cs * Sp); [|ring]. rewrite <- SSP. unfold Sp, sp, m1, m2, m3. field. split; assumption.
    + transitivity (v1 * Ap + (b1 * sg / sd) * Ap); [|ring]. rewrite <- SAP. unfold Ap, ap, m1, m2, m3. field. assumption.
    + transitivity (v1 * Fp + cf * Fp); [|ring]. rewrite <- SFP. unfold Fp, fp, m1, m2, m3. field. split; assumption.
Qed.
