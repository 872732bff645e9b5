(** C49: face fields computed from a vector potential are divergence free. *)
From Coq Require Import ZArith List Bool Reals Lia ZifyBool Lra Psatz.
From Verif Require Import CStr MeshModel PosModel GasModel ConvProps UtilModel UtilProps UtilProps2 UtilProps3.
Import ListNotations.
Open Scope R_scope.

Notation pot := (option (R -> R -> R -> R)).
(** The line integral along an edge (the value itself for a degenerate edge). *)
Definition ln (f : R -> R) (a b : R) : res R := if Req_EM_T a b then Ok (f a) else qsimp f a b.
Definition L1 (A : pot) (xa xb y z : R) : res R := match A with None => Ok 0 | Some A => ln (fun x => A x y z) xa xb end.
Definition L2 (A : pot) (ya yb x z : R) : res R := match A with None => Ok 0 | Some A => ln (fun y => A x y z) ya yb end.
Definition L3 (A : pot) (za zb x y : R) : res R := match A with None => Ok 0 | Some A => ln (fun z => A x y z) za zb end.

Ltac crunch := repeat match goal with
  | |- context [qsimp ?f ?a ?b] => let E := fresh "E" in destruct (qsimp f a b) eqn:E; cbn [bind xsav ysav zsav]
  | H : context [bind (Ok _) _] |- _ => cbn [bind] in H
  | H : Ok _ = Ok _ |- _ => injection H as <-
  | H : Fatal = Ok _ |- _ => discriminate
  | H : UB = Ok _ |- _ => discriminate
  end.
Lemma b1i_edges : forall cyl A2 A3 pG sv i j k v, vecpot2b1i cyl A2 A3 pG sv i j k = Ok v ->
  let '(x1, x2, x3) := cc_pos pG i j k in
  exists p q r s,
    L2 A2 (cmin pG X2 x2) (cmax pG X2 x2) (cmin pG X1 x1) (cmin pG X3 x3) = Ok p /\
    L2 A2 (cmin pG X2 x2) (cmax pG X2 x2) (cmin pG X1 x1) (cmax pG X3 x3) = Ok q /\
    L3 A3 (cmin pG X3 x3) (cmax pG X3 x3) (cmin pG X1 x1) (cmax pG X2 x2) = Ok r /\
    L3 A3 (cmin pG X3 x3) (cmax pG X3 x3) (cmin pG X1 x1) (cmin pG X2 x2) = Ok s /\
    v = div_if (p_dx pG X3) (p_dx pG X3) (div_if (p_dx pG X2) (if cyl then cmin pG X1 x1 * p_dx pG X2 else p_dx pG X2)
          ((if cyl then cmin pG X1 x1 else 1) * (p - q) + r - s)).
Proof.
  intros cyl A2 A3 pG sv i j k v. unfold vecpot2b1i. destruct (cc_pos pG i j k) as [[x1 x2] x3].
  generalize (cmin pG X1 x1), (cmin pG X2 x2), (cmax pG X2 x2), (cmin pG X3 x3), (cmax pG X3 x3). intros xa ya yb za zb.
  unfold L2, L3, ln, f2, f3, set_x, set_y, set_z. cbn [xsav ysav zsav].
  destruct A2 as [A2|], A3 as [A3|]; cbn [bind];
    destruct (Req_EM_T ya yb); destruct (Req_EM_T za zb); cbn [bind xsav ysav zsav]; crunch; intros H; try discriminate; injection H as <-;
    do 4 eexists; repeat split; f_equal; f_equal; ring.
Qed.
Lemma b2i_edges : forall A1 A3 pG sv i j k v, vecpot2b2i A1 A3 pG sv i j k = Ok v ->
  let '(x1, x2, x3) := cc_pos pG i j k in
  exists p q r s,
    L1 A1 (cmin pG X1 x1) (cmax pG X1 x1) (cmin pG X2 x2) (cmax pG X3 x3) = Ok p /\
    L1 A1 (cmin pG X1 x1) (cmax pG X1 x1) (cmin pG X2 x2) (cmin pG X3 x3) = Ok q /\
    L3 A3 (cmin pG X3 x3) (cmax pG X3 x3) (cmin pG X1 x1) (cmin pG X2 x2) = Ok r /\
    L3 A3 (cmin pG X3 x3) (cmax pG X3 x3) (cmax pG X1 x1) (cmin pG X2 x2) = Ok s /\
    v = div_if (p_dx pG X3) (p_dx pG X3) (div_if (p_dx pG X1) (p_dx pG X1) (p - q + r - s)).
Proof.
  intros A1 A3 pG sv i j k v. unfold vecpot2b2i. destruct (cc_pos pG i j k) as [[x1 x2] x3].
  generalize (cmin pG X1 x1), (cmax pG X1 x1), (cmin pG X2 x2), (cmin pG X3 x3), (cmax pG X3 x3). intros xa xb ya za zb.
  unfold L1, L3, ln, f1, f3, set_x, set_y, set_z. cbn [xsav ysav zsav].
  destruct A1 as [A1|], A3 as [A3|]; cbn [bind];
    destruct (Req_EM_T xa xb); destruct (Req_EM_T za zb); cbn [bind xsav ysav zsav]; crunch; intros H; try discriminate; injection H as <-;
    do 4 eexists; repeat split; f_equal; f_equal; ring.
Qed.
Lemma b3i_edges : forall cyl A1 A2 pG sv i j k v, vecpot2b3i cyl A1 A2 pG sv i j k = Ok v ->
  let '(x1, x2, x3) := cc_pos pG i j k in
  exists p q r s,
    L1 A1 (cmin pG X1 x1) (cmax pG X1 x1) (cmin pG X2 x2) (cmin pG X3 x3) = Ok p /\
    L1 A1 (cmin pG X1 x1) (cmax pG X1 x1) (cmax pG X2 x2) (cmin pG X3 x3) = Ok q /\
    L2 A2 (cmin pG X2 x2) (cmax pG X2 x2) (cmax pG X1 x1) (cmin pG X3 x3) = Ok r /\
    L2 A2 (cmin pG X2 x2) (cmax pG X2 x2) (cmin pG X1 x1) (cmin pG X3 x3) = Ok s /\
    v = div_if (p_dx pG X2) (if cyl then x1 * p_dx pG X2 else p_dx pG X2) (div_if (p_dx pG X1) (p_dx pG X1)
          (p - q + (if cyl then cmax pG X1 x1 else 1) * r - (if cyl then cmin pG X1 x1 else 1) * s)).
Proof.
  intros cyl A1 A2 pG sv i j k v. unfold vecpot2b3i. destruct (cc_pos pG i j k) as [[x1 x2] x3].
  generalize (cmin pG X1 x1), (cmax pG X1 x1), (cmin pG X2 x2), (cmax pG X2 x2), (cmin pG X3 x3). intros xa xb ya yb za.
  unfold L1, L2, ln, f1, f2, set_x, set_y, set_z. cbn [xsav ysav zsav].
  destruct A1 as [A1|], A2 as [A2|]; cbn [bind];
    destruct (Req_EM_T xa xb); destruct (Req_EM_T ya yb); cbn [bind xsav ysav zsav]; crunch; intros H; try discriminate; injection H as <-;
    do 4 eexists; repeat split; f_equal; f_equal; ring.
Qed.

(** Centre of a cell along one axis. *)
Definition ctr (pG : pgrid) (a : axis) (i : Z) : R := p_MinX pG a + (IZR (i - p_s pG a) + 1/2) * p_dx pG a.
Lemma ctr_next : forall pG a i, ctr pG a (i + 1) = ctr pG a i + p_dx pG a.
Proof. intros. unfold ctr. replace (i + 1 - p_s pG a)%Z with (i - p_s pG a + 1)%Z by lia. rewrite plus_IZR. ring. Qed.
Lemma edge_next : forall pG a x, cmin pG a (x + p_dx pG a) = cmax pG a x.
Proof. intros. unfold cmin, cmax. lra. Qed.

Lemma Ok_inj : forall (x : res R) a b, x = Ok a -> x = Ok b -> a = b.
Proof. intros. congruence. Qed.
Ltac seal := repeat match goal with
  | H : L1 ?A _ _ _ _ = _ |- _ => generalize dependent (L1 A); intros
  | H : L2 ?A _ _ _ _ = _ |- _ => generalize dependent (L2 A); intros
  | H : L3 ?A _ _ _ _ = _ |- _ => generalize dependent (L3 A); intros end.
Ltac merge := repeat match goal with
  | H1 : ?x = Ok ?a, H2 : ?x = Ok ?b |- _ => pose proof (Ok_inj x a b H1 H2); subst a; clear H2 || (clear H2)
  end.

(** Three dimensions, Cartesian and cylindrical: the divergence of the six face values of any cell vanishes.  The cells and
    the potential are arbitrary, and so is the content of the static variables at each of the six calls; A1, A2, A3 may be
    NULL.  In cylindrical coordinates the cell must not touch the axis. *)
Theorem C49_cartesian : forall A1 A2 A3 pG i j k s1 s2 s3 s4 s5 s6 b1l b1r b2l b2r b3l b3r,
  (forall a, 0 < p_dx pG a) ->
  vecpot2b1i false A2 A3 pG s1 i j k = Ok b1l -> vecpot2b1i false A2 A3 pG s2 (i + 1) j k = Ok b1r ->
  vecpot2b2i A1 A3 pG s3 i j k = Ok b2l -> vecpot2b2i A1 A3 pG s4 i (j + 1) k = Ok b2r ->
  vecpot2b3i false A1 A2 pG s5 i j k = Ok b3l -> vecpot2b3i false A1 A2 pG s6 i j (k + 1) = Ok b3r ->
  (b1r - b1l) / p_dx pG X1 + (b2r - b2l) / p_dx pG X2 + (b3r - b3l) / p_dx pG X3 = 0.
Proof.
  intros A1 A2 A3 pG i j k s1 s2 s3 s4 s5 s6 b1l b1r b2l b2r b3l b3r H E1 E2 E3 E4 E5 E6.
  pose proof (H X1) as H1; pose proof (H X2) as H2; pose proof (H X3) as H3.
  apply b1i_edges in E1. apply b1i_edges in E2. apply b2i_edges in E3. apply b2i_edges in E4. apply b3i_edges in E5. apply b3i_edges in E6.
  unfold cc_pos in *. fold (ctr pG X1 i) (ctr pG X1 (i + 1)) (ctr pG X2 j) (ctr pG X2 (j + 1)) (ctr pG X3 k) (ctr pG X3 (k + 1)) in *.
  rewrite !ctr_next, !edge_next in *.
  destruct E1 as (p1 & q1 & r1 & t1 & P1 & Q1 & U1 & V1 & ->), E2 as (p2 & q2 & r2 & t2 & P2 & Q2 & U2 & V2 & ->),
    E3 as (p3 & q3 & r3 & t3 & P3 & Q3 & U3 & V3 & ->), E4 as (p4 & q4 & r4 & t4 & P4 & Q4 & U4 & V4 & ->),
    E5 as (p5 & q5 & r5 & t5 & P5 & Q5 & U5 & V5 & ->), E6 as (p6 & q6 & r6 & t6 & P6 & Q6 & U6 & V6 & ->).
  seal. merge. unfold div_if. destruct (Rlt_dec 0 (p_dx pG X1)), (Rlt_dec 0 (p_dx pG X2)), (Rlt_dec 0 (p_dx pG X3)); try lra.
Qed.
Print Assumptions C49_cartesian.
Theorem C49_cylindrical : forall A1 A2 A3 pG i j k s1 s2 s3 s4 s5 s6 b1l b1r b2l b2r b3l b3r,
  (forall a, 0 < p_dx pG a) ->
  vecpot2b1i true A2 A3 pG s1 i j k = Ok b1l -> vecpot2b1i true A2 A3 pG s2 (i + 1) j k = Ok b1r ->
  vecpot2b2i A1 A3 pG s3 i j k = Ok b2l -> vecpot2b2i A1 A3 pG s4 i (j + 1) k = Ok b2r ->
  vecpot2b3i true A1 A2 pG s5 i j k = Ok b3l -> vecpot2b3i true A1 A2 pG s6 i j (k + 1) = Ok b3r ->
  let r := p_MinX pG X1 + (IZR (i - p_s pG X1) + 1/2) * p_dx pG X1 in
  0 < r - p_dx pG X1 / 2 ->
  ((r + p_dx pG X1 / 2) * b1r - (r - p_dx pG X1 / 2) * b1l) / (r * p_dx pG X1)
  + (b2r - b2l) / (r * p_dx pG X2) + (b3r - b3l) / p_dx pG X3 = 0.
Proof.
  intros A1 A2 A3 pG i j k s1 s2 s3 s4 s5 s6 b1l b1r b2l b2r b3l b3r H E1 E2 E3 E4 E5 E6 r Hr.
  pose proof (H X1) as H1; pose proof (H X2) as H2; pose proof (H X3) as H3.
  apply b1i_edges in E1. apply b1i_edges in E2. apply b2i_edges in E3. apply b2i_edges in E4. apply b3i_edges in E5. apply b3i_edges in E6.
  unfold cc_pos in *. fold (ctr pG X1 i) (ctr pG X1 (i + 1)) (ctr pG X2 j) (ctr pG X2 (j + 1)) (ctr pG X3 k) (ctr pG X3 (k + 1)) in *.
  change r with (ctr pG X1 i) in *. clear r.
  rewrite !ctr_next, !edge_next in *.
  destruct E1 as (p1 & q1 & r1 & t1 & P1 & Q1 & U1 & V1 & ->), E2 as (p2 & q2 & r2 & t2 & P2 & Q2 & U2 & V2 & ->),
    E3 as (p3 & q3 & r3 & t3 & P3 & Q3 & U3 & V3 & ->), E4 as (p4 & q4 & r4 & t4 & P4 & Q4 & U4 & V4 & ->),
    E5 as (p5 & q5 & r5 & t5 & P5 & Q5 & U5 & V5 & ->), E6 as (p6 & q6 & r6 & t6 & P6 & Q6 & U6 & V6 & ->).
  seal. merge. unfold div_if. destruct (Rlt_dec 0 (p_dx pG X1)), (Rlt_dec 0 (p_dx pG X2)), (Rlt_dec 0 (p_dx pG X3)); try lra.
  replace (ctr pG X1 i - p_dx pG X1 / 2) with (cmin pG X1 (ctr pG X1 i)) in * by (unfold cmin; lra).
  replace (ctr pG X1 i + p_dx pG X1 / 2) with (cmax pG X1 (ctr pG X1 i)) in * by (unfold cmax; lra).
  assert (Hm : 0 < ctr pG X1 i) by (unfold cmin in Hr; lra). assert (Hp : 0 < cmax pG X1 (ctr pG X1 i)) by (unfold cmax; lra).
  clear - H1 H2 H3 Hr Hm Hp. generalize dependent (cmin pG X1 (ctr pG X1 i)). intros m Hr.
  generalize dependent (cmax pG X1 (ctr pG X1 i)). intros p Hp. field. lra.
Qed.
Print Assumptions C49_cylindrical.
(** Two dimensions: with no extent in x3 always, and otherwise when A1 and A2 do not depend on x3. *)
Definition no_x3 (A : pot) : Prop := match A with None => True | Some A => forall x y z z', A x y z = A x y z' end.
Theorem C49_planar : forall A1 A2 A3 pG i j k s1 s2 s3 s4 b1l b1r b2l b2r,
  0 < p_dx pG X1 -> 0 < p_dx pG X2 -> p_dx pG X3 = 0 \/ (no_x3 A1 /\ no_x3 A2) ->
  vecpot2b1i false A2 A3 pG s1 i j k = Ok b1l -> vecpot2b1i false A2 A3 pG s2 (i + 1) j k = Ok b1r ->
  vecpot2b2i A1 A3 pG s3 i j k = Ok b2l -> vecpot2b2i A1 A3 pG s4 i (j + 1) k = Ok b2r ->
  (b1r - b1l) / p_dx pG X1 + (b2r - b2l) / p_dx pG X2 = 0.
Proof.
  intros A1 A2 A3 pG i j k s1 s2 s3 s4 b1l b1r b2l b2r H1 H2 H3 E1 E2 E3 E4.
  apply b1i_edges in E1. apply b1i_edges in E2. apply b2i_edges in E3. apply b2i_edges in E4.
  unfold cc_pos in *. fold (ctr pG X1 i) (ctr pG X1 (i + 1)) (ctr pG X2 j) (ctr pG X2 (j + 1)) (ctr pG X3 k) in *.
  rewrite !ctr_next, !edge_next in *.
  destruct E1 as (p1 & q1 & r1 & t1 & P1 & Q1 & U1 & V1 & ->), E2 as (p2 & q2 & r2 & t2 & P2 & Q2 & U2 & V2 & ->),
    E3 as (p3 & q3 & r3 & t3 & P3 & Q3 & U3 & V3 & ->), E4 as (p4 & q4 & r4 & t4 & P4 & Q4 & U4 & V4 & ->).
  assert (S2 : forall x, L2 A2 (cmin pG X2 (ctr pG X2 j)) (cmax pG X2 (ctr pG X2 j)) x (cmin pG X3 (ctr pG X3 k)) =
                         L2 A2 (cmin pG X2 (ctr pG X2 j)) (cmax pG X2 (ctr pG X2 j)) x (cmax pG X3 (ctr pG X3 k))).
  { intros x. destruct H3 as [Z|[_ N]]; [unfold cmin, cmax; rewrite Z, !Rmult_0_r; unfold Rminus; rewrite Ropp_0; reflexivity|].
    unfold L2. destruct A2 as [A2|]; [|reflexivity]. f_equal. apply FunctionalExtensionality.functional_extensionality. intros; apply N. }
  assert (S1 : forall y, L1 A1 (cmin pG X1 (ctr pG X1 i)) (cmax pG X1 (ctr pG X1 i)) y (cmin pG X3 (ctr pG X3 k)) =
                         L1 A1 (cmin pG X1 (ctr pG X1 i)) (cmax pG X1 (ctr pG X1 i)) y (cmax pG X3 (ctr pG X3 k))).
  { intros y. destruct H3 as [Z|[N _]]; [unfold cmin, cmax; rewrite Z, !Rmult_0_r; unfold Rminus; rewrite Ropp_0; reflexivity|].
    unfold L1. destruct A1 as [A1|]; [|reflexivity]. f_equal. apply FunctionalExtensionality.functional_extensionality. intros; apply N. }
  rewrite S2 in P1, P2. rewrite S1 in Q3, Q4.
  seal. merge. unfold div_if. destruct (Rlt_dec 0 (p_dx pG X1)), (Rlt_dec 0 (p_dx pG X2)), (Rlt_dec 0 (p_dx pG X3)); try lra; field; lra.
Qed.
Print Assumptions C49_planar.
(** So compute_div_b reports zero on a whole three-dimensional Grid whose faces were filled this way. *)
Theorem C49_grid : forall A1 A2 A3 pG g, (forall a, 0 < p_dx pG a) -> (forall a, p_s pG a < b_e g a)%Z ->
  (forall k j i, (p_s pG X3 <= k <= b_e g X3 -> p_s pG X2 <= j <= b_e g X2 -> p_s pG X1 <= i <= b_e g X1 + 1)%Z ->
     exists s, vecpot2b1i false A2 A3 pG s i j k = Ok (b_B1 g k j i)) ->
  (forall k j i, (p_s pG X3 <= k <= b_e g X3 -> p_s pG X2 <= j <= b_e g X2 + 1 -> p_s pG X1 <= i <= b_e g X1)%Z ->
     exists s, vecpot2b2i A1 A3 pG s i j k = Ok (b_B2 g k j i)) ->
  (forall k j i, (p_s pG X3 <= k <= b_e g X3 + 1 -> p_s pG X2 <= j <= b_e g X2 -> p_s pG X1 <= i <= b_e g X1)%Z ->
     exists s, vecpot2b3i false A1 A2 pG s i j k = Ok (b_B3 g k j i)) ->
  compute_div_b false pG g = 0.
Proof.
  intros A1 A2 A3 pG g H HN G1 G2 G3. apply C65_zero; [intros a; specialize (HN a); lia|].
  intros k j i (Ik & Ij & Ii). unfold face_div. destruct (Z.ltb_spec (p_s pG X2) (b_e g X2)); [|specialize (HN X2); lia].
  destruct (Z.ltb_spec (p_s pG X3) (b_e g X3)); [|specialize (HN X3); lia].
  destruct (G1 k j i ltac:(lia)) as (s1 & E1), (G1 k j (i + 1)%Z ltac:(lia)) as (s2 & E2), (G2 k j i ltac:(lia)) as (s3 & E3),
    (G2 k (j + 1)%Z i ltac:(lia)) as (s4 & E4), (G3 k j i ltac:(lia)) as (s5 & E5), (G3 (k + 1)%Z j i ltac:(lia)) as (s6 & E6).
  eapply C49_cartesian; eauto.
Qed.
Print Assumptions C49_grid.
(** A = (0, 0, x y): B = (x, -y, 0). *)
Example ex_vecpot : exists pG, (forall a, 0 < p_dx pG a) /\
  forall s, vecpot2b1i false None (Some (fun x y z => x * y)) pG s 2 0 0 = Ok 2
         /\ vecpot2b2i None (Some (fun x y z => x * y)) pG s 0 3 0 = Ok (-3)
         /\ vecpot2b3i false None None pG s 0 0 0 = Ok 0.
Proof.
  set (pG := PG (fun _ => 0%Z) (fun _ => 0) (fun _ => 1)). exists pG. split; [intros; cbn; lra|]. intros s.
  assert (Q : forall c a b, qsimp (fun _ => c) a b = Ok (c * (b - a))).
  { intros c a b. rewrite (qsimp_ext _ (cubic (fun n => if (n =? 0)%nat then c else 0))) by (intros; unfold cubic; cbn [Nat.eqb]; ring).
    rewrite qsimp_cubic. f_equal. unfold Fc. cbn [Nat.eqb]. field. }
  unfold vecpot2b1i, vecpot2b2i, vecpot2b3i, cc_pos, cmin, cmax, f3, div_if.
  cbn [pG p_MinX p_s p_dx Z.sub bind set_x set_y set_z xsav ysav zsav Z.opp Z.add].
  destruct (Req_EM_T (0 + (0 + 1 / 2) * 1 - 1 / 2 * 1) (0 + (0 + 1 / 2) * 1 + 1 / 2 * 1)); [lra|].
  rewrite !Q. cbn [bind]. destruct (Rlt_dec 0 1); [|lra]. repeat split; f_equal; field.
Qed.
