(** * Prolongation: examples, and what goes wrong (C43) *)
From Coq Require Import Reals ZArith Bool Arith Lia Lra ZifyBool List.
From Verif Require Import CStr MeshModel SmrModel SmrOverlap SmrFacts SmrProps SmrPaired SmrField SmrCT SmrMore ProModel ProPass ProFill ProAll ProMsg ProProps ProTheorems.
From Verif Require ProKernel.
Import ProKernel (between).
Import ListNotations.
Open Scope Z_scope.

(** ** The hypotheses hold for a square in a square *)
(** Overlap from 8 to 15 in the parent, from 4 to 19 in the child. *)
Definition sq_facts (c : cfg) (oc of : ovl) : Prop :=
  setting 4 c sq_root 2 sq_pa (Gi 0 0 0) sq_ch (Gi 0 0 0) oc of /\
  o_s oc X1 = 8 /\ o_s oc X2 = 8 /\ o_s oc X3 = 0 /\ o_s of X1 = 4 /\ o_s of X2 = 4 /\ o_s of X3 = 0 /\ o_e of X1 = 19 /\ o_e of X2 = 19 /\ o_e of X3 = 0 /\
  forall a s, some (o_flx of a s) = negb (axis_eqb a X3).
Definition sq_cf (m : bool) : cfg := if m then Cfg false true 1 else Cfg false false 0.
Lemma sq_setting : forall m, exists oc of, sq_facts (sq_cf m) oc of.
Proof.
  intros m.
  assert (AL : aligned 2 sq_pa (Gi 0 0 0) sq_ch (Gi 0 0 0)) by al.
  assert (CA : exists o, cgrid 4 (sq_cf m) sq_root 2 sq_pa (Gi 0 0 0) sq_ch (Gi 0 0 0) = Some o) by (destruct m; eexists; reflexivity).
  assert (PA : exists o, pgrid 4 (sq_cf m) sq_root 2 sq_pa (Gi 0 0 0) sq_ch (Gi 0 0 0) = Some o) by (destruct m; eexists; reflexivity).
  destruct CA as (oc & CA), PA as (of & PA). exists oc, of.
  assert (FA := facts_of _ _ [8; 8; 0; 15; 15; 0] [true; true; m; m; true; true; m; m; false; false; false; false] CA ltac:(destruct m; vm_compute; reflexivity)).
  assert (FB := facts_of _ _ [4; 4; 0; 19; 19; 0] [true; true; m; m; true; true; m; m; false; false; false; false] PA ltac:(destruct m; vm_compute; reflexivity)).
  unfold facts in FA, FB. cbn [map app flat_map] in FA, FB.
  injection FA as A1 A2 A3 A4 A5 A6 _. injection FB as B1 B2 B3 B4 B5 B6 F1 F2 _ _ F3 F4 _ _ F5 F6 _ _.
  split; [|repeat split; auto; intros [] []; cbn [axis_eqb negb]; assumption].
  apply Build_setting; [exact AL|discriminate|reflexivity|exact CA|exact PA|]. clear - B1 B2 B3 B4 B5 B6. intros []; unfold len; lia.
Qed.
Lemma sq_beyond : forall c oc of k j i, sq_facts c oc of -> beyond 2 4 of k j i <-> k = 0 /\ 0 <= j <= 23 /\ 0 <= i <= 23 /\ (j < 4 \/ 19 < j \/ i < 4 \/ 19 < i).
Proof.
  intros c oc of k j i (_ & _ & _ & _ & B1 & B2 & B3 & B4 & B5 & B6 & F). unfold beyond. split.
  - intros (A & b & O). pose proof (A X1) as A1. pose proof (A X2) as A2. pose proof (A X3) as A3. unfold nb in *. cbn [at_ many Nat.leb] in *. rewrite B1, B2, B3, B4, B5, B6 in *.
    repeat split; try lia. destruct b; cbn [at_] in O; rewrite ?B1, ?B2, ?B3, ?B4, ?B5, ?B6 in O; try lia.
  - intros (-> & J & I & O). split.
    + intros []; unfold nb; cbn [at_ many Nat.leb]; lia.
    + destruct O as [O|[O|[O|O]]]; [exists X2|exists X2|exists X1|exists X1]; cbn [at_]; rewrite !F; cbn [axis_eqb negb]; lia.
Qed.
Definition sq_c : cfg := sq_cf true.
Definition sq_gp : gst := Gst (fun _ _ _ _ => 1%R) (fun _ J _ => (100 + 2 * IZR J)%R) (fun _ _ _ => 2%R) (fun _ _ _ => 3%R).
Definition sq_g0 : gst := Gst (fun _ _ _ _ => 7%R) (fun _ j _ => (112 + IZR j - 1/2)%R) (fun _ _ _ => 2%R) (fun _ _ _ => 5%R).
(** The field of the coarse Grid and of the fine Grid agree on the boundary of the square. *)
Example C43_example : exists oc of, setting 4 sq_c sq_root 2 sq_pa (Gi 0 0 0) sq_ch (Gi 0 0 0) oc of /\
  beyond 2 4 of 0 10 3 /\ part_of 2 of 0 3 (-1) 0 10 3 /\ fixedB of X1 (at_ 0 10 3) = false /\ fixedB of X1 (at_ 0 10 4) = true /\
  (forall b, many 2 b = true -> at_ 0 10 3 b + 1 <= o_e of b + 4) /\
  usable false 2 4 oc of sq_gp sq_g0 /\ matched 2 oc of sq_gp sq_g0.
Proof.
  destruct (sq_setting true) as (oc & of & SF). pose proof (sq_beyond _ _ _ 0 10 3 SF) as BY. pose proof SF as (ST & C1 & C2 & C3 & B1 & B2 & B3 & B4 & B5 & B6 & F).
  exists oc, of. split; [exact ST|]. split; [apply BY; lia|].
  split. { unfold part_of. rewrite !(in_cover _ _ _ _ _ _ _ _ _ _ ST), B1, B2, B3. change (ratio 2 X1) with 2. change (ratio 2 X2) with 2. change (ratio 2 X3) with 1. unfold bit. repeat split; [exists 0|exists 0|exists 1]; (split; [auto|reflexivity]). }
  split. { unfold fixedB. cbn [at_]. rewrite B1, B4, !F. reflexivity. }
  split. { unfold fixedB, all3, out. cbn [at_]. rewrite B1, B2, B3, B4, B5, B6, !F. reflexivity. }
  split. { intros [] Mb; cbn [at_]; rewrite ?B4, ?B5; [lia|lia|discriminate Mb]. }
  split.
  - intros a k j i FX IB _. left. destruct a; cbn [get sq_g0 gB1 gB2 gB3]; try lra.
    pose proof (IB X2 ltac:(discriminate)) as Q. unfold nb in Q. cbn [many Nat.leb at_] in Q. rewrite B2 in Q. assert (J : (0 <= IZR j)%R) by (apply IZR_le; lia). lra.
  - intros kk jj ii. cbv zeta. split; [|split]; intros FX; unfold avgB1, avgB2, avgB3, sq_gp, sq_g0; cbn [gB1 gB2 gB3];
    try rewrite (cover2 2 _ X1) by reflexivity; try rewrite (cover2 2 _ X2) by reflexivity; try rewrite (cover1 2 _ X3) by reflexivity;
    unfold cells3, cells2; cbn [map flat_map app]; unfold at3, mean; cbn [fold_right length INR].
    + rewrite B2, C2, !plus_IZR, mult_IZR. field.
    + field.
    + exfalso. unfold fixedB in FX. rewrite !F in FX. cbn [axis_eqb negb] in FX. rewrite !andb_false_r in FX. discriminate FX.
Qed.

(** ** Where Prolongate does something else *)
Ltac slopes := unfold slope, mcd_slope; cbv zeta; repeat match goal with |- context [if Rlt_dec ?x ?y then _ else _] => lazymatch x with context [if _ then _ else _] => fail | _ => lazymatch y with context [if _ then _ else _] => fail | _ => destruct (Rlt_dec x y) end end end; try lra.
Lemma sq_cell : forall m oc of fo dx1 dx2 dx3 gp g0 g' w jj ii n l v, sq_facts (sq_cf m) oc of -> prolong (sq_cf m) fo 2 4 of dx1 dx2 dx3 g0 (pack_P (sq_cf m) 2 4 oc gp) = Some (g', w) ->
  -2 <= jj <= 9 -> -2 <= ii <= 9 -> jj < 0 \/ 7 < jj \/ ii < 0 \/ 7 < ii -> bit n -> bit l -> In v (vars (sq_cf m)) -> isB v = None ->
  gU g' 0 (4 + 2 * jj + n) (4 + 2 * ii + l) v = ProCon (sq_cf m) fo (cst 2 gp 0 (8 + jj) (8 + ii)) 0 n l v.
Proof.
  intros m oc of fo dx1 dx2 dx3 gp g0 g' w jj ii n l v SF RUN J I O N L V IB. pose proof SF as (ST & C1 & C2 & C3 & B1 & B2 & B3 & _).
  assert (FN : fine 2 of X3 0 = 0 /\ fine 2 of X2 jj = 4 + 2 * jj /\ fine 2 of X1 ii = 4 + 2 * ii). { unfold fine. rewrite B1, B2, B3. repeat split. } destruct FN as (F3 & F2 & F1).
  assert (B : beyond 2 4 of (fine 2 of X3 0) (fine 2 of X2 jj) (fine 2 of X1 ii)) by (apply (sq_beyond _ _ _ _ _ _ SF); rewrite F1, F2, F3; lia).
  pose proof (cell_val _ _ _ _ _ _ _ _ _ _ fo dx1 dx2 dx3 gp g0 g' w ST RUN 0 jj ii 0 n l v B (or_introl eq_refl) N L V (or_introl IB)) as Q.
  unfold coarse in Q. rewrite F1, F2, F3, C1, C2, C3 in Q. exact Q.
Qed.
(** The mean of the energy is not the energy of the coarse cell, unless the momentum is
    uniform: the kinetic energy is computed from the prolonged momentum.  With unit density
    and a momentum that increases by one from cell to cell it is larger by 1/32. *)
Definition gp_en : gst := Gst (fun _ _ I v => match v with VD => 1%R | VM1 => IZR I | VE => (1 + IZR I * IZR I / 2)%R | _ => 0%R end) (fun _ _ _ => 0%R) (fun _ _ _ => 0%R) (fun _ _ _ => 0%R).
Theorem C43_energy_refuted : exists oc of, setting 4 (sq_cf false) sq_root 2 sq_pa (Gi 0 0 0) sq_ch (Gi 0 0 0) oc of /\
  forall dx1 dx2 dx3 g0 g' w, prolong (sq_cf false) false 2 4 of dx1 dx2 dx3 g0 (pack_P (sq_cf false) 2 4 oc gp_en) = Some (g', w) ->
  beyond 2 4 of (fine 2 of X3 0) (fine 2 of X2 3) (fine 2 of X1 (-1)) /\
  avgU 2 of g' (0, 3, -1) VE = (gU gp_en (o_s oc X3 + 0)%Z (o_s oc X2 + 3)%Z (o_s oc X1 + -1)%Z VE + 1/32)%R.
Proof.
  destruct (sq_setting false) as (oc & of & SF). exists oc, of. pose proof SF as (ST & C1 & C2 & C3 & B1 & B2 & B3 & _). split; [exact ST|].
  intros dx1 dx2 dx3 g0 g' w RUN. split. { apply (sq_beyond _ _ _ _ _ _ SF). unfold fine. rewrite B1, B2, B3. cbn. lia. }
  unfold avgU. rewrite (cover2 2 _ X1), (cover2 2 _ X2), (cover1 2 _ X3), B1, B2, B3, C1, C2, C3 by reflexivity. unfold cells3, cells2. cbn [map flat_map app at3].
  assert (V : In VE (vars (sq_cf false))) by (cbn; tauto). assert (B0 : bit 0) by (left; reflexivity). assert (B1' : bit 1) by (right; reflexivity).
  pose proof (fun n l N L => sq_cell false oc of false dx1 dx2 dx3 gp_en g0 g' w 3 (-1) n l VE SF RUN ltac:(lia) ltac:(lia) ltac:(lia) N L V eq_refl) as H.
  pose proof (H 0 0 B0 B0) as H1. pose proof (H 0 1 B0 B1') as H2. pose proof (H 1 0 B1' B0) as H3. pose proof (H 1 1 B1' B1') as H4. clear H.
  cbn in H1, H2, H3, H4. cbn. rewrite H1, H2, H3, H4. unfold inner, kin, mag, lin. cbn.
  pose proof (slope_flat false) as FL. change (forall x, mcd_slope x x x = 0%R) in FL.
  assert (S1 : mcd_slope 6 7 8 = 1%R) by slopes.
  assert (S2 : forall a b c, a = 1%R -> b = 1%R -> c = 1%R -> mcd_slope a b c = 0%R) by (intros a b c -> -> ->; apply FL).
  rewrite !S1, !FL. rewrite !S2 by field. unfold mean. cbn [fold_right length INR]. field.
Qed.
Print Assumptions C43_energy_refuted.

(** With three dimensions the density can be negative although it is positive on the coarse
    Grid: the three slopes are limited separately. *)
Definition cu_root : vec := v3 16 16 16.
Definition cu_pa : domain := Dom 0 0 (v3 16 16 16) (v3 0 0 0) (v3 1 1 1) [].
Definition cu_ch : domain := Dom 1 1 (v3 16 16 16) (v3 8 8 8) (v3 1 1 1) [].
Definition gp_ne : gst := Gst (fun K J I _ => if K + J + I <? 29 then (1/10)%R else if K + J + I =? 29 then 1%R else 4%R) (fun _ _ _ => 0%R) (fun _ _ _ => 0%R) (fun _ _ _ => 0%R).
Theorem C43_range3_refuted : (forall K J I, 0 < gU gp_ne K J I VD)%R /\
  exists oc of, setting 4 (sq_cf false) cu_root 3 cu_pa (Gi 0 0 0) cu_ch (Gi 0 0 0) oc of /\
  forall dx1 dx2 dx3 g0 g' w, prolong (sq_cf false) false 3 4 of dx1 dx2 dx3 g0 (pack_P (sq_cf false) 3 4 oc gp_ne) = Some (g', w) ->
  beyond 3 4 of 10 10 2 /\ (gU g' 10 10 2 VD < 0)%R.
Proof.
  split. { intros K J I. unfold gp_ne. cbn [gU]. destruct (K + J + I <? 29); [lra|destruct (K + J + I =? 29); lra]. }
  assert (AL : aligned 3 cu_pa (Gi 0 0 0) cu_ch (Gi 0 0 0)) by al.
  assert (CA : exists o, cgrid 4 (sq_cf false) cu_root 3 cu_pa (Gi 0 0 0) cu_ch (Gi 0 0 0) = Some o) by (eexists; reflexivity).
  assert (PA : exists o, pgrid 4 (sq_cf false) cu_root 3 cu_pa (Gi 0 0 0) cu_ch (Gi 0 0 0) = Some o) by (eexists; reflexivity).
  destruct CA as (oc & CA), PA as (of & PA). exists oc, of.
  assert (FA := facts_of _ _ [8; 8; 8; 15; 15; 15] [true; true; false; false; true; true; false; false; true; true; false; false] CA ltac:(vm_compute; reflexivity)).
  assert (FB := facts_of _ _ [4; 4; 4; 19; 19; 19] [true; true; false; false; true; true; false; false; true; true; false; false] PA ltac:(vm_compute; reflexivity)).
  unfold facts in FA, FB. cbn [map app flat_map] in FA, FB.
  injection FA as A1 A2 A3 A4 A5 A6 _. injection FB as B1 B2 B3 B4 B5 B6 F1 F2 _ _ F3 F4 _ _ F5 F6 _ _.
  assert (ST : setting 4 (sq_cf false) cu_root 3 cu_pa (Gi 0 0 0) cu_ch (Gi 0 0 0) oc of).
  { apply Build_setting; [exact AL|discriminate|reflexivity|exact CA|exact PA|]. clear - B1 B2 B3 B4 B5 B6. intros []; unfold len; lia. }
  split; [exact ST|]. intros dx1 dx2 dx3 g0 g' w RUN.
  assert (B : beyond 3 4 of 10 10 2). { clear - B1 B2 B3 B4 B5 B6 F1. split; [intros []; unfold nb; cbn [at_ many Nat.leb]; lia|]. exists X1. left. cbn [at_]. rewrite B1. split; [lia|exact F1]. }
  split; [exact B|].
  assert (FN : fine 3 of X3 3 = 10 /\ fine 3 of X2 3 = 10 /\ fine 3 of X1 (-1) = 2). { unfold fine. rewrite B1, B2, B3. repeat split. } destruct FN as (N3 & N2 & N1).
  assert (B' : beyond 3 4 of (fine 3 of X3 3) (fine 3 of X2 3) (fine 3 of X1 (-1))) by (rewrite N1, N2, N3; exact B).
  pose proof (cell_val _ _ _ _ _ _ _ _ _ _ false dx1 dx2 dx3 gp_ne g0 g' w ST RUN 3 3 (-1) 0 0 0 VD B' (or_introl eq_refl) (or_introl eq_refl) (or_introl eq_refl) ltac:(cbn; tauto) (or_introl eq_refl)) as Q.
  unfold coarse in Q. rewrite N1, N2, N3, A1, A2, A3 in Q. cbn in Q. rewrite Q. unfold lin. cbn.
  assert (S : mcd_slope (1/10) 1 4 = (18/10)%R) by slopes. rewrite S. lra.
Qed.
Print Assumptions C43_range3_refuted.

(** With an odd number of ghost cells (particles and third-order reconstruction,
    src/defs.h.in:126-130) the parent packs nghost/2+1 cells on both sides of the overlap, together
    nghost+1, but the child reads nghost+2 rows along the other axes (src/smr.c:1589-1610)
    and both reckon with nghost+2 in nWordsP: the child reads what was not packed. *)
Theorem C43_odd_refuted : aligned 2 sq_pa (Gi 0 0 0) sq_ch (Gi 0 0 0) /\
  exists oc of, cgrid 5 (sq_cf false) sq_root 2 sq_pa (Gi 0 0 0) sq_ch (Gi 0 0 0) = Some oc /\ pgrid 5 (sq_cf false) sq_root 2 sq_pa (Gi 0 0 0) sq_ch (Gi 0 0 0) = Some of /\
    o_nP oc = o_nP of /\ forall gp, Z.of_nat (length (pack_P (sq_cf false) 2 5 oc gp)) < o_nP of /\
    forall fo dx1 dx2 dx3 g0, prolong (sq_cf false) fo 2 5 of dx1 dx2 dx3 g0 (pack_P (sq_cf false) 2 5 oc gp) = None.
Proof.
  split; [al|]. eexists. eexists. split; [reflexivity|]. split; [reflexivity|]. split; [reflexivity|]. intros gp. split; [vm_compute; reflexivity|]. intros. vm_compute. reflexivity.
Qed.
Print Assumptions C43_odd_refuted.

(** ProFld takes a value of zero in the first fine face for a face to be computed.  Here the
    fine field on the face at the right is 0 in one half and 2 in the other, the coarse field is
    1 everywhere; it is replaced by 1, and what is then stored left of the face does not match it:
    the divergence is not that of the coarse cell. *)
Definition zr_b : rv := RV (fun _ _ _ => 1%R) (fun _ _ _ => 0%R) (fun _ _ _ => 0%R).
Definition zr_p (x : R) : rv := RV (fun _ m l => if l =? 2 then (if m =? 0 then x else 2 - x)%R else 0%R) (fun _ _ _ => 0%R) (fun _ _ _ => 0%R).
Definition zr_div (fo : bool) (x dx1 dx2 dx3 : R) (m : Z) : R :=
  let q := ProFld fo zr_b (zr_p x) dx1 dx2 dx3 in
  ((x1 (zr_p x) 0%Z m 2%Z - x1 q 0%Z m 1%Z) / dx1 + (x2 q 0%Z (m + 1)%Z 1%Z - x2 q 0%Z m 1%Z) / dx2 + (x3 q 1%Z m 1%Z - x3 q 0%Z m 1%Z) / dx3)%R.
Theorem C43_zero_refuted : forall fo dx1 dx2 dx3, dx1 <> 0%R -> dx2 <> 0%R -> dx3 <> 0%R ->
  (forall x m, x <> 0%R -> bit m -> zr_div fo x dx1 dx2 dx3 m = 0%R) /\ zr_div fo 0 dx1 dx2 dx3 0 = (- 1 / dx1)%R /\ zr_div fo 0 dx1 dx2 dx3 1 = (1 / dx1)%R.
Proof.
  intros fo dx1 dx2 dx3 D1 D2 D3.
  assert (S : forall a b, a <> 0%R -> (a * a + b * b <> 0)%R) by (intros a b A E; apply A; nra).
  pose proof (S dx2 dx3 D2) as S23. pose proof (S dx1 dx3 D1) as S13. pose proof (S dx1 dx2 D1) as S12. clear S.
  pose proof (slope_flat fo 1) as FL1. pose proof (slope_flat fo 0) as FL0.
  split; [|split].
  - intros x m X M. unfold zr_div, ProFld. cbv zeta.
    assert (O : forall n m l, bit n -> bit m -> x1 (outer fo zr_b (zr_p x)) n m l = if l =? 0 then 1%R else x1 (zr_p x) n m l).
    { intros n m' l N M'. unfold outer, zr_p, zr_b. cbn [x1]. destruct (l =? 0) eqn:E0; [apply Z.eqb_eq in E0; subst l; cbn [orb andb Z.eqb]; rewrite isz0, FL1; unfold sg; destruct N as [-> | ->], M' as [-> | ->]; cbn [Z.eqb]; ring|].
      destruct (l =? 2) eqn:E2; [|reflexivity]. cbn [orb andb Z.eqb]. rewrite (isz_ne x X). reflexivity. }
    assert (O2 : forall n m l, x2 (outer fo zr_b (zr_p x)) n m l = 0%R). { intros n m' l. unfold outer, zr_p, zr_b. cbn [x2]. destruct ((m' =? 0) || (m' =? 2)); [|reflexivity]. cbn [andb]. rewrite isz0, FL0. unfold sg. destruct (l =? 0), (n =? 0); ring. }
    assert (O3 : forall n m l, x3 (outer fo zr_b (zr_p x)) n m l = 0%R). { intros n m' l. unfold outer, zr_p, zr_b. cbn [x3]. destruct ((n =? 0) || (n =? 2)); [|reflexivity]. cbn [andb]. rewrite isz0, FL0. unfold sg. destruct (l =? 0), (m' =? 0); ring. }
    set (o := outer fo zr_b (zr_p x)) in *. clearbody o. assert (B0 : bit 0) by (left; reflexivity). assert (B1 : bit 1) by (right; reflexivity).
    unfold interior, sum4, pm. cbn [x1 x2 x3]. 
    destruct M as [-> | ->]; cbn [Z.eqb Z.add Z.mul Z.sub Z.opp Pos.eqb Pos.add Z.pos_sub Pos.mul Pos.pred_double Pos.succ]; rewrite !O, !O2, !O3 by assumption; unfold zr_p; cbn [x1 Z.eqb Pos.eqb]; field; repeat split; assumption.
  - unfold zr_div, ProFld. cbv zeta.
    assert (O : forall n m l, bit n -> bit m -> l = 0 \/ l = 2 -> x1 (outer fo zr_b (zr_p 0)) n m l = 1%R).
    { intros n m l N M L. unfold outer, zr_p, zr_b. cbn [x1]. destruct L as [-> | ->]; cbn [orb andb Z.eqb Pos.eqb]; rewrite isz0, FL1; unfold sg; destruct N as [-> | ->], M as [-> | ->]; cbn [Z.eqb]; ring. }
    assert (O2 : forall n m l, x2 (outer fo zr_b (zr_p 0)) n m l = 0%R). { intros n m' l. unfold outer, zr_p, zr_b. cbn [x2]. destruct ((m' =? 0) || (m' =? 2)); [|reflexivity]. cbn [andb]. rewrite isz0, FL0. unfold sg. destruct (l =? 0), (n =? 0); ring. }
    assert (O3 : forall n m l, x3 (outer fo zr_b (zr_p 0)) n m l = 0%R). { intros n m' l. unfold outer, zr_p, zr_b. cbn [x3]. destruct ((n =? 0) || (n =? 2)); [|reflexivity]. cbn [andb]. rewrite isz0, FL0. unfold sg. destruct (l =? 0), (m' =? 0); ring. }
    set (o := outer fo zr_b (zr_p 0)) in *. clearbody o. assert (B0 : bit 0) by (left; reflexivity). assert (B1 : bit 1) by (right; reflexivity).
    unfold interior, sum4, pm. cbn [x1 x2 x3]. cbn [Z.eqb Z.add Z.mul Z.sub Z.opp Pos.eqb Pos.add Z.pos_sub Pos.mul Pos.pred_double Pos.succ]. rewrite !O by auto. rewrite !O2, !O3. unfold zr_p. cbn [x1 Z.eqb Pos.eqb]. field; repeat split; assumption.
  - unfold zr_div, ProFld. cbv zeta.
    assert (O : forall n m l, bit n -> bit m -> l = 0 \/ l = 2 -> x1 (outer fo zr_b (zr_p 0)) n m l = 1%R).
    { intros n m l N M L. unfold outer, zr_p, zr_b. cbn [x1]. destruct L as [-> | ->]; cbn [orb andb Z.eqb Pos.eqb]; rewrite isz0, FL1; unfold sg; destruct N as [-> | ->], M as [-> | ->]; cbn [Z.eqb]; ring. }
    assert (O2 : forall n m l, x2 (outer fo zr_b (zr_p 0)) n m l = 0%R). { intros n m' l. unfold outer, zr_p, zr_b. cbn [x2]. destruct ((m' =? 0) || (m' =? 2)); [|reflexivity]. cbn [andb]. rewrite isz0, FL0. unfold sg. destruct (l =? 0), (n =? 0); ring. }
    assert (O3 : forall n m l, x3 (outer fo zr_b (zr_p 0)) n m l = 0%R). { intros n m' l. unfold outer, zr_p, zr_b. cbn [x3]. destruct ((n =? 0) || (n =? 2)); [|reflexivity]. cbn [andb]. rewrite isz0, FL0. unfold sg. destruct (l =? 0), (m' =? 0); ring. }
    set (o := outer fo zr_b (zr_p 0)) in *. clearbody o. assert (B0 : bit 0) by (left; reflexivity). assert (B1 : bit 1) by (right; reflexivity).
    unfold interior, sum4, pm. cbn [x1 x2 x3]. cbn [Z.eqb Z.add Z.mul Z.sub Z.opp Pos.eqb Pos.add Z.pos_sub Pos.mul Pos.pred_double Pos.succ]. rewrite !O by auto. rewrite !O2, !O3. unfold zr_p. cbn [x1 Z.eqb Pos.eqb]. field; repeat split; assumption.
Qed.
Print Assumptions C43_zero_refuted.

(** The energy is computed with the prolonged cell-centred field, which is then replaced by the
    mean of the prolonged face field (src/smr.c:1860-1907): the internal energy can be negative
    although it is 1/100 everywhere on the coarse Grid.  The coarse field is free of divergence,
    its cell-centred values are the means of the face values, and it agrees with the fine field
    on the boundary. *)
Definition pr_b (I : Z) : R := if Z.even I then 1%R else 0%R.
Definition pr_d (I : Z) : R := if Z.even I then (-1)%R else 1%R.
Definition pr_B2 (J I : Z) : R := (- (pr_d I) * IZR (J - 6))%R.
Definition gp_pr : gst := Gst (fun _ J I v => match v with VD => 1 | VB1 => 1/2 | VB2 => - (pr_d I) * (IZR J - 11/2) | VE => 1/100 + (1/4 + (IZR J - 11/2) * (IZR J - 11/2)) / 2 | _ => 0 end)%R
  (fun _ _ I => pr_b I) (fun _ J I => pr_B2 J I) (fun _ _ _ => 0%R).
Definition g0_pr : gst := Gst (fun _ _ _ _ => 0%R) (fun _ _ _ => 1%R) (fun _ j i => pr_B2 (8 + (j - 4) / 2) (8 + (i - 4) / 2)) (fun _ _ _ => 0%R).
Lemma pr_sq : forall I, (pr_d I * pr_d I = 1)%R. Proof. intros I. unfold pr_d. destruct (Z.even I); lra. Qed.
Theorem C43_pressure_refuted :
  (forall K J I, eint (sq_cf true) (gU gp_pr K J I) = (1/100)%R /\ gU gp_pr K J I VB1 = ((gB1 gp_pr K J I + gB1 gp_pr K J (I + 1)%Z) / 2)%R /\
     gU gp_pr K J I VB2 = ((gB2 gp_pr K J I + gB2 gp_pr K (J + 1)%Z I) / 2)%R /\
     (gB1 gp_pr K J (I + 1)%Z - gB1 gp_pr K J I + (gB2 gp_pr K (J + 1)%Z I - gB2 gp_pr K J I) = 0)%R) /\
  exists oc of, setting 4 (sq_cf true) sq_root 2 sq_pa (Gi 0 0 0) sq_ch (Gi 0 0 0) oc of /\ usable false 2 4 oc of gp_pr g0_pr /\ matched 2 oc of gp_pr g0_pr /\
  forall dx1 dx2 dx3 g' w, dx1 <> 0%R -> dx2 <> 0%R -> dx3 <> 0%R -> prolong (sq_cf true) false 2 4 of dx1 dx2 dx3 g0_pr (pack_P (sq_cf true) 2 4 oc gp_pr) = Some (g', w) ->
  beyond 2 4 of 0 0 7 /\ (eint (sq_cf true) (gU g' 0 0 7) = 1/100 + 1/8 - 9/32)%R.
Proof.
  split.
  { intros K J I. assert (E : (pr_b (I + 1) - pr_b I = pr_d I)%R /\ (pr_b (I + 1) + pr_b I = 1)%R). { unfold pr_b, pr_d. rewrite Z.even_add. change (Z.even 1) with false. destruct (Z.even I); cbn; lra. }
    pose proof (pr_sq I) as SQ. unfold eint, gp_pr. cbn [gU gB1 gB2 c_mhd sq_cf]. unfold pr_B2. replace (J + 1 - 6) with (J - 5) by lia. rewrite !minus_IZR. set (x := IZR J). set (d := pr_d I) in *. clearbody x d. repeat split; try lra. 
    replace (- d * (x - 11/2) * (- d * (x - 11/2)))%R with (d * d * ((x - 11/2) * (x - 11/2)))%R by ring. rewrite SQ. field. }
  destruct (sq_setting true) as (oc & of & SF). exists oc, of. pose proof SF as (ST & C1 & C2 & C3 & B1 & B2 & B3 & B4 & B5 & B6 & F). split; [exact ST|].
  assert (F3 : forall p, fixedB of X3 p = false). { intros p. unfold fixedB. rewrite !F. cbn [axis_eqb negb]. rewrite !andb_false_r. reflexivity. }
  assert (FX1 : forall p, fixedB of X1 p = true -> p X1 = 4 \/ p X1 = 20). { intros p Q. unfold fixedB in Q. rewrite B1, B4 in Q. apply andb_true_iff in Q. destruct Q as (Q & _). clear - Q. lia. }
  assert (FX2 : forall p, fixedB of X2 p = true -> p X2 = 4 \/ p X2 = 20). { intros p Q. unfold fixedB in Q. rewrite B2, B5 in Q. apply andb_true_iff in Q. destruct Q as (Q & _). clear - Q. lia. }
  assert (US : usable false 2 4 oc of gp_pr g0_pr).
  { intros a k j i FX IB _. left. destruct a; cbn [get g0_pr gB1 gB2 gB3]; [lra| |rewrite F3 in FX; discriminate FX].
    apply FX2 in FX. cbn [at_] in FX. unfold pr_B2, pr_d. destruct (Z.even _), FX as [-> | ->]; cbn; lra. }
  split; [exact US|]. split.
  { intros kk jj ii. cbv zeta. split; [|split]; intros FX; unfold avgB1, avgB2, avgB3, gp_pr, g0_pr; cbn [gB1 gB2 gB3].
    - apply FX1 in FX. cbn [at_] in FX. unfold fine in FX. rewrite B1 in FX. change (ratio 2 X1) with 2 in FX. rewrite (cover2 2 _ X2), (cover1 2 _ X3) by reflexivity. unfold cells3, cells2. cbn [map flat_map app]. unfold at3, mean. cbn [fold_right length INR].
      rewrite C1. assert (I : ii = 0 \/ ii = 8) by (clear - FX; lia). unfold pr_b. destruct I as [-> | ->]; cbn; lra.
    - apply FX2 in FX. cbn [at_] in FX. unfold fine in FX. rewrite B2 in FX. change (ratio 2 X2) with 2 in *. rewrite (cover2 2 _ X1), (cover1 2 _ X3) by reflexivity. unfold cells3, cells2. cbn [map flat_map app]. unfold at3, mean. cbn [fold_right length INR].
      rewrite B1, B2, C1, C2. assert (J : (4 + 2 * jj - 4) / 2 = jj) by (clear; Z.div_mod_to_equations; lia). assert (I0 : (4 + 2 * ii - 4) / 2 = ii) by (clear; Z.div_mod_to_equations; lia). assert (I1 : (4 + 2 * ii + 1 - 4) / 2 = ii) by (clear; Z.div_mod_to_equations; lia).
      rewrite J, I0, I1. field.
    - rewrite F3 in FX. discriminate FX. }
  intros dx1 dx2 dx3 g' w D1 D2 D3 RUN.
  assert (B : beyond 2 4 of 0 0 7) by (apply (sq_beyond _ _ _ _ _ _ SF); lia). split; [exact B|].
  destruct (C43_centred _ _ _ _ _ _ _ _ _ _ _ _ _ _ _ _ _ _ _ _ _ ST RUN B eq_refl ltac:(lia) US) as (G1 & G2 & _ & G3).
  unfold eint. cbn [c_mhd sq_cf]. rewrite G1, G2, G3 by (rewrite ?B4, ?B5; reflexivity || lia).
  assert (BB : bit 0 /\ bit 1) by (split; [left|right]; reflexivity). destruct BB as (T0 & T1).
  pose proof (fun v V IB => sq_cell true oc of false dx1 dx2 dx3 gp_pr g0_pr g' w (-2) 1 0 1 v SF RUN ltac:(lia) ltac:(lia) ltac:(lia) T0 T1 V IB) as H. change (4 + 2 * -2 + 0) with 0 in H. change (4 + 2 * 1 + 1) with 7 in H.
  rewrite !H by (cbn; tauto || reflexivity). clear H.
  assert (FN : fine 2 of X3 0 = 0 /\ fine 2 of X2 (-2) = 0 /\ fine 2 of X1 1 = 6). { unfold fine. rewrite B1, B2, B3. repeat split. } destruct FN as (N3 & N2 & N1).
  assert (B' : beyond 2 4 of (fine 2 of X3 0) (fine 2 of X2 (-2)) (fine 2 of X1 1)) by (rewrite N1, N2, N3; apply (sq_beyond _ _ _ _ _ _ SF); lia).
  pose proof (face1_val _ _ _ _ _ _ _ _ _ _ false dx1 dx2 dx3 gp_pr g0_pr g' w ST RUN 0 (-2) 1 0 0 1 eq_refl ltac:(lia) US B' T0 T0 ltac:(tauto)) as E1.
  pose proof (face1_val _ _ _ _ _ _ _ _ _ _ false dx1 dx2 dx3 gp_pr g0_pr g' w ST RUN 0 (-2) 1 0 0 2 eq_refl ltac:(lia) US B' T0 T0 ltac:(right; right; split; [reflexivity|rewrite N1, B4; lia])) as E2.
  pose proof (face2_val _ _ _ _ _ _ _ _ _ _ false dx1 dx2 dx3 gp_pr g0_pr g' w ST RUN 0 (-2) 1 0 0 1 eq_refl ltac:(lia) US B' T0 T1 ltac:(tauto)) as E3.
  pose proof (face2_val _ _ _ _ _ _ _ _ _ _ false dx1 dx2 dx3 gp_pr g0_pr g' w ST RUN 0 (-2) 1 0 1 1 eq_refl ltac:(lia) US B' T0 T1 ltac:(tauto)) as E4.
  pose proof (face3_all _ _ _ _ _ _ _ _ _ _ false dx1 dx2 dx3 gp_pr g0_pr g' w ST RUN 0 (-2) 1 0 1 eq_refl ltac:(lia) US B' T0 T1) as E5.
  rewrite ?N1, ?N2, ?N3 in E1. rewrite ?N1, ?N2, ?N3 in E2. rewrite ?N1, ?N2, ?N3 in E3. rewrite ?N1, ?N2, ?N3 in E4. rewrite ?N1, ?N2, ?N3 in E5.
  change (nb 2 X3 0) with 0 in *. change (0 + 0) with 0 in *. change (6 + 1) with 7 in *. change (6 + 2) with 8 in *. change (0 + 1) with 1 in *. change (7 + 1) with 8.
  rewrite E1, E2, E3, E4, E5. clear E1 E2 E3 E4 E5.
  pose proof (slope_flat false) as FL.
  assert (NF1 : forall i, i <> 4 -> i <> 20 -> forall k j, fixedB of X1 (at_ k j i) = false). { intros i P Q k j. destruct (fixedB of X1 (at_ k j i)) eqn:X; [|reflexivity]. apply FX1 in X. cbn [at_] in X. lia. }
  assert (NF2 : forall j, j <> 4 -> j <> 20 -> forall k i, fixedB of X2 (at_ k j i) = false). { intros j P Q k i. destruct (fixedB of X2 (at_ k j i)) eqn:X; [|reflexivity]. apply FX2 in X. cbn [at_] in X. lia. }
  assert (CI : ci 2 oc of X3 0 = 0 /\ ci 2 oc of X2 0 = 6 /\ ci 2 oc of X1 6 = 9). { unfold ci. rewrite B1, B2, B3, C1, C2, C3. repeat split. } destruct CI as (CI3 & CI2 & CI1).
  set (o := Ofc 2 oc of false gp_pr g0_pr 0 (-2) 1).
  assert (O1 : forall n m l, l = 0 \/ l = 2 -> x1 o n m l = if l =? 0 then 0%R else 1%R).
  { intros n m l L. unfold o, Ofc, Oface. rewrite N1, N2, N3, CI1, CI2, CI3. cbn [x1]. rewrite NF1 by (destruct L; subst l; lia). unfold tr, gp_pr. cbn [gB1]. rewrite !FL. unfold sg, half1. destruct L as [-> | ->]; cbn; destruct (n =? 0), (m =? 0); lra. }
  assert (SL : forall x, slope false (- x) x (- x) = 0%R /\ slope false x (- x) x = 0%R) by (intros x; split; slopes).
  assert (O2 : forall n m l, m = 0 \/ m = 2 -> x2 o n m l = if m =? 0 then 0%R else (-1)%R).
  { intros n m l L. unfold o, Ofc, Oface. rewrite N1, N2, N3, CI1, CI2, CI3. cbn [x2]. rewrite NF2 by (destruct L; subst m; lia). unfold tr, gp_pr. cbn [gB2]. rewrite FL.
    destruct L as [-> | ->]; unfold half1, pr_B2, pr_d; cbn -[slope].
    - replace (slope false (- -1 * 0) (- (1) * 0) (- -1 * 0))%R with 0%R by (replace (- -1 * 0)%R with 0%R by ring; replace (- (1) * 0)%R with 0%R by ring; symmetry; apply FL). unfold sg. destruct (l =? 0), (n =? 0); lra.
    - replace (slope false (- -1 * 1) (- (1) * 1) (- -1 * 1))%R with 0%R by (symmetry; slopes). unfold sg. destruct (l =? 0), (n =? 0); lra. }
  assert (O3 : forall n m l, x3 o n m l = 0%R).
  { intros n m l. unfold o, Ofc, Oface. rewrite N1, N2, N3, CI1, CI2, CI3. cbn [x3]. rewrite F3. unfold tr, gp_pr. cbn [gB3]. rewrite !FL. unfold sg. destruct (l =? 0), (m =? 0); lra. }
  clearbody o.
  assert (QS : forall a b, a <> 0%R -> (a * a + b * b <> 0)%R) by (intros a b A E; apply A; nra).
  pose proof (QS dx2 dx3 D2) as S23. pose proof (QS dx1 dx3 D1) as S13. pose proof (QS dx1 dx2 D1) as S12. clear QS.
  assert (V1 : x1 (interior o dx1 dx2 dx3) 0 0 1 = (1/2)%R). { unfold interior, sum4, pm. cbn [x1 x2 x3 Z.eqb Pos.eqb Z.mul Pos.mul]. rewrite !O1, !O2, !O3 by auto. cbn [Z.eqb Pos.eqb Z.mul Z.sub Z.opp Z.add Z.pos_sub Pos.pred_double]. field; repeat split; assumption. }
  assert (V2 : x1 (interior o dx1 dx2 dx3) 0 0 2 = 1%R). { unfold interior. cbn [x1 Z.eqb Pos.eqb]. rewrite O1 by auto. reflexivity. }
  assert (V3 : x2 (interior o dx1 dx2 dx3) 0 0 1 = 0%R). { unfold interior. cbn [x2 Z.eqb Pos.eqb]. rewrite O2 by auto. reflexivity. }
  assert (V4 : x2 (interior o dx1 dx2 dx3) 0 1 1 = (-1/2)%R). { unfold interior, sum4, pm. cbn [x1 x2 x3 Z.eqb Pos.eqb Z.mul Pos.mul]. rewrite !O1, !O2, !O3 by auto. cbn [Z.eqb Pos.eqb Z.mul Z.sub Z.opp Z.add Z.pos_sub Pos.pred_double]. field; repeat split; assumption. }
  assert (V5 : x3 (interior o dx1 dx2 dx3) 0 0 1 = 0%R). { unfold interior. cbn [x3 Z.eqb Pos.eqb]. apply O3. }
  rewrite V1, V2, V3, V4, V5. clear - FL.
  assert (IN : forall K J I, inner (sq_cf true) (gU gp_pr K J I) = (1/100)%R).
  { intros K J I. unfold inner, kin, mag, gp_pr. cbn [gU c_mhd sq_cf]. pose proof (pr_sq I) as SQ. set (x := IZR J). set (d := pr_d I) in *. clearbody x d.
    replace (- d * (x - 11/2) * (- d * (x - 11/2)))%R with (d * d * ((x - 11/2) * (x - 11/2)))%R by ring. rewrite SQ. field. }
  unfold ProCon, cst, smap. cbn [im1 i0 ip1 jm1 jp1 km1 kp1]. rewrite !IN. unfold kin, mag, lin. cbn [im1 i0 ip1 jm1 jp1 km1 kp1]. unfold gp_pr. cbn [gU c_mhd sq_cf]. rewrite !FL.
  change (nb 2 X2 1) with 1. unfold pr_d. cbn -[slope Rdiv Rmult Rplus Rminus Ropp].
  assert (S1 : slope false (- -1 * (6 - 11/2)) (- (1) * (6 - 11/2)) (- -1 * (6 - 11/2)) = 0%R) by slopes.
  assert (S2 : slope false (- (1) * (5 - 11/2)) (- (1) * (6 - 11/2)) (- (1) * (7 - 11/2)) = (-1)%R) by slopes.
  rewrite S1, S2. field.
Qed.
Print Assumptions C43_pressure_refuted.

(** ** Linear data *)
(** Where the centre of the fine cell [x] is in terms of the indices of the coarse cells. *)
Definition centre (nDim : nat) (oc of : ovl) (a : axis) (x : Z) : R := if many nDim a then (IZR (o_s oc a) + IZR (x - o_s of a) / 2 - 1/4)%R else IZR (o_s oc a).
Lemma mcd_linear : forall x d a b, a = (x - d)%R -> b = (x + d)%R -> mcd_slope a x b = d.
Proof.
  intros x d a b -> ->. unfold mcd_slope. cbv zeta. replace (x - (x - d))%R with d by ring. replace (x + d - x)%R with d by ring.
  repeat match goal with |- context [if Rlt_dec ?x ?y then _ else _] => lazymatch x with context [if _ then _ else _] => fail | _ => lazymatch y with context [if _ then _ else _] => fail | _ => destruct (Rlt_dec x y) end end end; lra.
Qed.
(** C43: linear data is prolonged exactly. *)
Theorem C43_linear : forall ng c root nDim pa ip ch ic oc of dx1 dx2 dx3 gp g0 g' m k j i v c0 c1 c2 c3,
  setting ng c root nDim pa ip ch ic oc of -> prolong c false nDim ng of dx1 dx2 dx3 g0 (pack_P c nDim ng oc gp) = Some (g', m) ->
  beyond nDim ng of k j i -> In v (vars c) -> v <> VE -> (isB v = None \/ nDim = 1%nat) ->
  (forall K J I, gU gp K J I v = c0 + c1 * IZR I + c2 * IZR J + c3 * IZR K)%R ->
  gU g' k j i v = (c0 + c1 * centre nDim oc of X1 i + c2 * centre nDim oc of X2 j + c3 * centre nDim oc of X3 k)%R.
Proof.
  intros ng c root nDim pa ip ch ic oc of dx1 dx2 dx3 gp g0 g' mm k j i v c0 c1 c2 c3 ST RUN B V NE IB LN.
  pose proof (st_paired _ _ _ _ _ _ _ _ _ _ ST) as P. pose proof (pd_dim _ _ _ _ P) as ND. pose proof (st_pos _ _ _ _ _ _ _ _ _ _ ST) as POS.
  pose proof (st_evn _ _ _ _ _ _ _ _ _ _ ST) as E.
  assert (PO : exists kk jj ii, part_of nDim of kk jj ii k j i /\ (many nDim X3 = false -> kk = 0) /\ (many nDim X2 = false -> jj = 0)).
  { exists (if many nDim X3 then (k - o_s of X3) / 2 else 0), (if many nDim X2 then (j - o_s of X2) / 2 else 0), ((i - o_s of X1) / 2).
    split; [|split; intros ->; reflexivity]. unfold part_of. rewrite !(in_cover _ _ _ _ _ _ _ _ _ _ ST). pose proof (many_ratio nDim X1 ND) as Q1. pose proof (many_ratio nDim X2 ND) as Q2. pose proof (many_ratio nDim X3 ND) as Q3. cbn [many] in Q1. rewrite Q1, Q2, Q3.
    pose proof (Z.mod_pos_bound (i - o_s of X1) 2 ltac:(lia)). pose proof (Z.mod_pos_bound (j - o_s of X2) 2 ltac:(lia)). pose proof (Z.mod_pos_bound (k - o_s of X3) 2 ltac:(lia)).
    pose proof (Z.div_mod (i - o_s of X1) 2 ltac:(lia)). pose proof (Z.div_mod (j - o_s of X2) 2 ltac:(lia)). pose proof (Z.div_mod (k - o_s of X3) 2 ltac:(lia)).
    pose proof (ghost_flat c nDim ng oc of P E POS k j i X3 (st_ghost _ _ _ _ _ _ _ _ _ _ ST _ _ _ B)) as G3. pose proof (ghost_flat c nDim ng oc of P E POS k j i X2 (st_ghost _ _ _ _ _ _ _ _ _ _ ST _ _ _ B)) as G2. cbn [at_] in G2, G3.
    split; [|split; [|exists ((i - o_s of X1) mod 2); unfold bit, nb; cbn [many]; lia]].
    - unfold nb. destruct (many nDim X3) eqn:M3; [exists ((k - o_s of X3) mod 2); unfold bit; lia|]. exists 0. unfold bit. split; [auto|]. specialize (G3 eq_refl). lia.
    - unfold nb. destruct (many nDim X2) eqn:M3; [exists ((j - o_s of X2) mod 2); unfold bit; lia|]. exists 0. unfold bit. split; [auto|]. specialize (G2 eq_refl). lia. }
  destruct PO as (kk & jj & ii & PO & K0 & J0).
  destruct (part_base _ _ _ _ _ _ _ _ _ _ ST _ _ _ _ _ _ PO B) as (B' & n & m & l & N & M & L & -> & -> & ->).
  erewrite cell_val by eauto.
  assert (Q : ProCon c false (coarse nDim oc gp kk jj ii) (nb nDim X3 n) (nb nDim X2 m) l v = lin false (smap (fun U => U v) (coarse nDim oc gp kk jj ii)) (nb nDim X3 n) (nb nDim X2 m) l).
  { unfold ProCon. destruct v; try reflexivity. contradiction. }
  rewrite Q. unfold coarse, cst, smap, lin, slope. cbn [im1 i0 ip1 jm1 jp1 km1 kp1]. rewrite !LN, !minus_IZR, !plus_IZR.
  rewrite (mcd_linear _ c1) by ring. rewrite (mcd_linear _ (c2 * IZR (nb nDim X2 1))) by ring. rewrite (mcd_linear _ (c3 * IZR (nb nDim X3 1))) by ring.
  unfold centre, fine. pose proof (many_ratio nDim X1 ND) as Q1. pose proof (many_ratio nDim X2 ND) as Q2. pose proof (many_ratio nDim X3 ND) as Q3. cbn [many] in Q1. rewrite Q1, Q2, Q3. change (many nDim X1) with true. unfold nb. cbv beta iota.
  destruct (many nDim X2); [|rewrite J0 by reflexivity]; (destruct (many nDim X3); [|rewrite K0 by reflexivity]); rewrite ?minus_IZR, ?plus_IZR, ?mult_IZR; field.
Qed.
Print Assumptions C43_linear.

(** ** The arrays GZ and BFld *)
(** Dimension along [b] of GZ[a], src/smr.c:2042-2053, where [mx b] is the largest number of cells
    along [b] of the Grids on the process; that of BFld[a] along [a] is larger by one (lines
    2055-2061). *)
Definition gz_dim (ng : Z) (mx : vec) (a b : axis) : Z := if axis_eqb a b then ng else mx b + 1 + 2 * ng.
(** C73: whatever is loaded into GZ, and whatever ProCon and ProFld take from it for a block of
    fine cells, is within the array. *)
Theorem C73_gz : forall ng c root nDim pa ip ch ic oc of mx a s b, setting ng c root nDim pa ip ch ic oc of -> 4 <= ng -> (forall b, len of b <= mx b) -> many nDim a = true ->
  (0 <= gzs nDim b /\ gze nDim ng of a b < gz_dim ng mx a b) /\ (many nDim b = false -> 2 < gz_dim ng mx a b) /\
  forall x, In x (upto2 (ps nDim ng of a s b) (pe nDim ng of a s b)) -> let q := 1 + (x - ps nDim ng of a s b) / 2 in 0 <= q - 1 /\ q + 1 < gz_dim ng mx a b.
Proof.
  intros ng c root nDim pa ip ch ic oc of mx a s b ST N4 MX MA. pose proof (st_paired _ _ _ _ _ _ _ _ _ _ ST) as P. pose proof (st_evn _ _ _ _ _ _ _ _ _ _ ST) as E.
  pose proof (MX b) as LB. pose proof (st_pos _ _ _ _ _ _ _ _ _ _ ST b) as POS. clear MX.
  assert (NE : many nDim b = false -> axis_eqb a b = false). { intros M. destruct (axis_eqb a b) eqn:AB; [|reflexivity]. apply axis_eqb_spec in AB. subst b. congruence. }
  unfold gzs, gze, ngz, gz_dim. split; [|split].
  - destruct (many nDim b) eqn:M; [|rewrite NE by reflexivity; lia]. destruct (axis_eqb a b); [|unfold len in *]; split; try lia; clear - N4 LB POS; Z.div_mod_to_equations; lia.
  - intros M. rewrite NE by exact M. lia.
  - intros x X. unfold upto2 in X. apply in_map_iff in X. destruct X as (n & <- & X). apply in_seq in X. cbv zeta. replace (ps nDim ng of a s b + 2 * Z.of_nat n - ps nDim ng of a s b) with (Z.of_nat n * 2) by lia. rewrite Z.div_mul by lia.
    assert (N : Z.of_nat n <= (pe nDim ng of a s b - ps nDim ng of a s b) / 2) by lia. clear X. split; [lia|]. revert N. unfold pe, ps, len in *. unfold evn in E. clear P ST MA.
    destruct (axis_eqb a b) eqn:AB, s, (many nDim b) eqn:M; cbn [andb negb]; try (discriminate (NE eq_refl)); clear NE; intros N; Z.div_mod_to_equations; lia.
Qed.
Print Assumptions C73_gz.
