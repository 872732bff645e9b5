(** * Prolongation of one coarse cell (C43) *)
From Coq Require Import Reals ZArith Bool Arith Lia Lra List.
From Verif Require Import CStr MeshModel SmrModel ProModel.
Import ListNotations.
Local Open Scope R_scope.

(** ** Slopes *)
(** Between the smallest and the largest of some numbers. *)
Definition between (l : list R) (x : R) : Prop := (exists y, In y l /\ y <= x) /\ (exists y, In y l /\ x <= y).
Lemma mcd_cases : forall vl vc vr, let s := mcd_slope vl vc vr in
  (vl < vc < vr /\ 0 <= s /\ s <= 2 * (vc - vl) /\ s <= 2 * (vr - vc)) \/
  (vr < vc < vl /\ s <= 0 /\ 2 * (vc - vl) <= s /\ 2 * (vr - vc) <= s) \/ s = 0.
Proof.
  intros vl vc vr. unfold mcd_slope. cbv zeta. destruct (Rlt_dec (vc - vl) (vr - vc)), (Rlt_dec (vr - vc) (vc - vl));
  repeat match goal with |- context [if Rlt_dec ?x ?y then _ else _] => destruct (Rlt_dec x y) end; try (right; right; reflexivity);
  first [left; repeat split; lra|right; left; repeat split; lra].
Qed.
(** The linear profile stays, in the whole coarse cell, between the values of the cell and its
    two neighbours. *)
Lemma profile_between : forall fo vl vc vr t, - (1/2) <= t <= 1/2 -> between [vl; vc; vr] (vc + t * slope fo vl vc vr).
Proof.
  intros fo vl vc vr t T. unfold slope. destruct fo.
  - replace (vc + t * 0) with vc by ring. split; exists vc; cbn; split; auto; lra.
  - pose proof (mcd_cases vl vc vr) as M. cbv zeta in M. set (s := mcd_slope vl vc vr) in *. clearbody s.
    destruct M as [(A & B & C & D)|[(A & B & C & D)| ->]].
    + split; [exists vl|exists vr]; cbn; split; auto; nra.
    + split; [exists vr|exists vl]; cbn; split; auto; nra.
    + split; exists vc; cbn; split; auto; lra.
Qed.
Lemma between_mono : forall l l' x, (forall y, In y l -> In y l') -> between l x -> between l' x.
Proof. intros l l' x H [(a & A & A') (b & B & B')]. split; [exists a|exists b]; auto. Qed.
Lemma between_mid : forall l x y, between l x -> between l y -> between l (1/2 * (x + y)).
Proof.
  intros l x y [(a & A & A') (b & B & B')] [(c & C & C') (d & D & D')]. split.
  - destruct (Rle_dec a c); [exists a|exists c]; split; auto; lra.
  - destruct (Rle_dec b d); [exists d|exists b]; split; auto; lra.
Qed.

(** ** Averages and ranges *)
Definition bit (n : Z) : Prop := (n = 0 \/ n = 1)%Z.
Lemma lin_between1 : forall fo q n m l, bit l -> jm1 q = i0 q -> jp1 q = i0 q -> km1 q = i0 q -> kp1 q = i0 q ->
  between [im1 q; i0 q; ip1 q] (lin fo q n m l).
Proof.
  intros fo q n m l L E1 E2 E3 E4. unfold lin. rewrite E1, E2, E3, E4.
  assert (Z0 : slope fo (i0 q) (i0 q) (i0 q) = 0).
  { unfold slope. destruct fo; [reflexivity|]. unfold mcd_slope. cbv zeta. repeat match goal with |- context [if Rlt_dec ?x ?y then _ else _] => destruct (Rlt_dec x y) end; lra. }
  rewrite Z0. match goal with |- between _ ?x => replace x with (i0 q + (1/2 * IZR l - 1/4) * slope fo (im1 q) (i0 q) (ip1 q)) by ring end.
  apply profile_between. destruct L as [-> | ->]; lra.
Qed.
Lemma lin_between2 : forall fo q n m l, bit l -> bit m -> km1 q = i0 q -> kp1 q = i0 q ->
  between [im1 q; i0 q; ip1 q; jm1 q; jp1 q] (lin fo q n m l).
Proof.
  intros fo q n m l L M E3 E4. unfold lin. rewrite E3, E4.
  assert (Z0 : slope fo (i0 q) (i0 q) (i0 q) = 0).
  { unfold slope. destruct fo; [reflexivity|]. unfold mcd_slope. cbv zeta. repeat match goal with |- context [if Rlt_dec ?x ?y then _ else _] => destruct (Rlt_dec x y) end; lra. }
  rewrite Z0.
  match goal with |- between _ ?x => replace x with (1/2 * ((i0 q + (IZR l - 1/2) * slope fo (im1 q) (i0 q) (ip1 q)) + (i0 q + (IZR m - 1/2) * slope fo (jm1 q) (i0 q) (jp1 q)))) by field end.
  apply between_mid.
  - eapply between_mono; [|apply profile_between; destruct L as [-> | ->]; lra]. cbn. tauto.
  - eapply between_mono; [|apply profile_between; destruct M as [-> | ->]; lra]. cbn. tauto.
Qed.
(** In three dimensions a value can be outside the range, but by no more than half of it. *)
Lemma lin_between3 : forall fo q n m l, bit l -> bit m -> bit n ->
  exists x, between [im1 q; i0 q; ip1 q; jm1 q; jp1 q; km1 q; kp1 q] x /\ lin fo q n m l = x + 1/2 * (x - i0 q).
Proof.
  intros fo q n m l L M N. exists (i0 q + 2/3 * (lin fo q n m l - i0 q)). split; [|field].
  unfold lin. set (a := slope fo (im1 q) (i0 q) (ip1 q)). set (b := slope fo (jm1 q) (i0 q) (jp1 q)). set (c := slope fo (km1 q) (i0 q) (kp1 q)).
  assert (A : between [im1 q; i0 q; ip1 q; jm1 q; jp1 q; km1 q; kp1 q] (i0 q + (IZR l - 1/2) * a)).
  { eapply between_mono; [|apply profile_between; destruct L as [-> | ->]; lra]. cbn. tauto. }
  assert (B : between [im1 q; i0 q; ip1 q; jm1 q; jp1 q; km1 q; kp1 q] (i0 q + (IZR m - 1/2) * b)).
  { eapply between_mono; [|apply profile_between; destruct M as [-> | ->]; lra]. cbn. tauto. }
  assert (C : between [im1 q; i0 q; ip1 q; jm1 q; jp1 q; km1 q; kp1 q] (i0 q + (IZR n - 1/2) * c)).
  { eapply between_mono; [|apply profile_between; destruct N as [-> | ->]; lra]. cbn. tauto. }
  clearbody a b c. set (L7 := [im1 q; i0 q; ip1 q; jm1 q; jp1 q; km1 q; kp1 q]) in *. clearbody L7.
  destruct A as [(a1 & A1 & A2) (a3 & A3 & A4)], B as [(b1 & B1 & B2) (b3 & B3 & B4)], C as [(c1 & C1 & C2) (c3 & C3 & C4)]. split.
  - destruct (Rle_dec a1 b1); [destruct (Rle_dec a1 c1); [exists a1|exists c1]|destruct (Rle_dec b1 c1); [exists b1|exists c1]]; split; auto; lra.
  - destruct (Rle_dec a3 b3); [destruct (Rle_dec b3 c3); [exists c3|exists b3]|destruct (Rle_dec a3 c3); [exists c3|exists a3]]; split; auto; lra.
Qed.

(** ** The interior faces *)
(** The faces of the fine cell (n, m, l) of the block. *)
Definition divblk (p : rv) (dx1 dx2 dx3 : R) (n m l : Z) : R :=
  (x1 p n m (l + 1)%Z - x1 p n m l) / dx1 + (x2 p n (m + 1)%Z l - x2 p n m l) / dx2 + (x3 p (n + 1)%Z m l - x3 p n m l) / dx3.
Lemma interior_div : forall p dx1 dx2 dx3 n m l, bit n -> bit m -> bit l -> dx1 <> 0 -> dx2 <> 0 -> dx3 <> 0 ->
  divblk (interior p dx1 dx2 dx3) dx1 dx2 dx3 n m l =
  (sum4 (fun n m => x1 p n m 2%Z) - sum4 (fun n m => x1 p n m 0%Z)) / (8 * dx1) +
  (sum4 (fun n l => x2 p n 2%Z l) - sum4 (fun n l => x2 p n 0%Z l)) / (8 * dx2) +
  (sum4 (fun m l => x3 p 2%Z m l) - sum4 (fun m l => x3 p 0%Z m l)) / (8 * dx3).
Proof.
  intros p dx1 dx2 dx3 n m l N M L D1 D2 D3.
  assert (S : forall a b, a <> 0 -> a * a + b * b <> 0) by (intros a b A E; apply A; nra).
  pose proof (S dx2 dx3 D2) as S23. pose proof (S dx1 dx3 D1) as S13. pose proof (S dx1 dx2 D1) as S12. clear S.
  destruct N as [-> | ->], M as [-> | ->], L as [-> | ->]; unfold divblk, interior, sum4, pm; cbn [x1 x2 x3 Z.eqb Z.add Z.mul Z.sub Z.opp Pos.eqb Pos.add Z.pos_sub Pos.mul Pos.pred_double Pos.succ];
  field; repeat split; assumption.
Qed.
