(** * Prolongation: the theorems (C43) *)
From Coq Require Import Reals ZArith Bool Arith Lia Lra ZifyBool List.
From Verif Require Import CStr MeshModel SmrModel SmrOverlap SmrFacts SmrProps SmrPaired SmrField SmrCT ProModel ProPass ProFill ProAll ProMsg ProProps.
From Verif Require ProKernel.
Import ProKernel (between, lin_between1, lin_between2, lin_between3, interior_div, divblk).
Import ListNotations.
Open Scope Z_scope.

(** ** Cell-centred values *)
(** C43: Prolongate consumes the whole message, and changes nothing but the cells beyond the
    boundary; with two and three dimensions the faces on the boundary, between the fine Grid
    and what is prolonged, keep the field of the fine Grid. *)
Theorem C43_total : forall ng c root nDim pa ip ch ic oc of fo dx1 dx2 dx3 gp g0,
  aligned nDim pa ip ch ic -> 0 <= ng -> ng mod 2 = 0 -> cgrid ng c root nDim pa ip ch ic = Some oc -> pgrid ng c root nDim pa ip ch ic = Some of ->
  exists g', prolong c fo nDim ng of dx1 dx2 dx3 g0 (pack_P c nDim ng oc gp) = Some (g', []) /\
    (forall k j i, ~ ((forall a, 0 < len of a) /\ beyond nDim ng of k j i) ->
       (forall v, gU g' k j i v = gU g0 k j i v) /\ gB1 g' k j i = gB1 g0 k j i /\ gB2 g' k j i = gB2 g0 k j i /\ gB3 g' k j i = gB3 g0 k j i) /\
    ((2 <= nDim)%nat -> forall b k j i, fixedB of b (at_ k j i) = true -> get g' (EB b k j i) = get g0 (EB b k j i)).
Proof.
  intros ng c root nDim pa ip ch ic oc of fo dx1 dx2 dx3 gp g0 A N1 N2 HC HP.
  pose proof (C72_paired _ _ _ _ _ _ _ _ _ _ A HC HP) as P. assert (E : evn ng) by (split; assumption).
  destruct (nP_pos ng c root nDim pa ip ch ic oc of A N1 HC HP) as (Q1 & Q2 & Q3).
  destruct (Z_lt_dec 0 (o_nP of)) as [NP|NP].
  - pose proof (proj1 (proj1 Q1 NP)) as POS.
    destruct (prolong_get c fo nDim ng oc of dx1 dx2 dx3 gp g0 P E POS NP Q3) as (g1 & R1 & _ & _ & R4). exists g1. split; [exact R1|]. split.
    + intros k j i NB. assert (NG : ~ ghost nDim ng of (at_ k j i)). { intros G. apply NB. split; [exact POS|]. apply (beyond_ghost c nDim ng oc of); auto. }
      split; [intros v; apply (R4 (EU v k j i)); intros G; destruct (NG G)|].
      repeat split; [apply (R4 (EB X1 k j i))|apply (R4 (EB X2 k j i))|apply (R4 (EB X3 k j i))]; intros G; destruct (NG G).
    + intros D b k j i F. apply R4. intros _ _. split; [lia|exact F].
  - assert (Z0 : o_nP of = 0) by lia. exists g0. split; [|split; intros; repeat split; reflexivity].
    unfold prolong, pack_P. rewrite Q3, Z0. change (0 =? 0) with true. cbn [negb].
    assert (S : forall l, fold_left (fun r d => match r with Some (g, m) => pass c fo nDim ng of dx1 dx2 dx3 d g m | None => None end) l (Some (g0, [])) = Some (g0, [])).
    { induction l as [|[a s] l IH]; [reflexivity|]. cbn [fold_left]. unfold pass at 2. rewrite Z0. change (0 <? 0) with false. rewrite andb_false_r. cbn [negb]. exact IH. }
    apply S.
Qed.
Print Assumptions C43_total.

(** C43: the fine values in a coarse cell beyond the boundary average to the coarse value: all
    variables but the energy (first order apart), and the cell-centred field where it is not
    computed from the face-centred one. *)
Theorem C43_average : forall ng c root nDim pa ip ch ic oc of fo dx1 dx2 dx3 gp g0 g' m kk jj ii v,
  setting ng c root nDim pa ip ch ic oc of -> prolong c fo nDim ng of dx1 dx2 dx3 g0 (pack_P c nDim ng oc gp) = Some (g', m) ->
  beyond nDim ng of (fine nDim of X3 kk) (fine nDim of X2 jj) (fine nDim of X1 ii) ->
  In v (vars c) -> (v <> VE \/ fo = true) -> (isB v = None \/ nDim = 1%nat) ->
  avgU nDim of g' (kk, jj, ii) v = gU gp (o_s oc X3 + kk) (o_s oc X2 + jj) (o_s oc X1 + ii) v.
Proof.
  intros ng c root nDim pa ip ch ic oc of fo dx1 dx2 dx3 gp g0 g' m kk jj ii v ST RUN B V NE C.
  pose proof (st_paired _ _ _ _ _ _ _ _ _ _ ST) as P. unfold avgU.
  rewrite (mean_cover c nDim oc of P _ (fun n m l => ProCon c fo (coarse nDim oc gp kk jj ii) n m l v)).
  2: { intros n m' l N M L. unfold at3. eapply cell_val; eauto. }
  assert (Q : forall n m l, ProCon c fo (coarse nDim oc gp kk jj ii) n m l v = lin fo (smap (fun U => U v) (coarse nDim oc gp kk jj ii)) n m l).
  { intros n m' l. unfold ProCon. destruct v; try reflexivity. destruct NE as [NE| ->]; [contradiction|]. unfold lin, slope. cbn [smap i0]. ring. }
  cbv beta zeta. rewrite !Q. apply (mean_lin nDim fo); apply (cst_flat nDim).
Qed.
Print Assumptions C43_average.

(** C43: so do, for the energy, the internal energies. *)
Theorem C43_energy : forall ng c root nDim pa ip ch ic oc of dx1 dx2 dx3 gp g0 g' m kk jj ii,
  setting ng c root nDim pa ip ch ic oc of -> prolong c false nDim ng of dx1 dx2 dx3 g0 (pack_P c nDim ng oc gp) = Some (g', m) ->
  beyond nDim ng of (fine nDim of X3 kk) (fine nDim of X2 jj) (fine nDim of X1 ii) ->
  c_baro c = false -> (c_mhd c = false \/ nDim = 1%nat) ->
  mean (map (fun q => eint c (at3 (gU g') q)) (cells3 (cover nDim (o_s of X3) X3 kk) (cover nDim (o_s of X2) X2 jj) (cover nDim (o_s of X1) X1 ii))) =
  eint c (gU gp (o_s oc X3 + kk) (o_s oc X2 + jj) (o_s oc X1 + ii)).
Proof.
  intros ng c root nDim pa ip ch ic oc of dx1 dx2 dx3 gp g0 g' m kk jj ii ST RUN B BA C.
  pose proof (st_paired _ _ _ _ _ _ _ _ _ _ ST) as P.
  rewrite (mean_cover c nDim oc of P _ (fun n m l => lin false (smap (inner c) (coarse nDim oc gp kk jj ii)) n m l)).
  2: { intros n m' l N M L. eapply eint_val; eauto. }
  change (eint c (gU gp (o_s oc X3 + kk) (o_s oc X2 + jj) (o_s oc X1 + ii))) with (i0 (smap (inner c) (coarse nDim oc gp kk jj ii))).
  apply (mean_lin nDim false); apply (cst_flat' nDim).
Qed.
Print Assumptions C43_energy.
(** C43: the values do not exceed the range of those of the coarse cell and its neighbours: with
    one and two dimensions. *)
Theorem C43_range : forall ng c root nDim pa ip ch ic oc of fo dx1 dx2 dx3 gp g0 g' m kk jj ii k j i v,
  setting ng c root nDim pa ip ch ic oc of -> prolong c fo nDim ng of dx1 dx2 dx3 g0 (pack_P c nDim ng oc gp) = Some (g', m) ->
  beyond nDim ng of k j i -> part_of nDim of kk jj ii k j i ->
  In v (vars c) -> (v <> VE \/ fo = true) -> (isB v = None \/ nDim = 1%nat) -> (nDim <= 2)%nat ->
  between (around nDim (fun K J I => gU gp K J I v) (o_s oc X3 + kk) (o_s oc X2 + jj) (o_s oc X1 + ii)) (gU g' k j i v).
Proof.
  intros ng c root nDim pa ip ch ic oc of fo dx1 dx2 dx3 gp g0 g' m kk jj ii k j i v ST RUN B PO V NE C D.
  destruct (part_base _ _ _ _ _ _ _ _ _ _ ST _ _ _ _ _ _ PO B) as (B' & n & m' & l & N & M & L & -> & -> & ->).
  erewrite cell_val by eauto.
  assert (Q : ProCon c fo (coarse nDim oc gp kk jj ii) (nb nDim X3 n) (nb nDim X2 m') l v = lin fo (smap (fun U => U v) (coarse nDim oc gp kk jj ii)) (nb nDim X3 n) (nb nDim X2 m') l).
  { unfold ProCon. destruct v; try reflexivity. destruct NE as [NE| ->]; [contradiction|]. unfold lin, slope. cbn [smap i0]. ring. }
  rewrite Q. destruct (cst_flat nDim gp (o_s oc X3 + kk) (o_s oc X2 + jj) (o_s oc X1 + ii) v) as (F2 & F3). fold (coarse nDim oc gp kk jj ii) in *.
  apply (ranges nDim fo (fun U => U v)); auto. apply (pd_dim _ _ _ _ (st_paired _ _ _ _ _ _ _ _ _ _ ST)).
Qed.
Print Assumptions C43_range.
(** C43: with three dimensions, they can exceed it by half the difference to the value of the
    coarse cell. *)
Theorem C43_range3 : forall ng c root pa ip ch ic oc of fo dx1 dx2 dx3 gp g0 g' m kk jj ii k j i v,
  setting ng c root 3 pa ip ch ic oc of -> prolong c fo 3 ng of dx1 dx2 dx3 g0 (pack_P c 3 ng oc gp) = Some (g', m) ->
  beyond 3 ng of k j i -> part_of 3 of kk jj ii k j i ->
  In v (vars c) -> (v <> VE \/ fo = true) -> isB v = None ->
  exists x, between (around 3 (fun K J I => gU gp K J I v) (o_s oc X3 + kk) (o_s oc X2 + jj) (o_s oc X1 + ii)) x /\
    gU g' k j i v = (x + 1/2 * (x - gU gp (o_s oc X3 + kk)%Z (o_s oc X2 + jj)%Z (o_s oc X1 + ii)%Z v))%R.
Proof.
  intros ng c root pa ip ch ic oc of fo dx1 dx2 dx3 gp g0 g' m kk jj ii k j i v ST RUN B PO V NE C.
  destruct (part_base _ _ _ _ _ _ _ _ _ _ ST _ _ _ _ _ _ PO B) as (B' & n & m' & l & N & M & L & -> & -> & ->).
  erewrite cell_val by eauto.
  assert (Q : ProCon c fo (coarse 3 oc gp kk jj ii) (nb 3 X3 n) (nb 3 X2 m') l v = lin fo (smap (fun U => U v) (coarse 3 oc gp kk jj ii)) (nb 3 X3 n) (nb 3 X2 m') l).
  { unfold ProCon. destruct v; try reflexivity. destruct NE as [NE| ->]; [contradiction|]. unfold lin, slope. cbn [smap i0]. ring. }
  rewrite Q. destruct (lin_between3 fo (smap (fun U => U v) (coarse 3 oc gp kk jj ii)) n m' l L M N) as (x & X & E). exists x. split; [exact X|exact E].
Qed.
Print Assumptions C43_range3.
(** C43: the internal energy is in the range of those of the coarse cell and its neighbours. *)
Theorem C43_energy_range : forall ng c root nDim pa ip ch ic oc of dx1 dx2 dx3 gp g0 g' m kk jj ii k j i,
  setting ng c root nDim pa ip ch ic oc of -> prolong c false nDim ng of dx1 dx2 dx3 g0 (pack_P c nDim ng oc gp) = Some (g', m) ->
  beyond nDim ng of k j i -> part_of nDim of kk jj ii k j i ->
  c_baro c = false -> (c_mhd c = false \/ nDim = 1%nat) -> (nDim <= 2)%nat ->
  between (around nDim (fun K J I => eint c (gU gp K J I)) (o_s oc X3 + kk) (o_s oc X2 + jj) (o_s oc X1 + ii)) (eint c (gU g' k j i)).
Proof.
  intros ng c root nDim pa ip ch ic oc of dx1 dx2 dx3 gp g0 g' m kk jj ii k j i ST RUN B PO BA C D.
  destruct (part_base _ _ _ _ _ _ _ _ _ _ ST _ _ _ _ _ _ PO B) as (B' & n & m' & l & N & M & L & -> & -> & ->).
  erewrite eint_val by eauto. change (eint c) with (inner c).
  destruct (cst_flat' nDim gp (o_s oc X3 + kk) (o_s oc X2 + jj) (o_s oc X1 + ii) (inner c)) as (F2 & F3). fold (coarse nDim oc gp kk jj ii) in *.
  apply (ranges nDim false (inner c)); auto. apply (pd_dim _ _ _ _ (st_paired _ _ _ _ _ _ _ _ _ _ ST)).
Qed.
Print Assumptions C43_energy_range.

(** ** The face-centred field *)
Lemma Ofc_tr1 : forall nDim oc of fo gp g0 kk jj ii, fixedB of X1 (at_ (fine nDim of X3 kk) (fine nDim of X2 jj) (fine nDim of X1 ii)) = false ->
  forall n m, x1 (Ofc nDim oc of fo gp g0 kk jj ii) n m 0 = tr fo nDim gp X1 (ci nDim oc of X3 (fine nDim of X3 kk)) (ci nDim oc of X2 (fine nDim of X2 jj)) (ci nDim oc of X1 (fine nDim of X1 ii)) n m 0.
Proof. intros. unfold Ofc, Oface. cbn [x1]. rewrite !Z.add_0_r. rewrite H. reflexivity. Qed.
Lemma sg01 : forall x, (sg 0 x + sg 1 x = 0)%R. Proof. intros x. unfold sg. cbn. ring. Qed.
(** C43: the fine faces in a coarse face beyond the boundary, or on it beyond another
    boundary, carry the flux of the coarse face. *)
Theorem C43_flux : forall ng c root nDim pa ip ch ic oc of fo dx1 dx2 dx3 gp g0 g' m kk jj ii,
  setting ng c root nDim pa ip ch ic oc of -> prolong c fo nDim ng of dx1 dx2 dx3 g0 (pack_P c nDim ng oc gp) = Some (g', m) ->
  beyond nDim ng of (fine nDim of X3 kk) (fine nDim of X2 jj) (fine nDim of X1 ii) ->
  c_mhd c = true -> (2 <= nDim)%nat -> usable fo nDim ng oc of gp g0 ->
  let K := o_s oc X3 + kk in let J := o_s oc X2 + jj in let I := o_s oc X1 + ii in
  let p := at_ (fine nDim of X3 kk) (fine nDim of X2 jj) (fine nDim of X1 ii) in
  (fixedB of X1 p = false -> avgB1 nDim of (gB1 g') kk jj ii = gB1 gp K J I) /\
  (fixedB of X2 p = false -> avgB2 nDim of (gB2 g') kk jj ii = gB2 gp K J I) /\
  (fixedB of X3 p = false -> avgB3 nDim of (gB3 g') kk jj ii = gB3 gp K J I).
Proof.
  intros ng c root nDim pa ip ch ic oc of fo dx1 dx2 dx3 gp g0 g' m kk jj ii ST RUN B MH D2 US. cbv zeta.
  pose proof (st_paired _ _ _ _ _ _ _ _ _ _ ST) as P. pose proof (st_evn _ _ _ _ _ _ _ _ _ _ ST) as E. pose proof (st_pos _ _ _ _ _ _ _ _ _ _ ST) as POS.
  pose proof (st_ghost _ _ _ _ _ _ _ _ _ _ ST _ _ _ B) as G. destruct (fine_flat c nDim ng oc of P E POS kk jj ii G) as (F2 & F3).
  assert (CI : ci nDim oc of X3 (fine nDim of X3 kk) = o_s oc X3 + kk /\ ci nDim oc of X2 (fine nDim of X2 jj) = o_s oc X2 + jj /\ ci nDim oc of X1 (fine nDim of X1 ii) = o_s oc X1 + ii).
  { repeat split; apply (fine_ci c nDim oc of P); auto. intros Q; discriminate Q. } destruct CI as (C3 & C2 & C1).
  pose proof (face1_val _ _ _ _ _ _ _ _ _ _ fo dx1 dx2 dx3 gp g0 g' m ST RUN kk jj ii) as V1.
  pose proof (face2_val _ _ _ _ _ _ _ _ _ _ fo dx1 dx2 dx3 gp g0 g' m ST RUN kk jj ii) as V2.
  pose proof (face3_all _ _ _ _ _ _ _ _ _ _ fo dx1 dx2 dx3 gp g0 g' m ST RUN kk jj ii) as V3.
  assert (B0 : bit 0) by (left; reflexivity). assert (B1 : bit 1) by (right; reflexivity).
  pose proof (pd_dim _ _ _ _ P) as ND.
  assert (X10 : forall n m, x1 (interior (Ofc nDim oc of fo gp g0 kk jj ii) dx1 dx2 dx3) n m 0 = x1 (Ofc nDim oc of fo gp g0 kk jj ii) n m 0) by reflexivity.
  assert (X20 : forall n l, x2 (interior (Ofc nDim oc of fo gp g0 kk jj ii) dx1 dx2 dx3) n 0 l = x2 (Ofc nDim oc of fo gp g0 kk jj ii) n 0 l) by reflexivity.
  assert (X30 : forall m l, x3 (interior (Ofc nDim oc of fo gp g0 kk jj ii) dx1 dx2 dx3) 0 m l = x3 (Ofc nDim oc of fo gp g0 kk jj ii) 0 m l) by reflexivity.
  split; [|split]; intros FX.
  - assert (T : forall n m, bit n -> bit m -> gB1 g' (fine nDim of X3 kk + nb nDim X3 n) (fine nDim of X2 jj + m) (fine nDim of X1 ii) = tr fo nDim gp X1 (o_s oc X3 + kk) (o_s oc X2 + jj) (o_s oc X1 + ii) (nb nDim X3 n) m 0).
    { intros n m' N M. rewrite <- (Z.add_0_r (fine nDim of X1 ii)). rewrite V1 by auto. rewrite X10. unfold Ofc, Oface. cbn [x1]. rewrite !Z.add_0_r, FX, C3, C2, C1. reflexivity. }
    pose proof (T 0 0 B0 B0) as T1. pose proof (T 0 1 B0 B1) as T2. pose proof (T 1 0 B1 B0) as T3. pose proof (T 1 1 B1 B1) as T4. clear - T1 T2 T3 T4 D2 ND.
    unfold avgB1. change (o_s of X1 + ratio nDim X1 * ii) with (fine nDim of X1 ii). faces nDim ND D2 T1 T2 T3 T4.
  - assert (T : forall n l, bit n -> bit l -> gB2 g' (fine nDim of X3 kk + nb nDim X3 n) (fine nDim of X2 jj) (fine nDim of X1 ii + l) = tr fo nDim gp X2 (o_s oc X3 + kk) (o_s oc X2 + jj) (o_s oc X1 + ii) (nb nDim X3 n) 0 l).
    { intros n l N L. rewrite <- (Z.add_0_r (fine nDim of X2 jj)). rewrite V2 by auto. rewrite X20. unfold Ofc, Oface. cbn [x2]. rewrite !Z.add_0_r, FX, C3, C2, C1. reflexivity. }
    pose proof (T 0 0 B0 B0) as T1. pose proof (T 0 1 B0 B1) as T2. pose proof (T 1 0 B1 B0) as T3. pose proof (T 1 1 B1 B1) as T4. clear - T1 T2 T3 T4 D2 ND.
    unfold avgB2. change (o_s of X2 + ratio nDim X2 * jj) with (fine nDim of X2 jj). faces nDim ND D2 T1 T2 T3 T4.
  - assert (T : forall m l, bit m -> bit l -> gB3 g' (fine nDim of X3 kk) (fine nDim of X2 jj + m) (fine nDim of X1 ii + l) = tr fo nDim gp X3 (o_s oc X3 + kk) (o_s oc X2 + jj) (o_s oc X1 + ii) 0 m l).
    { intros m' l M L. rewrite V3 by auto. rewrite X30. unfold Ofc, Oface. cbn [x3]. rewrite !Z.add_0_r, FX, C3, C2, C1. replace (nb nDim X3 (half1 0)) with 0 by (unfold nb; destruct (many nDim X3); reflexivity). rewrite Z.add_0_r. reflexivity. }
    pose proof (T 0 0 B0 B0) as T1. pose proof (T 0 1 B0 B1) as T2. pose proof (T 1 0 B1 B0) as T3. pose proof (T 1 1 B1 B1) as T4. clear - T1 T2 T3 T4 D2 ND.
    unfold avgB3. change (o_s of X3 + ratio nDim X3 * kk) with (fine nDim of X3 kk). faces nDim ND D2 T1 T2 T3 T4.
Qed.
Print Assumptions C43_flux.

(** *** Divergence *)
(** On the boundary of the refined region the coarse field is the mean of the fine one; this
    is what RestrictCorrect leaves (C42). *)
Definition matched (nDim : nat) (oc of : ovl) (gp g0 : gst) : Prop := forall kk jj ii,
  let K := o_s oc X3 + kk in let J := o_s oc X2 + jj in let I := o_s oc X1 + ii in
  let p := at_ (fine nDim of X3 kk) (fine nDim of X2 jj) (fine nDim of X1 ii) in
  (fixedB of X1 p = true -> avgB1 nDim of (gB1 g0) kk jj ii = gB1 gp K J I) /\
  (fixedB of X2 p = true -> avgB2 nDim of (gB2 g0) kk jj ii = gB2 gp K J I) /\
  (fixedB of X3 p = true -> avgB3 nDim of (gB3 g0) kk jj ii = gB3 gp K J I).
Section Sums.
Variables (c : cfg) (nDim : nat) (oc of : ovl) (fo : bool) (gp g0 : gst) (kk jj ii : Z).
Hypothesis P : paired c nDim oc of.
(** With two dimensions nothing depends on the position along x3. *)
Lemma Ofc_flat : nDim = 2%nat -> forall n n' m l, x1 (Ofc nDim oc of fo gp g0 kk jj ii) n m l = x1 (Ofc nDim oc of fo gp g0 kk jj ii) n' m l /\
  x2 (Ofc nDim oc of fo gp g0 kk jj ii) n m l = x2 (Ofc nDim oc of fo gp g0 kk jj ii) n' m l /\ x3 (Ofc nDim oc of fo gp g0 kk jj ii) n m l = x3 (Ofc nDim oc of fo gp g0 kk jj ii) n' m l.
Proof.
  intros D n n' m l. assert (M3 : many nDim X3 = false) by (cbn [many]; lia).
  assert (F3 : forall s, some (o_flx of X3 s) = false).
  { intros s. destruct (some (o_flx of X3 s)) eqn:Q; [|reflexivity]. pose proof (flagm c nDim oc of P X3 s Q) as Q'. rewrite M3 in Q'. discriminate Q'. }
  assert (NB : forall x, nb nDim X3 x = 0) by (intros x; unfold nb; rewrite M3; reflexivity).
  assert (FX : forall p, fixedB of X3 p = false) by (intros p; unfold fixedB; rewrite !F3, !andb_false_r; reflexivity).
  unfold Ofc, Oface. cbn [x1 x2 x3]. rewrite !NB, !FX. unfold tr. rewrite !NB, !Z.sub_0_r, !Z.add_0_r, !slope_flat.
  assert (S0 : forall n, sg n (1 / 4 * 0) = 0%R) by (intros x; unfold sg; destruct (x =? 0); ring). rewrite !S0. repeat split; reflexivity.
Qed.
Lemma int_flat : nDim = 2%nat -> forall dx1 dx2 dx3 m l, bit m -> bit l -> let p := interior (Ofc nDim oc of fo gp g0 kk jj ii) dx1 dx2 dx3 in x3 p 1 m l = x3 p 0 m l.
Proof.
  intros D dx1 dx2 dx3 m l M L. cbv zeta. pose proof (Ofc_flat D) as F. set (o := Ofc nDim oc of fo gp g0 kk jj ii) in *. clearbody o.
  assert (F1 : forall m l, x1 o 1 m l = x1 o 0 m l) by (intros; apply F). assert (F2 : forall m l, x2 o 1 m l = x2 o 0 m l) by (intros; apply F). assert (F3 : forall m l, x3 o 2 m l = x3 o 0 m l) by (intros; apply F).
  clear - F1 F2 F3. unfold interior, sum4. cbn [x3]. cbn [Z.eqb Pos.eqb]. rewrite !F1, !F2, !F3. replace (1 / 2 * (x3 o 0 m l + x3 o 0 m l))%R with (x3 o 0 m l) by field. unfold Rdiv. ring.
Qed.
Hypothesis D2 : (2 <= nDim)%nat.
Hypothesis FK : many nDim X3 = false -> kk = 0.
Lemma cis : ci nDim oc of X3 (fine nDim of X3 kk) = o_s oc X3 + kk /\ ci nDim oc of X2 (fine nDim of X2 jj) = o_s oc X2 + jj /\ ci nDim oc of X1 (fine nDim of X1 ii) = o_s oc X1 + ii.
Proof. repeat split; apply (fine_ci c nDim oc of P); auto. { intros Q. cbn [many] in Q. lia. } intros Q; discriminate Q. Qed.
Hypothesis MT : matched nDim oc of gp g0.
Lemma sumO1 : forall q, bit q -> sum4 (fun n m => x1 (Ofc nDim oc of fo gp g0 kk jj ii) n m (2 * q)) = (4 * gB1 gp (o_s oc X3 + kk)%Z (o_s oc X2 + jj)%Z (o_s oc X1 + ii + q)%Z)%R.
Proof.
  intros q Q. pose proof (pd_dim _ _ _ _ P) as ND. destruct cis as (C3 & C2 & C1).
  assert (FQ : fine nDim of X1 ii + 2 * q = fine nDim of X1 (ii + q)) by (unfold fine; rewrite many_ratio by exact ND; cbn [many]; lia).
  assert (HQ : half1 (2 * q) = q) by (destruct Q as [-> | ->]; reflexivity).
  unfold sum4, Ofc, Oface. cbn [x1]. rewrite C3, C2, C1, FQ, HQ. destruct (MT kk jj (ii + q)) as (M1 & _).
  destruct (fixedB of X1 (at_ (fine nDim of X3 kk) (fine nDim of X2 jj) (fine nDim of X1 (ii + q)))) eqn:FX.
  - rewrite <- Z.add_assoc. rewrite <- (M1 eq_refl). clear - ND D2. unfold avgB1. change (o_s of X1 + ratio nDim X1 * (ii + q)) with (fine nDim of X1 (ii + q)). generalize (fine nDim of X1 (ii + q)). intros I.
    destruct (ratio_cases nDim ND) as [(N & _)|[(N & R1 & R2 & R3)|(N & R1 & R2 & R3)]]; [lia| |]; rewrite (cover2 nDim _ X2) by assumption; first [rewrite (cover2 nDim _ X3) by assumption|rewrite (cover1 nDim _ X3) by assumption];
    unfold fine; rewrite ?R1, ?R2, ?R3; subst nDim; unfold nb; cbn [many Nat.leb]; repeat rewrite Z.mul_1_l; repeat rewrite Z.add_0_r; unfold cells3, cells2; cbn [map flat_map app]; unfold at3, mean; cbn [fold_right length INR]; field.
  - clear - ND D2. unfold tr. destruct (many nDim X3) eqn:M3; unfold nb; rewrite M3; [unfold sg; cbn [Z.eqb]; field|]. rewrite Z.sub_0_r, Z.add_0_r, slope_flat. unfold sg. cbn [Z.eqb]. field.
Qed.
Lemma sumO2 : forall q, bit q -> sum4 (fun n l => x2 (Ofc nDim oc of fo gp g0 kk jj ii) n (2 * q) l) = (4 * gB2 gp (o_s oc X3 + kk)%Z (o_s oc X2 + jj + q)%Z (o_s oc X1 + ii)%Z)%R.
Proof.
  intros q Q. pose proof (pd_dim _ _ _ _ P) as ND. destruct cis as (C3 & C2 & C1). assert (M2 : many nDim X2 = true) by (cbn [many]; lia).
  assert (FQ : fine nDim of X2 jj + 2 * q = fine nDim of X2 (jj + q)) by (unfold fine; rewrite many_ratio by exact ND; rewrite M2; lia).
  assert (HQ : half1 (2 * q) = q) by (destruct Q as [-> | ->]; reflexivity).
  unfold sum4, Ofc, Oface. cbn [x2]. rewrite C3, C2, C1, FQ, HQ. destruct (MT kk (jj + q) ii) as (_ & M1 & _).
  destruct (fixedB of X2 (at_ (fine nDim of X3 kk) (fine nDim of X2 (jj + q)) (fine nDim of X1 ii))) eqn:FX.
  - rewrite <- (Z.add_assoc (o_s oc X2)). rewrite <- (M1 eq_refl). clear - ND D2. unfold avgB2. change (o_s of X2 + ratio nDim X2 * (jj + q)) with (fine nDim of X2 (jj + q)). generalize (fine nDim of X2 (jj + q)). intros I.
    destruct (ratio_cases nDim ND) as [(N & _)|[(N & R1 & R2 & R3)|(N & R1 & R2 & R3)]]; [lia| |]; rewrite (cover2 nDim _ X1) by assumption; first [rewrite (cover2 nDim _ X3) by assumption|rewrite (cover1 nDim _ X3) by assumption];
    unfold fine; rewrite ?R1, ?R2, ?R3; subst nDim; unfold nb; cbn [many Nat.leb]; repeat rewrite Z.mul_1_l; repeat rewrite Z.add_0_r; unfold cells3, cells2; cbn [map flat_map app]; unfold at3, mean; cbn [fold_right length INR]; field.
  - clear - ND D2. unfold tr. destruct (many nDim X3) eqn:M3; unfold nb; rewrite M3; [unfold sg; cbn [Z.eqb]; field|]. rewrite Z.sub_0_r, Z.add_0_r, slope_flat. unfold sg. cbn [Z.eqb]. field.
Qed.
Lemma sumO3 : nDim = 3%nat -> forall q, bit q -> sum4 (fun m l => x3 (Ofc nDim oc of fo gp g0 kk jj ii) (2 * q) m l) = (4 * gB3 gp (o_s oc X3 + kk + q)%Z (o_s oc X2 + jj)%Z (o_s oc X1 + ii)%Z)%R.
Proof.
  intros D3 q Q. pose proof (pd_dim _ _ _ _ P) as ND. destruct cis as (C3 & C2 & C1). assert (M3 : many nDim X3 = true) by (cbn [many]; lia).
  assert (FQ : fine nDim of X3 kk + 2 * q = fine nDim of X3 (kk + q)) by (unfold fine; rewrite many_ratio by exact ND; rewrite M3; lia).
  assert (HQ : half1 (2 * q) = q) by (destruct Q as [-> | ->]; reflexivity). assert (NQ : nb nDim X3 q = q) by (unfold nb; rewrite M3; reflexivity).
  unfold sum4, Ofc, Oface. cbn [x3]. rewrite C3, C2, C1, FQ, HQ, NQ. destruct (MT (kk + q) jj ii) as (_ & _ & M1).
  destruct (fixedB of X3 (at_ (fine nDim of X3 (kk + q)) (fine nDim of X2 jj) (fine nDim of X1 ii))) eqn:FX.
  - rewrite <- (Z.add_assoc (o_s oc X3)). rewrite <- (M1 eq_refl). clear - ND D3. unfold avgB3. change (o_s of X3 + ratio nDim X3 * (kk + q)) with (fine nDim of X3 (kk + q)). generalize (fine nDim of X3 (kk + q)). intros I.
    destruct (ratio_cases nDim ND) as [(N & _)|[(N & _)|(N & R1 & R2 & R3)]]; [lia|lia|]; rewrite (cover2 nDim _ X1) by assumption; rewrite (cover2 nDim _ X2) by assumption;
    unfold fine; rewrite ?R1, ?R2, ?R3; subst nDim; repeat rewrite Z.add_0_r; unfold cells3, cells2; cbn [map flat_map app]; unfold at3, mean; cbn [fold_right length INR]; field.
  - unfold tr, sg. cbn [Z.eqb]. field.
Qed.
End Sums.
(** C43: the divergence of the prolonged field in each of the fine cells of a coarse cell is that of the
    coarse field in the coarse cell; in the cells of which all faces are stored. *)
Theorem C43_div : forall ng c root nDim pa ip ch ic oc of fo dx1 dx2 dx3 gp g0 g' mm kk jj ii k j i,
  setting ng c root nDim pa ip ch ic oc of -> prolong c fo nDim ng of dx1 dx2 dx3 g0 (pack_P c nDim ng oc gp) = Some (g', mm) ->
  beyond nDim ng of k j i -> part_of nDim of kk jj ii k j i ->
  c_mhd c = true -> (2 <= nDim)%nat -> usable fo nDim ng oc of gp g0 -> matched nDim oc of gp g0 -> dx1 <> 0%R -> dx2 <> 0%R -> dx3 <> 0%R ->
  (forall b, many nDim b = true -> at_ k j i b + 1 <= o_e of b + ng) ->
  divB nDim (1 / dx1) (1 / dx2) (1 / dx3) (fieldof g') k j i = divB nDim (1 / (2 * dx1)) (1 / (2 * dx2)) (1 / (2 * dx3)) (fieldof gp) (o_s oc X3 + kk) (o_s oc X2 + jj) (o_s oc X1 + ii).
Proof.
  intros ng c root nDim pa ip ch ic oc of fo dx1 dx2 dx3 gp g0 g' mm kk jj ii k j i ST RUN B PO MH D2 US MT Z1 Z2 Z3 IN.
  destruct (part_base _ _ _ _ _ _ _ _ _ _ ST _ _ _ _ _ _ PO B) as (B' & n & m & l & N & M & L & -> & -> & ->).
  pose proof (st_paired _ _ _ _ _ _ _ _ _ _ ST) as P. pose proof (st_evn _ _ _ _ _ _ _ _ _ _ ST) as E. pose proof (st_pos _ _ _ _ _ _ _ _ _ _ ST) as POS.
  pose proof (st_ghost _ _ _ _ _ _ _ _ _ _ ST _ _ _ B') as G. destruct (fine_flat c nDim ng oc of P E POS kk jj ii G) as (_ & F3).
  pose proof (pd_dim _ _ _ _ P) as ND. assert (M2 : many nDim X2 = true) by (cbn [many]; lia). assert (NB2 : forall x, nb nDim X2 x = x) by (intros x; unfold nb; rewrite M2; reflexivity).
  rewrite NB2 in *. pose proof (IN X1 eq_refl) as I1. pose proof (IN X2 M2) as I2. pose proof (IN X3) as I3. cbn [at_] in I1, I2, I3. clear IN B PO.
  assert (TW : forall d b q, bit d -> fine nDim of b q + d + 1 <= o_e of b + ng -> forall t, t = d \/ t = d + 1 -> t = 0 \/ t = 1 \/ (t = 2 /\ fine nDim of b q + 2 <= o_e of b + ng)) by (intros d b q Q H t T; unfold bit in Q; lia).
  pose proof (face1_val _ _ _ _ _ _ _ _ _ _ fo dx1 dx2 dx3 gp g0 g' mm ST RUN kk jj ii n m) as V1.
  pose proof (face2_val _ _ _ _ _ _ _ _ _ _ fo dx1 dx2 dx3 gp g0 g' mm ST RUN kk jj ii n) as V2.
  pose proof (face3_val _ _ _ _ _ _ _ _ _ _ fo dx1 dx2 dx3 gp g0 g' mm ST RUN kk jj ii) as V3.
  unfold divB, fieldof. cbn [f1 f2 f3]. rewrite <- !Z.add_assoc. rewrite (V1 l) by (auto; apply (TW l X1 ii); auto). rewrite (V1 (l + 1)) by (auto; apply (TW l X1 ii); auto).
  rewrite (V2 m l) by (auto; apply (TW m X2 jj); auto). rewrite (V2 (m + 1) l) by (auto; apply (TW m X2 jj); auto).
  rewrite !Z.add_assoc.
  set (O := Ofc nDim oc of fo gp g0 kk jj ii) in *.
  assert (S10 := sumO1 c nDim oc of fo gp g0 kk jj ii P D2 F3 MT 0 (or_introl eq_refl)). assert (S12 := sumO1 c nDim oc of fo gp g0 kk jj ii P D2 F3 MT 1 (or_intror eq_refl)).
  assert (S20 := sumO2 c nDim oc of fo gp g0 kk jj ii P D2 F3 MT 0 (or_introl eq_refl)). assert (S22 := sumO2 c nDim oc of fo gp g0 kk jj ii P D2 F3 MT 1 (or_intror eq_refl)).
  fold O in S10, S12, S20, S22. rewrite Z.add_0_r in S10, S20. cbn [Z.mul Pos.mul] in S10, S12, S20, S22.
  assert (D : nDim = 2%nat \/ nDim = 3%nat) by lia. destruct D as [D|D].
  - replace (nDim =? 3)%nat with false by (symmetry; apply Nat.eqb_neq; lia).
    assert (NB3 : nb nDim X3 n = 0) by (unfold nb; subst nDim; reflexivity). rewrite NB3.
    pose proof (interior_div O dx1 dx2 dx3 0 m l (or_introl eq_refl) M L Z1 Z2 Z3) as ID. unfold divblk in ID.
    change (0 + 1) with 1 in ID. rewrite (int_flat c nDim oc of fo gp g0 kk jj ii P D dx1 dx2 dx3 m l M L : x3 (interior O dx1 dx2 dx3) 1 m l = _) in ID.
    fold O in ID.
    pose proof (Ofc_flat c nDim oc of fo gp g0 kk jj ii P D) as FL. fold O in FL.
    assert (S3 : sum4 (fun m l => x3 O 2 m l) = sum4 (fun m l => x3 O 0 m l)). { unfold sum4. rewrite (proj2 (proj2 (FL 2 0 0 0))), (proj2 (proj2 (FL 2 0 0 1))), (proj2 (proj2 (FL 2 0 1 0))), (proj2 (proj2 (FL 2 0 1 1))). reflexivity. }
    rewrite S10, S12, S20, S22, S3 in ID. 
    match goal with |- ?L = _ => assert (Q : L = ((x1 (interior O dx1 dx2 dx3) 0%Z m (l + 1)%Z - x1 (interior O dx1 dx2 dx3) 0%Z m l) / dx1 + (x2 (interior O dx1 dx2 dx3) 0%Z (m + 1)%Z l - x2 (interior O dx1 dx2 dx3) 0%Z m l) / dx2 + (x3 (interior O dx1 dx2 dx3) 0%Z m l - x3 (interior O dx1 dx2 dx3) 0%Z m l) / dx3)%R) by (field; auto) end.
    rewrite Q, ID. field; auto.
  - replace (nDim =? 3)%nat with true by (symmetry; apply Nat.eqb_eq; exact D).
    assert (NB3 : forall x, nb nDim X3 x = x) by (intros x; unfold nb; subst nDim; reflexivity). rewrite NB3 in *.
    assert (M3 : many nDim X3 = true) by (subst nDim; reflexivity). specialize (I3 M3).
    pose proof (V3 n m l) as W1. pose proof (V3 (n + 1) m l) as W2. rewrite NB3 in W1, W2. rewrite Z.add_assoc in W2.
    rewrite W1 by (auto; apply (TW n X3 kk); auto). rewrite W2 by (auto; apply (TW n X3 kk); auto).
    assert (S30 := sumO3 c nDim oc of fo gp g0 kk jj ii P D2 F3 MT D 0 (or_introl eq_refl)). assert (S32 := sumO3 c nDim oc of fo gp g0 kk jj ii P D2 F3 MT D 1 (or_intror eq_refl)).
    fold O in S30, S32. rewrite Z.add_0_r in S30. cbn [Z.mul Pos.mul] in S30, S32.
    pose proof (interior_div O dx1 dx2 dx3 n m l N M L Z1 Z2 Z3) as ID. unfold divblk in ID. rewrite S10, S12, S20, S22, S30, S32 in ID.
    match goal with |- ?L = _ => assert (Q : L = ((x1 (interior O dx1 dx2 dx3) n m (l + 1)%Z - x1 (interior O dx1 dx2 dx3) n m l) / dx1 + (x2 (interior O dx1 dx2 dx3) n (m + 1)%Z l - x2 (interior O dx1 dx2 dx3) n m l) / dx2 + (x3 (interior O dx1 dx2 dx3) (n + 1)%Z m l - x3 (interior O dx1 dx2 dx3) n m l) / dx3)%R) by (field; auto) end.
    rewrite Q, ID. field; auto.
Qed.
Print Assumptions C43_div.

(** C43: the cell-centred field beyond the boundary is the mean of the face-centred one. *)
Theorem C43_centred : forall ng c root nDim pa ip ch ic oc of fo dx1 dx2 dx3 gp g0 g' mm k j i,
  setting ng c root nDim pa ip ch ic oc of -> prolong c fo nDim ng of dx1 dx2 dx3 g0 (pack_P c nDim ng oc gp) = Some (g', mm) ->
  beyond nDim ng of k j i -> c_mhd c = true -> (2 <= nDim)%nat -> usable fo nDim ng oc of gp g0 ->
  (i + 1 <= o_e of X1 + ng -> gU g' k j i VB1 = ((gB1 g' k j i + gB1 g' k j (i + 1)%Z) / 2)%R) /\
  (j + 1 <= o_e of X2 + ng -> gU g' k j i VB2 = ((gB2 g' k j i + gB2 g' k (j + 1)%Z i) / 2)%R) /\
  (nDim = 3%nat -> k + 1 <= o_e of X3 + ng -> gU g' k j i VB3 = ((gB3 g' k j i + gB3 g' (k + 1)%Z j i) / 2)%R) /\
  (nDim = 2%nat -> gU g' k j i VB3 = gB3 g' k j i).
Proof.
  intros ng c root nDim pa ip ch ic oc of fo dx1 dx2 dx3 gp g0 g' mm k j i ST RUN B MH D2 US.
  pose proof (st_paired _ _ _ _ _ _ _ _ _ _ ST) as P. pose proof (st_evn _ _ _ _ _ _ _ _ _ _ ST) as E. pose proof (st_pos _ _ _ _ _ _ _ _ _ _ ST) as POS.
  pose proof (pd_dim _ _ _ _ P) as ND. assert (M2 : many nDim X2 = true) by (cbn [many]; lia). assert (NB2 : forall x, nb nDim X2 x = x) by (intros x; unfold nb; rewrite M2; reflexivity).
  assert (PO : exists kk jj ii, part_of nDim of kk jj ii k j i).
  { exists (if many nDim X3 then (k - o_s of X3) / 2 else 0), ((j - o_s of X2) / 2), ((i - o_s of X1) / 2). unfold part_of. rewrite !(in_cover _ _ _ _ _ _ _ _ _ _ ST). pose proof (many_ratio nDim X1 ND) as Q1. pose proof (many_ratio nDim X2 ND) as Q2. pose proof (many_ratio nDim X3 ND) as Q3. rewrite M2 in Q2. cbn [many] in Q1. rewrite Q1, Q2, Q3.
    pose proof (Z.mod_pos_bound (i - o_s of X1) 2 ltac:(lia)). pose proof (Z.mod_pos_bound (j - o_s of X2) 2 ltac:(lia)). pose proof (Z.mod_pos_bound (k - o_s of X3) 2 ltac:(lia)).
    pose proof (Z.div_mod (i - o_s of X1) 2 ltac:(lia)). pose proof (Z.div_mod (j - o_s of X2) 2 ltac:(lia)). pose proof (Z.div_mod (k - o_s of X3) 2 ltac:(lia)).
    split; [|split; [exists ((j - o_s of X2) mod 2); unfold bit; rewrite NB2; lia|exists ((i - o_s of X1) mod 2); unfold bit, nb; cbn [many]; lia]].
    unfold nb. destruct (many nDim X3) eqn:M3; [exists ((k - o_s of X3) mod 2); unfold bit; lia|]. exists 0. unfold bit. split; [auto|].
    pose proof (ghost_flat c nDim ng oc of P E POS k j i X3 (st_ghost _ _ _ _ _ _ _ _ _ _ ST _ _ _ B) M3) as Q. cbn [at_] in Q. lia. }
  destruct PO as (kk & jj & ii & PO).
  pose proof (st_get _ _ _ _ _ _ _ _ _ _ fo dx1 dx2 dx3 gp g0 g' mm ST RUN (ex_intro _ k (ex_intro _ j (ex_intro _ i B)))) as (G1 & _ & _).
  assert (VB : forall b, gU g' k j i (VBof b) = target c fo nDim oc of dx1 dx2 dx3 gp g0 (EU (VBof b) k j i)).
  { intros b. apply G1; auto. apply memv_spec. apply mem_B. exact MH. }
  destruct (part_base _ _ _ _ _ _ _ _ _ _ ST _ _ _ _ _ _ PO B) as (B' & n & m & l & N & M & L & Ek & Ej & Ei).
  assert (ND1 : (nDim =? 1)%nat = false) by (apply Nat.eqb_neq; lia).
  assert (HV : forall b, gU g' k j i (VBof b) = half2 (interior (Ofc nDim oc of fo gp g0 kk jj ii) dx1 dx2 dx3) b (nb nDim X3 n) m l).
  { intros b. rewrite VB. subst k j i. destruct (target_blk c nDim oc of POS fo dx1 dx2 dx3 gp g0 _ _ _ n m l (fine_par c nDim oc of P kk jj ii) N M L) as (T & _). rewrite T, MH, ND1, NB2. destruct b; reflexivity. }
  pose proof (HV X1) as H1. pose proof (HV X2) as H2. pose proof (HV X3) as H3. cbn [VBof half2] in H1, H2, H3. clear HV VB G1 PO B.
  rewrite NB2 in Ej.
  assert (TW : forall d b q, bit d -> fine nDim of b q + d + 1 <= o_e of b + ng -> forall t, t = d \/ t = d + 1 -> t = 0 \/ t = 1 \/ (t = 2 /\ fine nDim of b q + 2 <= o_e of b + ng)) by (intros d b q Q H t T; unfold bit in Q; lia).
  pose proof (face1_val _ _ _ _ _ _ _ _ _ _ fo dx1 dx2 dx3 gp g0 g' mm ST RUN kk jj ii n m) as V1.
  pose proof (face2_val _ _ _ _ _ _ _ _ _ _ fo dx1 dx2 dx3 gp g0 g' mm ST RUN kk jj ii n) as V2.
  pose proof (face3_val _ _ _ _ _ _ _ _ _ _ fo dx1 dx2 dx3 gp g0 g' mm ST RUN kk jj ii) as V3.
  pose proof (face3_all _ _ _ _ _ _ _ _ _ _ fo dx1 dx2 dx3 gp g0 g' mm ST RUN kk jj ii) as V3'.
  rewrite H1, H2, H3. subst k j i. split; [|split; [|split]].
  - intros I1. rewrite <- Z.add_assoc. rewrite (V1 l) by (auto; apply (TW l X1 ii); auto). rewrite (V1 (l + 1)) by (auto; apply (TW l X1 ii); auto). field.
  - intros I2. rewrite <- (Z.add_assoc (fine nDim of X2 jj)). rewrite (V2 m l) by (auto; apply (TW m X2 jj); auto). rewrite (V2 (m + 1) l) by (auto; apply (TW m X2 jj); auto). field.
  - intros D I3. assert (NB3 : forall x, nb nDim X3 x = x) by (intros x; unfold nb; subst nDim; reflexivity). rewrite NB3 in *.
    pose proof (V3 n m l) as W1. pose proof (V3 (n + 1) m l) as W2. rewrite NB3 in W1, W2. rewrite Z.add_assoc in W2.
    rewrite W1 by (auto; apply (TW n X3 kk); auto). rewrite W2 by (auto; apply (TW n X3 kk); auto). field.
  - intros D. assert (NB3 : nb nDim X3 n = 0) by (unfold nb; subst nDim; reflexivity). rewrite NB3, Z.add_0_r. rewrite (V3' m l) by auto.
    change (0 + 1) with 1. rewrite (int_flat c nDim oc of fo gp g0 kk jj ii P D dx1 dx2 dx3 m l M L). field.
Qed.
Print Assumptions C43_centred.
