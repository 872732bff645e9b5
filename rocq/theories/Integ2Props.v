(** * Conservation, locality, div B and boundary independence of the 2D integrators *)
From Coq Require Import Reals ZArith List Bool Lia Lra.
From Verif Require Import GasModel IntegModel IntegSpec IntegFacts SchemeModel SchemeNearby Integ2Spec Integ2Local.
From Verif Require Ctu2Model Vl2Model.
Import Ctu2Model (grid2, scratch2, Grid2, Scratch2, is, ie, js, je, dt, dx1, dx2, MinX1, MinX2, X3, U, B1i, B2i, B3i, Phi,
  x1Mass, x2Mass, x1c, x2c).
Open Scope R_scope.

Definition flx1 (k : integrator) : scheme -> scratch2 -> grid2 -> Z -> Z -> cons1 :=
  match k with CTU => Ctu2Model.G1 | VL => Vl2Model.G1 end.
Definition flx2 (k : integrator) : scheme -> scratch2 -> grid2 -> Z -> Z -> cons1 :=
  match k with CTU => Ctu2Model.G2 | VL => Vl2Model.G2 end.
Definition emf3 (k : integrator) : scheme -> scratch2 -> grid2 -> Z -> Z -> R :=
  match k with CTU => Ctu2Model.emf | VL => Vl2Model.emf end.

Lemma geom2 : forall k sc z g, let g' := integrate_2d k sc z g in
  is g' = is g /\ ie g' = ie g /\ js g' = js g /\ je g' = je g /\ dt g' = dt g /\ dx1 g' = dx1 g /\ dx2 g' = dx2 g /\
  MinX1 g' = MinX1 g /\ MinX2 g' = MinX2 g /\ X3 g' = X3 g /\ Phi g' = Phi g.
Proof. intros k sc z g g'. unfold g'. destruct k; repeat split; reflexivity. Qed.

Section Local.
Variables (k : integrator) (sc : scheme) (z z' : scratch2) (g g' : grid2) (j i j' i' : Z).
Hypothesis Hlr : nearby (s_lr sc).
Hypothesis N : near2 sc g g' j i j' i' (-4) 3 (-4) 3.
Lemma flx1_local : box g j i 0 1 0 1 -> box g' j' i' 0 1 0 1 -> flx1 k sc z' g' j' i' = flx1 k sc z g j i.
Proof.
  intros. rewrite <- (Z.add_0_r i), <- (Z.add_0_r i'), <- (Z.add_0_r j), <- (Z.add_0_r j'). destruct k; cbn [flx1].
  - apply (c_G1 _ z z' _ _ _ _ _ _ _ _ _ _ Hlr N); bl.
  - apply (v_G1 _ z z' _ _ _ _ _ _ _ _ _ _ Hlr N); bl.
Qed.
Lemma flx2_local : box g j i 0 1 0 1 -> box g' j' i' 0 1 0 1 -> flx2 k sc z' g' j' i' = flx2 k sc z g j i.
Proof.
  intros. rewrite <- (Z.add_0_r i), <- (Z.add_0_r i'), <- (Z.add_0_r j), <- (Z.add_0_r j'). destruct k; cbn [flx2].
  - apply (c_G2 _ z z' _ _ _ _ _ _ _ _ _ _ Hlr N); bl.
  - apply (v_G2 _ z z' _ _ _ _ _ _ _ _ _ _ Hlr N); bl.
Qed.
Lemma emf3_local : s_mhd sc = true -> box g j i 0 1 0 1 -> box g' j' i' 0 1 0 1 -> emf3 k sc z' g' j' i' = emf3 k sc z g j i.
Proof.
  intros. rewrite <- (Z.add_0_r i), <- (Z.add_0_r i'), <- (Z.add_0_r j), <- (Z.add_0_r j'). destruct k; cbn [emf3].
  - apply (c_emf _ z z' _ _ _ _ _ _ _ _ _ _ Hlr N); auto; bl.
  - apply (v_emf _ z z' _ _ _ _ _ _ _ _ _ _ Hlr N); bl.
Qed.
End Local.

Lemma faces2 : forall k sc z g, s_mhd sc = true ->
  (forall j i, box g j i 0 0 0 1 ->
     B1i (integrate_2d k sc z g) j i = B1i g j i - dt g / dx2 g * (emf3 k sc z g (j + 1) i - emf3 k sc z g j i)) /\
  (forall j i, box g j i 0 1 0 0 ->
     B2i (integrate_2d k sc z g) j i = B2i g j i + dt g / dx1 g * (emf3 k sc z g j (i + 1) - emf3 k sc z g j i)).
Proof.
  intros k sc z g Hm; split; intros; destruct k; cbn [integrate_2d emf3];
    unfold Ctu2Model.integrate_2d_ctu, Vl2Model.integrate_2d_vl; cbn [B1i B2i];
    unfold Ctu2Model.B1i', Vl2Model.B1i', Ctu2Model.B2i', Vl2Model.B2i'; rewrite Hm, loop2_in by bl; reflexivity.
Qed.
Lemma faces2_hydro : forall k sc z g, s_mhd sc = false ->
  B1i (integrate_2d k sc z g) = B1i g /\ B2i (integrate_2d k sc z g) = B2i g.
Proof.
  intros k sc z g Hm; split; intros; destruct k; cbn [integrate_2d];
    unfold Ctu2Model.integrate_2d_ctu, Vl2Model.integrate_2d_vl; cbn [B1i B2i];
    unfold Ctu2Model.B1i', Vl2Model.B1i', Ctu2Model.B2i', Vl2Model.B2i'; rewrite Hm; reflexivity.
Qed.

(** ** C41.  A step leaves the divergence of the magnetic field of every active cell
    as it was, whatever the fluxes. *)
Theorem C41_divB_2d : forall k sc z g j i, (js g <= j <= je g)%Z -> (is g <= i <= ie g)%Z ->
  divB2 (integrate_2d k sc z g) j i = divB2 g j i.
Proof.
  intros k sc z g j i Hj Hi. unfold divB2. destruct (geom2 k sc z g) as (_ & _ & _ & _ & _ & E1 & E2 & _). rewrite E1, E2.
  destruct (s_mhd sc) eqn:Hm.
  - destruct (faces2 k sc z g Hm) as [F1 F2]. rewrite !F1, !F2 by bl. unfold Rdiv. ring.
  - destruct (faces2_hydro k sc z g Hm) as [F1 F2]. rewrite F1, F2. reflexivity.
Qed.
Print Assumptions C41_divB_2d.
(** The cell-centred field is the average of the face-centred field after every step. *)
Lemma v_keep : forall sc z g j i, (js g <= j <= je g)%Z -> (is g <= i <= ie g)%Z ->
  let u := Vl2Model.U12b sc z g j i in let v := Vl2Model.U11 sc z g j i in cB1 u = cB1 v /\ cB2 u = cB2 v /\ cs u = cs v.
Proof.
  intros sc z g j i Hj Hi u v. unfold u, v; clear u v.
  assert (E1 : let u := Vl2Model.U12a sc z g j i in let v := Vl2Model.U11 sc z g j i in cB1 u = cB1 v /\ cB2 u = cB2 v /\ cs u = cs v).
  { unfold Vl2Model.U12a. generalize (Vl2Model.G1 sc z g) (Vl2Model.G2 sc z g) (Vl2Model.Uh sc z g) (Vl2Model.U11 sc z g). intros.
    destruct (s_grav sc); cbv zeta; rewrite ?loop2_in by bl; repeat split; reflexivity. }
  assert (E2 : let u := Vl2Model.U12b1 sc z g j i in let v := Vl2Model.U12a sc z g j i in cB1 u = cB1 v /\ cB2 u = cB2 v /\ cs u = cs v).
  { unfold Vl2Model.U12b1. generalize (Vl2Model.G1 sc z g) (Vl2Model.U12a sc z g). intros.
    destruct (s_selfg sc) as [[? ?]|]; cbv zeta; rewrite ?loop2_in by bl; repeat split; reflexivity. }
  assert (E3 : let u := Vl2Model.U12b sc z g j i in let v := Vl2Model.U12b1 sc z g j i in cB1 u = cB1 v /\ cB2 u = cB2 v /\ cs u = cs v).
  { unfold Vl2Model.U12b. generalize (Vl2Model.G2 sc z g) (Vl2Model.U12b1 sc z g). intros.
    destruct (s_selfg sc) as [[? ?]|]; cbv zeta; rewrite ?loop2_in by bl; repeat split; reflexivity. }
  cbv zeta in E1, E2, E3. destruct E1 as (A1 & A2 & A3), E2 as (B1 & B2 & B3), E3 as (C1 & C2 & C3). repeat split; congruence.
Qed.
Theorem C41_centred_2d : forall k sc z g, s_mhd sc = true -> centred2 (integrate_2d k sc z g).
Proof.
  intros k sc z g Hm j i Hj Hi. destruct (geom2 k sc z g) as (E1 & E2 & E3 & E4 & _). rewrite E1, E2, E3, E4 in *.
  destruct k; cbn [integrate_2d]; unfold Ctu2Model.integrate_2d_ctu, Vl2Model.integrate_2d_vl; cbn [U B1i B2i].
  - unfold Ctu2Model.U12. generalize (Ctu2Model.U12b sc z g) (Ctu2Model.B1i' sc z g) (Ctu2Model.B2i' sc z g). intros.
    rewrite Hm, !loop2_in by bl. cbn. auto.
  - destruct (v_keep sc z g j i Hj Hi) as (A1 & A2 & _).
    unfold Vl2Model.U13, Vl2Model.U13a. rewrite Hm. revert A1 A2. generalize (Vl2Model.U12b sc z g). intros u A1 A2.
    rewrite !loop2_in by bl. cbn [upd1 upd2 cB1 cB2]. rewrite A1, A2. clear u A1 A2.
    unfold Vl2Model.U11. generalize (Vl2Model.B1i' sc z g) (Vl2Model.B2i' sc z g). intros.
    rewrite Hm, !loop2_in by bl. cbn. auto.
Qed.
Print Assumptions C41_centred_2d.

(** ** C61.  The value computed for a cell and its faces is a function of the cells
    within nghost of it. *)
Theorem C61_local_2d : forall k sc z z' g g' j i j' i', nearby (s_lr sc) ->
  (js g <= j <= je g)%Z -> (is g <= i <= ie g)%Z -> (js g' <= j' <= je g')%Z -> (is g' <= i' <= ie g')%Z ->
  near2 sc g g' j i j' i' (- nghost) nghost (- nghost) nghost ->
  let h := integrate_2d k sc z g in let h' := integrate_2d k sc z' g' in
  U h' j' i' = U h j i /\
  B1i h' j' i' = B1i h j i /\ B1i h' j' (i' + 1)%Z = B1i h j (i + 1)%Z /\
  B2i h' j' i' = B2i h j i /\ B2i h' (j' + 1)%Z i' = B2i h (j + 1)%Z i /\
  (s_mhd sc = true -> B3i h' j' i' = B3i h j i).
Proof.
  intros k sc z z' g g' j i j' i' Hlr Hj Hi Hj' Hi' N h h'. unfold nghost in N.
  assert (EU : U h' j' i' = U h j i).
  { unfold h, h'. rewrite <- (Z.add_0_r i), <- (Z.add_0_r i'), <- (Z.add_0_r j), <- (Z.add_0_r j').
    destruct k; cbn [integrate_2d Ctu2Model.integrate_2d_ctu Vl2Model.integrate_2d_vl U].
    - apply (c_U12 _ z z' _ _ _ _ _ _ _ _ _ _ Hlr N); bl.
    - apply (v_U13 _ z z' _ _ _ _ _ _ _ _ _ _ Hlr N); bl. }
  assert (EB1 : forall d, (0 <= d <= 1)%Z -> B1i h' (j' + 0)%Z (i' + d)%Z = B1i h (j + 0)%Z (i + d)%Z).
  { intros d Hd. unfold h, h'. destruct k; cbn [integrate_2d Ctu2Model.integrate_2d_ctu Vl2Model.integrate_2d_vl B1i].
    - apply (c_B1i' _ z z' _ _ _ _ _ _ _ _ _ _ Hlr N); bl.
    - apply (v_B1i' _ z z' _ _ _ _ _ _ _ _ _ _ Hlr N); bl. }
  assert (EB2 : forall d, (0 <= d <= 1)%Z -> B2i h' (j' + d)%Z (i' + 0)%Z = B2i h (j + d)%Z (i + 0)%Z).
  { intros d Hd. unfold h, h'. destruct k; cbn [integrate_2d Ctu2Model.integrate_2d_ctu Vl2Model.integrate_2d_vl B2i].
    - apply (c_B2i' _ z z' _ _ _ _ _ _ _ _ _ _ Hlr N); bl.
    - apply (v_B2i' _ z z' _ _ _ _ _ _ _ _ _ _ Hlr N); bl. }
  pose proof (EB1 0%Z ltac:(lia)) as X0. pose proof (EB1 1%Z ltac:(lia)) as X1.
  pose proof (EB2 0%Z ltac:(lia)) as Y0. pose proof (EB2 1%Z ltac:(lia)) as Y1. rewrite !Z.add_0_r in *.
  repeat split; auto.
  intro Hm. unfold h, h' in *.
  destruct k; cbn [integrate_2d] in *; unfold Ctu2Model.integrate_2d_ctu, Vl2Model.integrate_2d_vl in *;
    cbn [U B3i] in *; unfold Ctu2Model.B3i', Vl2Model.B3i'; rewrite Hm, !loop2_in by bl; now rewrite EU.
Qed.
Print Assumptions C61_local_2d.

(** ** C40.  Conservation *)
(** Components of the gravitational stress on the x1-face and on the x2-face of a cell. *)
Definition stress (sc : scheme) (f : R -> R -> R) : R := match s_selfg sc with None => 0 | Some (a, b) => f a b end.
Definition gx1 (g : grid2) (j i : Z) := (Phi g j (i - 1)%Z - Phi g j i) / dx1 g.
Definition gy1 (g : grid2) (j i : Z) :=
  / 4 * ((Phi g (j - 1)%Z (i - 1)%Z - Phi g (j + 1)%Z (i - 1)%Z) + (Phi g (j - 1)%Z i - Phi g (j + 1)%Z i)) / dx2 g.
Definition gx2 (g : grid2) (j i : Z) :=
  / 4 * ((Phi g (j - 1)%Z (i - 1)%Z - Phi g (j - 1)%Z (i + 1)%Z) + (Phi g j (i - 1)%Z - Phi g j (i + 1)%Z)) / dx1 g.
Definition gy2 (g : grid2) (j i : Z) := (Phi g (j - 1)%Z i - Phi g j i) / dx2 g.
(** The part of the flux due to self-gravity. *)
Definition sflx1 (sc : scheme) (g : grid2) (q : quantity) (j i : Z) : R :=
  match q with
  | Mom1 => stress sc (fun a b => half * (gx1 g j i * gx1 g j i - gy1 g j i * gy1 g j i) / a
                                  + b * (half * (Phi g j (i - 1)%Z + Phi g j i)))
  | Mom2 => stress sc (fun a _ => gx1 g j i * gy1 g j i / a)
  | _ => 0
  end.
Definition sflx2 (sc : scheme) (g : grid2) (q : quantity) (j i : Z) : R :=
  match q with
  | Mom1 => stress sc (fun a _ => gy2 g j i * gx2 g j i / a)
  | Mom2 => stress sc (fun a b => half * (gy2 g j i * gy2 g j i - gx2 g j i * gx2 g j i) / a
                                  + b * (half * (Phi g (j - 1)%Z i + Phi g j i)))
  | _ => 0
  end.
Definition gflx1 (sc : scheme) (q : quantity) (F : Z -> Z -> cons1) (e : Z -> Z -> R) (j i : Z) : R :=
  match q with
  | Mass => ud (F j i) | Mom1 => umx (F j i) | Mom2 => umy (F j i) | Mom3 => umz (F j i) | Energy => ue (F j i) | Fld1 => 0
  | Fld2 => if s_mhd sc then - (half * (e j i + e (j + 1)%Z i)) else 0
  | Fld3 => if s_mhd sc then ubz (F j i) else 0 | Scal n => nth n (us (F j i)) 0
  end.
Definition gflx2 (sc : scheme) (q : quantity) (F : Z -> Z -> cons1) (e : Z -> Z -> R) (j i : Z) : R :=
  match q with
  | Mass => ud (F j i) | Mom1 => umz (F j i) | Mom2 => umx (F j i) | Mom3 => umy (F j i) | Energy => ue (F j i)
  | Fld1 => if s_mhd sc then half * (e j i + e j (i + 1)%Z) else 0 | Fld2 => 0
  | Fld3 => if s_mhd sc then uby (F j i) else 0 | Scal n => nth n (us (F j i)) 0
  end.
Definition qflx1 (sc : scheme) (g : grid2) (q : quantity) (F : Z -> Z -> cons1) (e : Z -> Z -> R) (j i : Z) : R :=
  gflx1 sc q F e j i + sflx1 sc g q j i.
Definition qflx2 (sc : scheme) (g : grid2) (q : quantity) (F : Z -> Z -> cons1) (e : Z -> Z -> R) (j i : Z) : R :=
  gflx2 sc q F e j i + sflx2 sc g q j i.

(** The source-term stages. *)
Ltac fin i j := unfold Ctu2Model.q1, Ctu2Model.q2, gx1, gx2, gy1, gy2;
  replace (i + 1 - 1)%Z with i by lia; replace (j + 1 - 1)%Z with j by lia; unfold Rdiv; ring.
Section Stages.
Variables (sc : scheme) (z : scratch2) (g : grid2) (q : quantity) (j i : Z).
Hypothesis Hq : unsourced2 sc q.
Hypothesis Hj : (js g <= j <= je g)%Z.
Hypothesis Hi : (is g <= i <= ie g)%Z.
Lemma c_src : density q (Ctu2Model.U11c sc z g j i) =
  density q (U g j i) - dt g / dx1 g * (sflx1 sc g q j (i + 1) - sflx1 sc g q j i)
                      - dt g / dx2 g * (sflx2 sc g q (j + 1) i - sflx2 sc g q j i).
Proof.
  assert (Ea : density q (Ctu2Model.U11a sc z g j i) = density q (U g j i)).
  { unfold Ctu2Model.U11a. generalize (Ctu2Model.G1 sc z g) (Ctu2Model.G2 sc z g) (Ctu2Model.dhalf sc z g). intros.
    destruct (s_grav sc) eqn:Hg; [|reflexivity]. rewrite loop2_in by bl. unfold unsourced2 in Hq.
    destruct q; try (destruct Hq; congruence); try congruence; reflexivity. }
  assert (Eb : density q (Ctu2Model.U11b1 sc z g j i) =
    density q (Ctu2Model.U11a sc z g j i) - dt g / dx1 g * (sflx1 sc g q j (i + 1) - sflx1 sc g q j i)).
  { unfold Ctu2Model.U11b1. generalize (Ctu2Model.G1 sc z g) (Ctu2Model.U11a sc z g). intros. unfold sflx1, stress.
    destruct (s_selfg sc) as [[? ?]|] eqn:Hg; [rewrite loop2_in by bl|destruct q; unfold Rdiv; ring].
    destruct q; try (destruct Hq as (_ & _ & ?); congruence); cbn [density set_E set_M1 set_M2 cd cM1 cM2 cM3 cE cB1 cB2 cB3 cs]; cbv zeta;
      try (unfold Rdiv; ring); fin i j. }
  assert (Ec : density q (Ctu2Model.U11b sc z g j i) =
    density q (Ctu2Model.U11b1 sc z g j i) - dt g / dx2 g * (sflx2 sc g q (j + 1) i - sflx2 sc g q j i)).
  { unfold Ctu2Model.U11b. generalize (Ctu2Model.G2 sc z g) (Ctu2Model.U11b1 sc z g). intros. unfold sflx2, stress.
    destruct (s_selfg sc) as [[? ?]|] eqn:Hg; [rewrite loop2_in by bl|destruct q; unfold Rdiv; ring].
    destruct q; try (destruct Hq as (_ & _ & ?); congruence); cbn [density set_E set_M1 set_M2 cd cM1 cM2 cM3 cE cB1 cB2 cB3 cs]; cbv zeta;
      try (unfold Rdiv; ring); fin i j. }
  rewrite <- Ea, <- Eb, <- Ec. unfold Ctu2Model.U11c.
  generalize (Ctu2Model.U11b sc z g) (Ctu2Model.dhalf sc z g) (Ctu2Model.phalf sc z g). intros.
  destruct (s_cool sc) eqn:Hg; [rewrite loop2_in by bl|reflexivity].
  destruct q; try (destruct Hq as (_ & ? & _); congruence); reflexivity.
Qed.
Lemma v_src : density q (Vl2Model.U12b sc z g j i) =
  density q (Vl2Model.U11 sc z g j i) - dt g / dx1 g * (sflx1 sc g q j (i + 1) - sflx1 sc g q j i)
                      - dt g / dx2 g * (sflx2 sc g q (j + 1) i - sflx2 sc g q j i).
Proof.
  assert (Ea : density q (Vl2Model.U12a sc z g j i) = density q (Vl2Model.U11 sc z g j i)).
  { unfold Vl2Model.U12a. generalize (Vl2Model.G1 sc z g) (Vl2Model.G2 sc z g) (Vl2Model.Uh sc z g) (Vl2Model.U11 sc z g). intros.
    destruct (s_grav sc) eqn:Hg; [|reflexivity]. rewrite loop2_in by bl. unfold unsourced2 in Hq.
    destruct q; try (destruct Hq; congruence); try congruence; reflexivity. }
  assert (Eb : density q (Vl2Model.U12b1 sc z g j i) =
    density q (Vl2Model.U12a sc z g j i) - dt g / dx1 g * (sflx1 sc g q j (i + 1) - sflx1 sc g q j i)).
  { unfold Vl2Model.U12b1. generalize (Vl2Model.G1 sc z g) (Vl2Model.U12a sc z g). intros. unfold sflx1, stress.
    destruct (s_selfg sc) as [[? ?]|] eqn:Hg; [rewrite loop2_in by bl|destruct q; unfold Rdiv; ring].
    destruct q; try (destruct Hq as (_ & _ & ?); congruence); cbn [density set_E set_M1 set_M2 cd cM1 cM2 cM3 cE cB1 cB2 cB3 cs]; cbv zeta;
      try (unfold Rdiv; ring); fin i j. }
  assert (Ec : density q (Vl2Model.U12b sc z g j i) =
    density q (Vl2Model.U12b1 sc z g j i) - dt g / dx2 g * (sflx2 sc g q (j + 1) i - sflx2 sc g q j i)).
  { unfold Vl2Model.U12b. generalize (Vl2Model.G2 sc z g) (Vl2Model.U12b1 sc z g). intros. unfold sflx2, stress.
    destruct (s_selfg sc) as [[? ?]|] eqn:Hg; [rewrite loop2_in by bl|destruct q; unfold Rdiv; ring].
    destruct q; try (destruct Hq as (_ & _ & ?); congruence); cbn [density set_E set_M1 set_M2 cd cM1 cM2 cM3 cE cB1 cB2 cB3 cs]; cbv zeta;
      try (unfold Rdiv; ring); fin i j. }
  rewrite <- Ea, <- Eb, <- Ec. reflexivity.
Qed.
End Stages.

(** Scalars keep their number through the source terms. *)
Lemma c_len : forall sc z g j i, (js g <= j <= je g)%Z -> (is g <= i <= ie g)%Z ->
  length (cs (Ctu2Model.U11c sc z g j i)) = length (cs (U g j i)).
Proof.
  intros sc z g j i Hj Hi.
  assert (E1 : cs (Ctu2Model.U11a sc z g j i) = cs (U g j i)).
  { unfold Ctu2Model.U11a. generalize (Ctu2Model.G1 sc z g) (Ctu2Model.G2 sc z g) (Ctu2Model.dhalf sc z g). intros.
    destruct (s_grav sc); rewrite ?loop2_in by bl; reflexivity. }
  assert (E2 : cs (Ctu2Model.U11b1 sc z g j i) = cs (Ctu2Model.U11a sc z g j i)).
  { unfold Ctu2Model.U11b1. generalize (Ctu2Model.G1 sc z g) (Ctu2Model.U11a sc z g). intros.
    destruct (s_selfg sc) as [[? ?]|]; rewrite ?loop2_in by bl; reflexivity. }
  assert (E3 : cs (Ctu2Model.U11b sc z g j i) = cs (Ctu2Model.U11b1 sc z g j i)).
  { unfold Ctu2Model.U11b. generalize (Ctu2Model.G2 sc z g) (Ctu2Model.U11b1 sc z g). intros.
    destruct (s_selfg sc) as [[? ?]|]; rewrite ?loop2_in by bl; reflexivity. }
  rewrite <- E1, <- E2, <- E3. unfold Ctu2Model.U11c.
  generalize (Ctu2Model.U11b sc z g) (Ctu2Model.dhalf sc z g) (Ctu2Model.phalf sc z g). intros.
  destruct (s_cool sc); rewrite ?loop2_in by bl; reflexivity.
Qed.
Lemma v_len : forall sc z g j i, (js g <= j <= je g)%Z -> (is g <= i <= ie g)%Z ->
  length (cs (Vl2Model.U12b sc z g j i)) = length (cs (U g j i)).
Proof.
  intros sc z g j i Hj Hi. destruct (v_keep sc z g j i Hj Hi) as (_ & _ & E). rewrite E.
  unfold Vl2Model.U11. destruct (s_mhd sc); rewrite ?loop2_in by bl; reflexivity.
Qed.
Lemma scalars_step2 : forall k sc z g n, scalars2 g n -> scalars2 (integrate_2d k sc z g) n.
Proof.
  intros k sc z g n H j i Hj Hi. destruct (geom2 k sc z g) as (E1 & E2 & E3 & E4 & _). rewrite E1, E2, E3, E4 in *.
  rewrite <- (H j i Hj Hi). destruct k; cbn [integrate_2d].
  - unfold Ctu2Model.integrate_2d_ctu. cbn [U]. rewrite <- (c_len sc z g j i Hj Hi).
    unfold Ctu2Model.U12, Ctu2Model.U12b, Ctu2Model.U12a. generalize (Ctu2Model.U11c sc z g). intro.
    destruct (s_mhd sc); rewrite !loop2_in by bl; cbn [upd1 upd2 cs set_B1 set_B2]; rewrite !sub_s_length; reflexivity.
  - unfold Vl2Model.integrate_2d_vl. cbn [U]. rewrite <- (v_len sc z g j i Hj Hi).
    unfold Vl2Model.U13, Vl2Model.U13a. generalize (Vl2Model.U12b sc z g). intro.
    rewrite !loop2_in by bl; cbn [upd1 upd2 cs]; rewrite !sub_s_length; reflexivity.
Qed.

Lemma cell_form : forall k sc z g q ns j i, unsourced2 sc q -> scalars2 g ns -> (forall n, q = Scal n -> (n < ns)%nat) ->
  (s_mhd sc = true -> centred2 g) -> (js g <= j <= je g)%Z -> (is g <= i <= ie g)%Z ->
  let X := qflx1 sc g q (flx1 k sc z g) (emf3 k sc z g) in let Y := qflx2 sc g q (flx2 k sc z g) (emf3 k sc z g) in
  density q (U (integrate_2d k sc z g) j i) =
  density q (U g j i) - dt g / dx1 g * (X j (i + 1)%Z - X j i) - dt g / dx2 g * (Y (j + 1)%Z i - Y j i).
Proof.
  intros k sc z g q ns j i Hq Hs Hn Hc Hj Hi X Y. unfold X, Y; clear X Y.
  assert (Hn' : forall n, q = Scal n -> (n < length (cs (U g j i)))%nat) by (intros; rewrite Hs; auto).
  clear Hn Hs. unfold qflx1, qflx2.
  assert (HB : s_mhd sc = true /\ q = Fld1 \/ s_mhd sc = true /\ q = Fld2 \/ (s_mhd sc = true -> q <> Fld1 /\ q <> Fld2))
    by (destruct (s_mhd sc); [destruct q; auto; right; right; intro; split; discriminate | right; right; discriminate]).
  destruct HB as [[Hm ->]|[[Hm ->]|HB]].
  - destruct (faces2 k sc z g Hm) as [F1 F2].
    destruct (C41_centred_2d k sc z g Hm j i) as [D1 D2]; [destruct k; exact Hj|destruct k; exact Hi|].
    destruct (Hc Hm j i Hj Hi) as [C1 C2]. cbn [density gflx1 gflx2 sflx1 sflx2].
    rewrite Hm, D1, C1, !F1 by bl. unfold half, Rdiv. ring.
  - destruct (faces2 k sc z g Hm) as [F1 F2].
    destruct (C41_centred_2d k sc z g Hm j i) as [D1 D2]; [destruct k; exact Hj|destruct k; exact Hi|].
    destruct (Hc Hm j i Hj Hi) as [C1 C2]. cbn [density gflx1 gflx2 sflx1 sflx2].
    rewrite Hm, D2, C2, !F2 by bl. unfold half, Rdiv. ring.
  - clear Hc. destruct k; cbn [integrate_2d flx1 flx2].
    + unfold Ctu2Model.integrate_2d_ctu. cbn [U].
      transitivity (density q (Ctu2Model.U11c sc z g j i)
        - dt g / dx1 g * (gflx1 sc q (Ctu2Model.G1 sc z g) (emf3 CTU sc z g) j (i + 1) - gflx1 sc q (Ctu2Model.G1 sc z g) (emf3 CTU sc z g) j i)
        - dt g / dx2 g * (gflx2 sc q (Ctu2Model.G2 sc z g) (emf3 CTU sc z g) (j + 1) i - gflx2 sc q (Ctu2Model.G2 sc z g) (emf3 CTU sc z g) j i)).
      2:{ rewrite (c_src sc z g q j i Hq Hj Hi). ring. }
      rewrite <- (c_len sc z g j i Hj Hi) in Hn'.
      unfold Ctu2Model.U12, Ctu2Model.U12b, Ctu2Model.U12a.
      generalize dependent (Ctu2Model.U11c sc z g).
      generalize (Ctu2Model.G1 sc z g) (Ctu2Model.G2 sc z g) (emf3 CTU sc z g); intros G1 G2 e u Hn'.
      destruct (s_mhd sc) eqn:Hm; rewrite !loop2_in by bl;
      (destruct q; try (destruct (HB eq_refl); congruence); cbn [gflx1 gflx2 density upd1 upd2 set_B1 set_B2 cd cM1 cM2 cM3 cE cB1 cB2 cB3 cs];
         rewrite ?sub_s_nth by (rewrite ?sub_s_length; apply Hn'; reflexivity); rewrite ?Hm;
         unfold Ctu2Model.q1, Ctu2Model.q2, Rdiv; ring).
    + unfold Vl2Model.integrate_2d_vl. cbn [U].
      transitivity (density q (Vl2Model.U12b sc z g j i)
        - dt g / dx1 g * (gflx1 sc q (Vl2Model.G1 sc z g) (emf3 VL sc z g) j (i + 1) - gflx1 sc q (Vl2Model.G1 sc z g) (emf3 VL sc z g) j i)
        - dt g / dx2 g * (gflx2 sc q (Vl2Model.G2 sc z g) (emf3 VL sc z g) (j + 1) i - gflx2 sc q (Vl2Model.G2 sc z g) (emf3 VL sc z g) j i)).
      2:{ rewrite (v_src sc z g q j i Hq Hj Hi).
          assert (E : density q (Vl2Model.U11 sc z g j i) = density q (U g j i)).
          { unfold Vl2Model.U11. destruct (s_mhd sc); [|reflexivity]. rewrite loop2_in by bl.
            destruct q; try (destruct (HB eq_refl); congruence); reflexivity. }
          rewrite E. ring. }
      rewrite <- (v_len sc z g j i Hj Hi) in Hn'.
      unfold Vl2Model.U13, Vl2Model.U13a.
      generalize dependent (Vl2Model.U12b sc z g).
      generalize (Vl2Model.G1 sc z g) (Vl2Model.G2 sc z g) (emf3 VL sc z g); intros G1 G2 e u Hn'.
      rewrite !loop2_in by bl.
      destruct (s_mhd sc) eqn:Hm;
      (destruct q; try (destruct (HB eq_refl); congruence); cbn [gflx1 gflx2 density upd1 upd2 set_B1 set_B2 cd cM1 cM2 cM3 cE cB1 cB2 cB3 cs];
         rewrite ?sub_s_nth by (rewrite ?sub_s_length; apply Hn'; reflexivity); rewrite ?Hm;
         unfold Ctu2Model.q1, Ctu2Model.q2, Rdiv; ring).
Qed.
Lemma cell_form_energy : forall k sc z g phi j i,
  s_grav sc = Some phi -> s_cool sc = None -> s_selfg sc = None -> (js g <= j <= je g)%Z -> (is g <= i <= ie g)%Z ->
  let X := fun j i => ue (flx1 k sc z g j i) + ud (flx1 k sc z g j i) * phi (x1c g i - half * dx1 g) (x2c g j) (X3 g) in
  let Y := fun j i => ue (flx2 k sc z g j i) + ud (flx2 k sc z g j i) * phi (x1c g i) (x2c g j - half * dx2 g) (X3 g) in
  etot2 phi g (U (integrate_2d k sc z g) j i) j i =
  etot2 phi g (U g j i) j i - dt g / dx1 g * (X j (i + 1)%Z - X j i) - dt g / dx2 g * (Y (j + 1)%Z i - Y j i).
Proof.
  intros k sc z g phi j i Hg Hc Hsg Hj Hi X Y. unfold X, Y; clear X Y.
  assert (Hx : x1c g (i + 1) - half * dx1 g = x1c g i + half * dx1 g) by (rewrite x1c_off; unfold half; lra).
  assert (Hy : x2c g (j + 1) - half * dx2 g = x2c g j + half * dx2 g) by (rewrite x2c_off; unfold half; lra).
  rewrite Hx, Hy; clear Hx Hy. unfold etot2.
  destruct k; cbn [integrate_2d flx1 flx2].
  - unfold Ctu2Model.integrate_2d_ctu. cbn [U].
    assert (E : cE (Ctu2Model.U12 sc z g j i) = cE (Ctu2Model.U12b sc z g j i) /\ cd (Ctu2Model.U12 sc z g j i) = cd (Ctu2Model.U12b sc z g j i)).
    { unfold Ctu2Model.U12. generalize (Ctu2Model.U12b sc z g). intro. destruct (s_mhd sc); rewrite ?loop2_in by bl; split; reflexivity. }
    destruct E as [-> ->]. unfold Ctu2Model.U12b, Ctu2Model.U12a, Ctu2Model.U11c, Ctu2Model.U11b, Ctu2Model.U11b1, Ctu2Model.U11a.
    rewrite Hc, Hsg, Hg. generalize (Ctu2Model.G1 sc z g) (Ctu2Model.G2 sc z g) (Ctu2Model.dhalf sc z g). intros.
    rewrite !loop2_in by bl. cbv zeta. cbn [upd1 upd2 cd cE set_E set_M1 set_M2]. unfold Ctu2Model.q1, Ctu2Model.q2, Rdiv. ring.
  - unfold Vl2Model.integrate_2d_vl. cbn [U].
    assert (E : cE (Vl2Model.U11 sc z g j i) = cE (U g j i) /\ cd (Vl2Model.U11 sc z g j i) = cd (U g j i)).
    { unfold Vl2Model.U11. destruct (s_mhd sc); rewrite ?loop2_in by bl; split; reflexivity. }
    destruct E as [<- <-]. unfold Vl2Model.U13, Vl2Model.U13a, Vl2Model.U12b, Vl2Model.U12b1, Vl2Model.U12a.
    rewrite Hsg, Hg. generalize (Vl2Model.G1 sc z g) (Vl2Model.G2 sc z g) (Vl2Model.Uh sc z g) (Vl2Model.U11 sc z g). intros.
    rewrite !loop2_in by bl. cbv zeta. cbn [upd1 upd2 cd cE set_E set_M1 set_M2]. unfold Ctu2Model.q1, Ctu2Model.q2, Rdiv. ring.
Qed.

Lemma tele_total : forall (f : cons -> Z -> Z -> R) (X Y : Z -> Z -> R) g g' a b,
  is g' = is g -> ie g' = ie g -> js g' = js g -> je g' = je g -> (is g <= ie g + 1)%Z -> (js g <= je g + 1)%Z ->
  (forall j i, (js g <= j <= je g)%Z -> (is g <= i <= ie g)%Z ->
     f (U g' j i) j i = f (U g j i) j i - a * (X j (i + 1)%Z - X j i) - b * (Y (j + 1)%Z i - Y j i)) ->
  total2 f g' - total2 f g =
  - a * sumZ (js g) (je g) (fun j => X j (ie g + 1)%Z - X j (is g)) - b * sumZ (is g) (ie g) (fun i => Y (je g + 1)%Z i - Y (js g) i).
Proof.
  intros f X Y g g' a b E1 E2 E3 E4 Hi Hj H. unfold total2. rewrite E1, E2, E3, E4.
  rewrite (sumZ_ext (js g) (je g) (fun j => sumZ (is g) (ie g) (fun i => f (U g' j i) j i))
    (fun j => sumZ (is g) (ie g) (fun i => f (U g j i) j i) + (- a) * (X j (ie g + 1)%Z - X j (is g))
              + (- b) * sumZ (is g) (ie g) (fun i => Y (j + 1)%Z i - Y j i))).
  2:{ intros j Hj'. rewrite <- (sumZ_tele (is g) (ie g) (X j)) by lia.
      rewrite <- !sumZ_scal, <- !sumZ_plus. apply sumZ_ext. intros i Hi'. rewrite H by auto. ring. }
  rewrite !sumZ_plus, !sumZ_scal. rewrite (sumZ_swap (js g) (je g) (is g) (ie g) (fun j i => Y (j + 1)%Z i - Y j i)).
  rewrite (sumZ_ext (is g) (ie g) (fun i => sumZ (js g) (je g) (fun j => Y (j + 1)%Z i - Y j i)) (fun i => Y (je g + 1)%Z i - Y (js g) i)).
  2:{ intros i _. apply (sumZ_tele (js g) (je g) (fun j => Y j i)). lia. }
  ring.
Qed.

Lemma stress_local : forall sc g g' j i j' i' q, near2 sc g g' j i j' i' (-4) 3 (-4) 3 ->
  sflx1 sc g' q j' i' = sflx1 sc g q j i /\ sflx2 sc g' q j' i' = sflx2 sc g q j i.
Proof.
  intros sc g g' j i j' i' q N.
  rewrite <- (Z.add_0_r i), <- (Z.add_0_r i'), <- (Z.add_0_r j), <- (Z.add_0_r j').
  unfold sflx1, sflx2, stress, gx1, gx2, gy1, gy2. destruct (s_selfg sc) as [[? ?]|] eqn:Hsg; [|destruct q; auto]. offs.
  rewrite !(n2_Phi N ltac:(congruence)) by lia. rewrite (n2_dx1 N), (n2_dx2 N). auto.
Qed.
Lemma qflx_local : forall k sc z z' g g' j i j' i' q, nearby (s_lr sc) ->
  near2 sc g g' j i j' i' (-4) 3 (-4) 3 -> box g j i 0 1 0 1 -> box g' j' i' 0 1 0 1 ->
  ((q = Fld2 -> near2 sc g g' (j + 1) i (j' + 1) i' (-4) 3 (-4) 3 /\ box g j i 0 0 0 1 /\ box g' j' i' 0 0 0 1) ->
   qflx1 sc g' q (flx1 k sc z' g') (emf3 k sc z' g') j' i' = qflx1 sc g q (flx1 k sc z g) (emf3 k sc z g) j i) /\
  ((q = Fld1 -> near2 sc g g' j (i + 1) j' (i' + 1) (-4) 3 (-4) 3 /\ box g j i 0 1 0 0 /\ box g' j' i' 0 1 0 0) ->
   qflx2 sc g' q (flx2 k sc z' g') (emf3 k sc z' g') j' i' = qflx2 sc g q (flx2 k sc z g) (emf3 k sc z g) j i).
Proof.
  intros k sc z z' g g' j i j' i' q Hlr N H H'.
  destruct (stress_local sc g g' j i j' i' q N) as [S1 S2].
  pose proof (flx1_local k sc z z' g g' j i j' i' Hlr N H H') as E1.
  pose proof (flx2_local k sc z z' g g' j i j' i' Hlr N H H') as E2.
  unfold qflx1, qflx2. rewrite S1, S2. split; intro Hf; f_equal; unfold gflx1, gflx2; destruct q; rewrite ?E1, ?E2; auto;
    (destruct (s_mhd sc) eqn:Hm; [|reflexivity]); destruct (Hf eq_refl) as (N' & B & B');
    rewrite (emf3_local k sc z z' g g' j i j' i' Hlr N Hm H H');
    rewrite (emf3_local k sc z z' g g' _ _ _ _ Hlr N' Hm) by bl; reflexivity.
Qed.
Lemma eflx_local : forall k sc z z' g g' j i j' i' phi, nearby (s_lr sc) -> s_grav sc = Some phi ->
  near2 sc g g' j i j' i' (-4) 3 (-4) 3 -> box g j i 0 1 0 1 -> box g' j' i' 0 1 0 1 ->
  ue (flx1 k sc z' g' j' i') + ud (flx1 k sc z' g' j' i') * phi (x1c g' i' - half * dx1 g') (x2c g' j') (X3 g') =
  ue (flx1 k sc z g j i) + ud (flx1 k sc z g j i) * phi (x1c g i - half * dx1 g) (x2c g j) (X3 g) /\
  ue (flx2 k sc z' g' j' i') + ud (flx2 k sc z' g' j' i') * phi (x1c g' i') (x2c g' j' - half * dx2 g') (X3 g') =
  ue (flx2 k sc z g j i) + ud (flx2 k sc z g j i) * phi (x1c g i) (x2c g j - half * dx2 g) (X3 g).
Proof.
  intros k sc z z' g g' j i j' i' phi Hlr Hg N H H'.
  rewrite (flx1_local k sc z z' g g' j i j' i' Hlr N H H'), (flx2_local k sc z z' g g' j i j' i' Hlr N H H').
  pose proof (n2_pot N phi Hg (- (half * dx1 g)) 0) as P1. pose proof (n2_pot N phi Hg 0 (- (half * dx2 g))) as P2.
  rewrite !Rplus_0_r in P1, P2. unfold Rminus. rewrite (n2_dx1 N), (n2_dx2 N), P1, P2. auto.
Qed.

Lemma periodic_near1 : forall sc g j, periodic2 sc g -> (is g <= ie g)%Z -> (js g <= j <= je g + 1)%Z ->
  near2 sc g g j (is g) j (ie g + 1) (-4) 3 (-4) 3.
Proof.
  intros sc g j [Hp H] Hle Hj. unfold nghost in H.
  split; auto; try (intros dj di Hdj Hdi; replace (ie g + 1 + di)%Z with (is g + di + (ie g - is g + 1))%Z by lia;
    destruct (H (j + dj)%Z (is g + di)%Z ltac:(lia) ltac:(lia)) as [H1 _]; destruct (H1 ltac:(lia)) as (A1 & A2 & A3 & A4); auto).
  - intros phi Hg x y. rewrite <- (proj1 (Hp phi Hg (x1c g (is g) + x) (x2c g j + y))). f_equal.
    unfold x1c. rewrite Z.sub_diag. rewrite (minus_IZR (ie g + 1)), !plus_IZR, minus_IZR. ring.
  - apply A3; lia.
  - apply A4; lia.
  - intros Hsg dj di Hdj Hdi. replace (ie g + 1 + di)%Z with (is g + di + (ie g - is g + 1))%Z by lia.
    destruct (H (j + dj)%Z (is g + di)%Z ltac:(lia) ltac:(lia)) as [H1 _]. apply H1; auto; lia.
Qed.
Lemma periodic_near2 : forall sc g i, periodic2 sc g -> (js g <= je g)%Z -> (is g <= i <= ie g + 1)%Z ->
  near2 sc g g (js g) i (je g + 1) i (-4) 3 (-4) 3.
Proof.
  intros sc g i [Hp H] Hle Hi. unfold nghost in H.
  split; auto; try (intros dj di Hdj Hdi; replace (je g + 1 + dj)%Z with (js g + dj + (je g - js g + 1))%Z by lia;
    destruct (H (js g + dj)%Z (i + di)%Z ltac:(lia) ltac:(lia)) as [_ H1]; destruct (H1 ltac:(lia)) as (A1 & A2 & A3 & A4); auto).
  - intros phi Hg x y. rewrite <- (proj2 (Hp phi Hg (x1c g i + x) (x2c g (js g) + y))). f_equal.
    unfold x2c. rewrite Z.sub_diag. rewrite (minus_IZR (je g + 1)), !plus_IZR, minus_IZR. ring.
  - apply A3; lia.
  - apply A4; lia.
  - intros Hsg dj di Hdj Hdi. replace (je g + 1 + dj)%Z with (js g + dj + (je g - js g + 1))%Z by lia.
    destruct (H (js g + dj)%Z (i + di)%Z ltac:(lia) ltac:(lia)) as [_ H1]. apply H1; auto; lia.
Qed.

(** With periodic boundaries the amount of every quantity on which no source acts is
    unchanged by a step. *)
Theorem C40_periodic_2d : forall k sc z g q ns, nearby (s_lr sc) -> (is g <= ie g)%Z -> (js g <= je g)%Z ->
  unsourced2 sc q -> scalars2 g ns -> (forall n, q = Scal n -> (n < ns)%nat) -> (s_mhd sc = true -> centred2 g) ->
  periodic2 sc g ->
  total2 (fun u _ _ => density q u) (integrate_2d k sc z g) = total2 (fun u _ _ => density q u) g.
Proof.
  intros k sc z g q ns Hlr Hi Hj Hq Hs Hn Hc Hp.
  destruct (geom2 k sc z g) as (E1 & E2 & E3 & E4 & _).
  pose proof (tele_total (fun u _ _ => density q u) _ _ g (integrate_2d k sc z g) (dt g / dx1 g) (dt g / dx2 g) E1 E2 E3 E4 ltac:(lia) ltac:(lia)
    (fun j i Hj Hi => cell_form k sc z g q ns j i Hq Hs Hn Hc Hj Hi)) as T. cbv beta in T.
  rewrite (sumZ_ext (js g) (je g) _ (fun _ => 0)), (sumZ_ext (is g) (ie g) _ (fun _ => 0)), !sumZ_zero in T; [lra| |].
  - intros i Hi'. rewrite (proj2 (qflx_local k sc z z g g (js g) i (je g + 1) i q Hlr
      (periodic_near2 sc g i Hp Hj ltac:(lia)) ltac:(bl) ltac:(bl))); [ring|].
    intros _. split; [apply periodic_near2; auto; lia|bl].
  - intros j Hj'. rewrite (proj1 (qflx_local k sc z z g g j (is g) j (ie g + 1) q Hlr
      (periodic_near1 sc g j Hp Hi ltac:(lia)) ltac:(bl) ltac:(bl))); [ring|].
    intros _. split; [apply periodic_near1; auto; lia|bl].
Qed.
Print Assumptions C40_periodic_2d.

(** Whatever happens inside, the change of the total only depends on the data near
    the edge of the Grid: two runs that agree within nghost zones of the edge lose or
    gain the same amounts. *)
Definition same_edge (sc : scheme) (g g' : grid2) : Prop :=
  is g' = is g /\ ie g' = ie g /\ js g' = js g /\ je g' = je g /\
  forall j i, (js g <= j <= je g + 1)%Z -> (is g <= i <= ie g + 1)%Z ->
    (j = js g \/ j = je g + 1 \/ i = is g \/ i = ie g + 1)%Z ->
    near2 sc g g' j i j i (- nghost) (nghost - 1) (- nghost) (nghost - 1).
Lemma interior_sum : forall (X Y X' Y' : Z -> Z -> R) js je is ie a b,
  (forall j, (js <= j <= je)%Z -> X' j is = X j is /\ X' j (ie + 1)%Z = X j (ie + 1)%Z) ->
  (forall i, (is <= i <= ie)%Z -> Y' js i = Y js i /\ Y' (je + 1)%Z i = Y (je + 1)%Z i) ->
  - a * sumZ js je (fun j => X' j (ie + 1)%Z - X' j is) - b * sumZ is ie (fun i => Y' (je + 1)%Z i - Y' js i) =
  - a * sumZ js je (fun j => X j (ie + 1)%Z - X j is) - b * sumZ is ie (fun i => Y (je + 1)%Z i - Y js i).
Proof.
  intros. rewrite (sumZ_ext js je (fun j => X' j (ie + 1)%Z - X' j is) (fun j => X j (ie + 1)%Z - X j is)).
  2:{ intros j Hj. destruct (H j Hj) as [-> ->]. reflexivity. }
  rewrite (sumZ_ext is ie (fun i => Y' (je + 1)%Z i - Y' js i) (fun i => Y (je + 1)%Z i - Y js i)).
  2:{ intros i Hi. destruct (H0 i Hi) as [-> ->]. reflexivity. }
  reflexivity.
Qed.
Theorem C40_interior_2d : forall k sc z z' g g' q ns ns', nearby (s_lr sc) -> (is g <= ie g)%Z -> (js g <= je g)%Z ->
  unsourced2 sc q -> scalars2 g ns -> scalars2 g' ns' -> (forall n, q = Scal n -> (n < ns)%nat /\ (n < ns')%nat) ->
  (s_mhd sc = true -> centred2 g /\ centred2 g') -> same_edge sc g g' ->
  let f := fun (u : cons) (_ _ : Z) => density q u in
  total2 f (integrate_2d k sc z' g') - total2 f g' = total2 f (integrate_2d k sc z g) - total2 f g.
Proof.
  intros k sc z z' g g' q ns ns' Hlr Hi Hj Hq Hs Hs' Hn Hc (I1 & I2 & I3 & I4 & Hn2) f.
  unfold nghost in Hn2. change (4 - 1)%Z with 3%Z in Hn2. change (- (4))%Z with (-4)%Z in Hn2.
  destruct (geom2 k sc z g) as (E1 & E2 & E3 & E4 & _). destruct (geom2 k sc z' g') as (E1' & E2' & E3' & E4' & _).
  unfold f. rewrite (tele_total (fun u _ _ => density q u) _ _ g (integrate_2d k sc z g) (dt g / dx1 g) (dt g / dx2 g) E1 E2 E3 E4 ltac:(lia) ltac:(lia)
    (fun j i Hj Hi => cell_form k sc z g q ns j i Hq Hs (fun n E => proj1 (Hn n E)) (fun H => proj1 (Hc H)) Hj Hi)).
  rewrite (tele_total (fun u _ _ => density q u) _ _ g' (integrate_2d k sc z' g') (dt g' / dx1 g') (dt g' / dx2 g') E1' E2' E3' E4' ltac:(lia) ltac:(lia)
    (fun j i Hj Hi => cell_form k sc z' g' q ns' j i Hq Hs' (fun n E => proj2 (Hn n E)) (fun H => proj2 (Hc H)) Hj Hi)).
  cbv beta. rewrite I1, I2, I3, I4.
  pose proof (Hn2 (js g) (is g) ltac:(lia) ltac:(lia) ltac:(lia)) as N0.
  rewrite (n2_dt N0), (n2_dx1 N0), (n2_dx2 N0).
  apply interior_sum.
  - intros j Hj'. split; apply qflx_local; auto; try bl; try (apply Hn2; lia); (intros _; split; [apply Hn2; lia|bl]).
  - intros i Hi'. split; apply qflx_local; auto; try bl; try (apply Hn2; lia); (intros _; split; [apply Hn2; lia|bl]).
Qed.
Print Assumptions C40_interior_2d.

(** ** C62.  In a static potential the energy including potential energy is
    conserved: exactly with periodic data, and otherwise up to what crosses the edge. *)
Theorem C62_energy_periodic_2d : forall k sc z g phi, nearby (s_lr sc) -> (is g <= ie g)%Z -> (js g <= je g)%Z ->
  s_grav sc = Some phi -> s_cool sc = None -> s_selfg sc = None -> periodic2 sc g ->
  total2 (etot2 phi g) (integrate_2d k sc z g) = total2 (etot2 phi g) g.
Proof.
  intros k sc z g phi Hlr Hi Hj Hg Hc Hsg Hp.
  destruct (geom2 k sc z g) as (E1 & E2 & E3 & E4 & _).
  pose proof (tele_total (etot2 phi g) _ _ g (integrate_2d k sc z g) (dt g / dx1 g) (dt g / dx2 g) E1 E2 E3 E4 ltac:(lia) ltac:(lia)
    (fun j i Hj Hi => cell_form_energy k sc z g phi j i Hg Hc Hsg Hj Hi)) as T. cbv beta in T.
  rewrite (sumZ_ext (js g) (je g) _ (fun _ => 0)), (sumZ_ext (is g) (ie g) _ (fun _ => 0)), !sumZ_zero in T; [lra| |].
  - intros i Hi'. rewrite (proj2 (eflx_local k sc z z g g (js g) i (je g + 1) i phi Hlr Hg
      (periodic_near2 sc g i Hp Hj ltac:(lia)) ltac:(bl) ltac:(bl))). ring.
  - intros j Hj'. rewrite (proj1 (eflx_local k sc z z g g j (is g) j (ie g + 1) phi Hlr Hg
      (periodic_near1 sc g j Hp Hi ltac:(lia)) ltac:(bl) ltac:(bl))). ring.
Qed.
Print Assumptions C62_energy_periodic_2d.
Theorem C62_energy_interior_2d : forall k sc z z' g g' phi, nearby (s_lr sc) -> (is g <= ie g)%Z -> (js g <= je g)%Z ->
  s_grav sc = Some phi -> s_cool sc = None -> s_selfg sc = None -> same_edge sc g g' ->
  total2 (etot2 phi g') (integrate_2d k sc z' g') - total2 (etot2 phi g') g' =
  total2 (etot2 phi g) (integrate_2d k sc z g) - total2 (etot2 phi g) g.
Proof.
  intros k sc z z' g g' phi Hlr Hi Hj Hg Hc Hsg (I1 & I2 & I3 & I4 & Hn2).
  unfold nghost in Hn2. change (4 - 1)%Z with 3%Z in Hn2. change (- (4))%Z with (-4)%Z in Hn2.
  destruct (geom2 k sc z g) as (E1 & E2 & E3 & E4 & _). destruct (geom2 k sc z' g') as (E1' & E2' & E3' & E4' & _).
  rewrite (tele_total (etot2 phi g) _ _ g (integrate_2d k sc z g) (dt g / dx1 g) (dt g / dx2 g) E1 E2 E3 E4 ltac:(lia) ltac:(lia)
    (fun j i Hj Hi => cell_form_energy k sc z g phi j i Hg Hc Hsg Hj Hi)).
  rewrite (tele_total (etot2 phi g') _ _ g' (integrate_2d k sc z' g') (dt g' / dx1 g') (dt g' / dx2 g') E1' E2' E3' E4' ltac:(lia) ltac:(lia)
    (fun j i Hj Hi => cell_form_energy k sc z' g' phi j i Hg Hc Hsg Hj Hi)).
  cbv beta. rewrite I1, I2, I3, I4.
  pose proof (Hn2 (js g) (is g) ltac:(lia) ltac:(lia) ltac:(lia)) as N0.
  assert (D0 := n2_dt N0). assert (D1 := n2_dx1 N0). assert (D2 := n2_dx2 N0). rewrite D0. rewrite D1 at 1. rewrite D2 at 1.
  apply (interior_sum
    (fun j i => ue (flx1 k sc z g j i) + ud (flx1 k sc z g j i) * phi (x1c g i - half * dx1 g) (x2c g j) (X3 g))
    (fun j i => ue (flx2 k sc z g j i) + ud (flx2 k sc z g j i) * phi (x1c g i) (x2c g j - half * dx2 g) (X3 g))
    (fun j i => ue (flx1 k sc z' g' j i) + ud (flx1 k sc z' g' j i) * phi (x1c g' i - half * dx1 g') (x2c g' j) (X3 g'))
    (fun j i => ue (flx2 k sc z' g' j i) + ud (flx2 k sc z' g' j i) * phi (x1c g' i) (x2c g' j - half * dx2 g') (X3 g'))).
  - intros j Hj'. split; apply eflx_local; auto; try bl; apply Hn2; lia.
  - intros i Hi'. split; apply eflx_local; auto; try bl; apply Hn2; lia.
Qed.
Print Assumptions C62_energy_interior_2d.

(** ** C63.  A uniform state, moving and magnetised or not, stays exactly as it is. *)
Definition uniform2 (sc : scheme) (g : grid2) (u : cons) (b1 b2 : R) : Prop :=
  (s_mhd sc = true -> cB1 u = b1 /\ cB2 u = b2) /\
  forall j i, (js g - nghost <= j <= je g + nghost)%Z -> (is g - nghost <= i <= ie g + nghost)%Z ->
    U g j i = u /\ ((is g - nghost < i)%Z -> B1i g j i = b1) /\ ((js g - nghost < j)%Z -> B2i g j i = b2).
Theorem C63_uniform_2d : forall k sc z g u b1 b2, nearby (s_lr sc) ->
  s_grav sc = None -> s_cool sc = None -> s_selfg sc = None -> uniform2 sc g u b1 b2 ->
  let h := integrate_2d k sc z g in
  (forall j i, (js g <= j <= je g)%Z -> (is g <= i <= ie g)%Z -> U h j i = u) /\
  (forall j i, (js g <= j <= je g)%Z -> (is g <= i <= ie g + 1)%Z -> B1i h j i = b1) /\
  (forall j i, (js g <= j <= je g + 1)%Z -> (is g <= i <= ie g)%Z -> B2i h j i = b2).
Proof.
  intros k sc z g u b1 b2 Hlr Hg Hc Hsg [Hu0 Hu] h. unfold nghost in Hu.
  assert (HN : forall j i j' i', box g j i 0 1 0 1 -> box g j' i' 0 1 0 1 -> near2 sc g g j i j' i' (-4) 3 (-4) 3).
  { intros j i j' i' H H'. split; try reflexivity; try (intros; congruence); intros dj di Hdj Hdi;
      destruct (Hu (j + dj)%Z (i + di)%Z ltac:(bl) ltac:(bl)) as (A & B & C); destruct (Hu (j' + dj)%Z (i' + di)%Z ltac:(bl) ltac:(bl)) as (A' & B' & C').
    - congruence.
    - rewrite B, B' by bl. reflexivity.
    - rewrite C, C' by bl. reflexivity. }
  assert (He : forall j i j' i', s_mhd sc = true -> box g j i 0 1 0 1 -> box g j' i' 0 1 0 1 -> emf3 k sc z g j' i' = emf3 k sc z g j i)
    by (intros; apply emf3_local; auto).
  assert (HB : (forall j i, (js g <= j <= je g)%Z -> (is g <= i <= ie g + 1)%Z -> B1i h j i = b1) /\
               (forall j i, (js g <= j <= je g + 1)%Z -> (is g <= i <= ie g)%Z -> B2i h j i = b2)).
  { unfold h. destruct (s_mhd sc) eqn:Hm.
    - destruct (faces2 k sc z g Hm) as [F1 F2]. split; intros j i Hj Hi; destruct (Hu j i ltac:(lia) ltac:(lia)) as (_ & A & B).
      + rewrite F1 by bl. rewrite (He j i (j + 1)%Z i eq_refl) by bl. rewrite A by lia. ring.
      + rewrite F2 by bl. rewrite (He j i j (i + 1)%Z eq_refl) by bl. rewrite B by lia. ring.
    - destruct (faces2_hydro k sc z g Hm) as [F1 F2]. rewrite F1, F2. split; intros j i Hj Hi; destruct (Hu j i ltac:(lia) ltac:(lia)) as (_ & A & B); auto with zarith. }
  split; [|exact HB]. intros j i Hj Hi.
  assert (HU : U g j i = u) by (apply Hu; lia).
  assert (Hs : scalars2 g (length (cs u))) by (intros j' i' Hj' Hi'; destruct (Hu j' i' ltac:(lia) ltac:(lia)) as (A & _); now rewrite A).
  assert (Hcen : s_mhd sc = true -> centred2 g).
  { intros Hm j' i' Hj' Hi'. destruct (Hu0 Hm) as [P1 P2].
    destruct (Hu j' i' ltac:(lia) ltac:(lia)) as (A & B & C). destruct (Hu j' (i' + 1)%Z ltac:(lia) ltac:(lia)) as (_ & B' & _).
    destruct (Hu (j' + 1)%Z i' ltac:(lia) ltac:(lia)) as (_ & _ & C'). rewrite A, B, B', C, C', P1, P2 by lia. unfold half. split; lra. }
  apply cons_ext.
  - unfold h. destruct (geom2 k sc z g) as (E1 & E2 & E3 & E4 & _).
    apply (scalars_step2 k sc z g _ Hs); rewrite ?E1, ?E2, ?E3, ?E4; assumption.
  - intros q Hq. rewrite <- HU. unfold h. rewrite (cell_form k sc z g q (length (cs u)) j i); auto.
    2:{ destruct q; cbn; auto. }
    rewrite (proj1 (qflx_local k sc z z g g j i j (i + 1)%Z q Hlr (HN j i j (i + 1)%Z ltac:(bl) ltac:(bl)) ltac:(bl) ltac:(bl))).
    2:{ intros _. split; [apply HN; bl|bl]. }
    rewrite (proj2 (qflx_local k sc z z g g j i (j + 1)%Z i q Hlr (HN j i (j + 1)%Z i ltac:(bl) ltac:(bl)) ltac:(bl) ltac:(bl))).
    2:{ intros _. split; [apply HN; bl|bl]. }
    unfold Rdiv. ring.
Qed.
Print Assumptions C63_uniform_2d.

(** ** Whole runs, for every configuration of the code *)
Lemma run_geom : forall bc k sc g g', run2 bc k sc g g' ->
  is g' = is g /\ ie g' = ie g /\ js g' = js g /\ je g' = je g /\ dx1 g' = dx1 g /\ dx2 g' = dx2 g /\
  MinX1 g' = MinX1 g /\ MinX2 g' = MinX2 g /\ X3 g' = X3 g.
Proof.
  intros bc k sc g g' H. induction H as [|h z g' _ IH _ Sa]; [auto 20|].
  destruct (geom2 k sc z h) as (A1 & A2 & A3 & A4 & A5 & A6 & A7 & A8 & A9 & A10 & _).
  destruct Sa as (B1 & B2 & B3 & B4 & B5 & B6 & B7 & B8 & B9 & _).
  destruct IH as (C1 & C2 & C3 & C4 & C5 & C6 & C7 & C8 & C9). repeat split; congruence.
Qed.
Lemma same_active_total : forall f h g', same_active2 h g' -> total2 f g' = total2 f h.
Proof.
  intros f h g' (B1 & B2 & B3 & B4 & _ & _ & _ & _ & _ & HU & _). unfold total2. rewrite B1, B2, B3, B4.
  apply sumZ_ext. intros j Hj. apply sumZ_ext. intros i Hi. rewrite HU by lia. reflexivity.
Qed.
Lemma total2_ext : forall f f' g, (forall u j i, f u j i = f' u j i) -> total2 f g = total2 f' g.
Proof. intros. unfold total2. apply sumZ_ext. intros. apply sumZ_ext. auto. Qed.

(** In any number of steps of any size the total of every quantity on which no
    source acts stays the same, for every equation of state, order of
    reconstruction, Riemann solver and integrator that can be configured. *)
Theorem C40_run_2d : forall c k o f grav cool selfg dmin g g' q ns,
  let sc := athena c k o f grav cool selfg dmin in
  (is g <= ie g)%Z -> (js g <= je g)%Z -> unsourced2 sc q -> scalars2 g ns -> (forall n, q = Scal n -> (n < ns)%nat) ->
  (s_mhd sc = true -> centred2 g) -> run2 (periodic2 sc) k sc g g' ->
  total2 (fun u _ _ => density q u) g' = total2 (fun u _ _ => density q u) g.
Proof.
  intros c k o f grav cool selfg dmin g g' q ns sc Hi Hj Hq Hs Hn Hc H.
  assert (Hl : nearby (s_lr sc)) by apply lr_states_nearby. clearbody sc.
  enough (E : scalars2 g' ns /\ (s_mhd sc = true -> centred2 g') /\ total2 (fun u _ _ => density q u) g' = total2 (fun u _ _ => density q u) g) by apply E.
  induction H as [|h z g' Hr IH Hp Sa]; [auto|].
  destruct IH as (IH1 & IH2 & IH3). destruct (run_geom _ _ _ _ _ Hr) as (A1 & A2 & A3 & A4 & _).
  repeat split.
  - pose proof (scalars_step2 k sc z h ns IH1) as S1. destruct Sa as (B1 & B2 & B3 & B4 & _ & _ & _ & _ & _ & BU & _).
    intros j i Hj' Hi'. rewrite B1, B2, B3, B4 in *. rewrite BU by assumption. apply S1; assumption.
  - pose proof (C41_centred_2d k sc z h H) as S1. destruct Sa as (B1 & B2 & B3 & B4 & _ & _ & _ & _ & _ & BU & BB1 & BB2).
    rewrite B1, B2, B3, B4 in *. rewrite BU, !BB1 by lia. apply S1; assumption.
  - pose proof (C41_centred_2d k sc z h H) as S1. destruct Sa as (B1 & B2 & B3 & B4 & _ & _ & _ & _ & _ & BU & BB1 & BB2).
    rewrite B1, B2, B3, B4 in *. rewrite BU, !BB2 by lia. apply S1; assumption.
  - rewrite (same_active_total _ _ _ Sa), <- IH3. apply C40_periodic_2d with (ns := ns); auto; lia.
Qed.
Print Assumptions C40_run_2d.
Theorem C62_energy_run_2d : forall c k o f phi dmin g g',
  let sc := athena c k o f (Some phi) None None dmin in
  (is g <= ie g)%Z -> (js g <= je g)%Z -> run2 (periodic2 sc) k sc g g' -> total2 (etot2 phi g') g' = total2 (etot2 phi g) g.
Proof.
  intros c k o f phi dmin g g' sc Hi Hj H.
  assert (Hl : nearby (s_lr sc)) by apply lr_states_nearby.
  assert (Hg : s_grav sc = Some phi) by reflexivity. assert (Hc : s_cool sc = None) by reflexivity.
  assert (Hsg : s_selfg sc = None) by reflexivity. clearbody sc.
  induction H as [|h z g' Hr IH Hp Sa]; [reflexivity|].
  destruct (run_geom _ _ _ _ _ Hr) as (A1 & A2 & A3 & A4 & _). destruct (geom2 k sc z h) as (E1 & E2 & E3 & E4 & E5 & E6 & E7 & E8 & E9 & E10 & _).
  rewrite <- IH, <- (C62_energy_periodic_2d k sc z h phi Hl ltac:(lia) ltac:(lia) Hg Hc Hsg Hp), (same_active_total _ _ _ Sa).
  apply total2_ext. intros u j i. destruct Sa as (B1 & B2 & B3 & B4 & B5 & B6 & B7 & B8 & B9 & _).
  unfold etot2, x1c, x2c. rewrite B1, B3, B5, B6, B7, B8, B9, E1, E3, E6, E7, E8, E9, E10. reflexivity.
Qed.
Print Assumptions C62_energy_run_2d.
(** The divergence of the field of every cell is the initial one after any number of
    steps, whatever the boundary conditions do to the ghost zones and the steps
    compute: if it is zero at the start it is zero for ever. *)
Theorem C41_run_2d : forall bc k sc g g' j i, run2 bc k sc g g' -> (js g <= j <= je g)%Z -> (is g <= i <= ie g)%Z ->
  divB2 g' j i = divB2 g j i.
Proof.
  intros bc k sc g g' j i H Hj Hi. induction H as [|h z g' Hr IH _ Sa]; [reflexivity|].
  destruct (run_geom _ _ _ _ _ Hr) as (A1 & A2 & A3 & A4 & _). destruct (geom2 k sc z h) as (E1 & E2 & E3 & E4 & _).
  rewrite <- IH, <- (C41_divB_2d k sc z h) by lia.
  destruct Sa as (B1 & B2 & B3 & B4 & B5 & B6 & _ & _ & _ & _ & BB1 & BB2).
  unfold divB2. rewrite B5, B6, !BB1, !BB2 by lia. reflexivity.
Qed.
Print Assumptions C41_run_2d.

(** The active zones and faces after a step with periodic data can again be extended
    periodically (the two copies of a face on opposite sides agree), so runs of any
    length exist. *)
Definition wrap (l u i : Z) : Z := (l + (i - l) mod (u - l + 1))%Z.
Lemma wrap_id : forall l u i, (l <= i <= u)%Z -> wrap l u i = i.
Proof. intros. unfold wrap. rewrite Z.mod_small by lia. lia. Qed.
Lemma wrap_shift : forall l u i, (l <= u)%Z -> wrap l u (i + (u - l + 1)) = wrap l u i.
Proof. intros. unfold wrap. replace (i + (u - l + 1) - l)%Z with ((i - l) + 1 * (u - l + 1))%Z by ring. rewrite Z_mod_plus_full. reflexivity. Qed.
Lemma wrap_last : forall l u, (l <= u)%Z -> wrap l u (u + 1) = l.
Proof. intros. replace (u + 1)%Z with (l + (u - l + 1))%Z by lia. rewrite wrap_shift by lia. apply wrap_id; lia. Qed.
Theorem C40_refill_2d : forall k sc z h, nearby (s_lr sc) -> (is h <= ie h)%Z -> (js h <= je h)%Z -> periodic2 sc h ->
  exists g', same_active2 (integrate_2d k sc z h) g' /\ periodic2 sc g'.
Proof.
  intros k sc z h Hlr Hi Hj Hp. destruct (geom2 k sc z h) as (E1 & E2 & E3 & E4 & E5 & E6 & E7 & E8 & E9 & E10 & _).
  assert (P1 : forall j, (js h <= j <= je h)%Z -> B1i (integrate_2d k sc z h) j (ie h + 1)%Z = B1i (integrate_2d k sc z h) j (is h)).
  { intros j Hj'. pose proof (periodic_near1 sc h j Hp Hi ltac:(lia)) as N1. pose proof (periodic_near1 sc h (j + 1) Hp Hi ltac:(lia)) as N2.
    pose proof (n2_B1 N1 0%Z 0%Z ltac:(lia) ltac:(lia)) as EB. rewrite !Z.add_0_r in EB.
    destruct (s_mhd sc) eqn:Hm.
    - destruct (faces2 k sc z h Hm) as [F1 _]. rewrite !F1 by bl. rewrite EB.
      rewrite (emf3_local k sc z z h h _ _ _ _ Hlr N1 Hm), (emf3_local k sc z z h h _ _ _ _ Hlr N2 Hm) by bl. reflexivity.
    - destruct (faces2_hydro k sc z h Hm) as [F1 _]. rewrite F1. exact EB. }
  assert (P2 : forall i, (is h <= i <= ie h)%Z -> B2i (integrate_2d k sc z h) (je h + 1)%Z i = B2i (integrate_2d k sc z h) (js h) i).
  { intros i Hi'. pose proof (periodic_near2 sc h i Hp Hj ltac:(lia)) as N1. pose proof (periodic_near2 sc h (i + 1) Hp Hj ltac:(lia)) as N2.
    pose proof (n2_B2 N1 0%Z 0%Z ltac:(lia) ltac:(lia)) as EB. rewrite !Z.add_0_r in EB.
    destruct (s_mhd sc) eqn:Hm.
    - destruct (faces2 k sc z h Hm) as [_ F2]. rewrite !F2 by bl. rewrite EB.
      rewrite (emf3_local k sc z z h h _ _ _ _ Hlr N1 Hm), (emf3_local k sc z z h h _ _ _ _ Hlr N2 Hm) by bl. reflexivity.
    - destruct (faces2_hydro k sc z h Hm) as [_ F2]. rewrite F2. exact EB. }
  set (n := integrate_2d k sc z h) in *.
  exists (Grid2 (is h) (ie h) (js h) (je h) (dt h) (dx1 h) (dx2 h) (MinX1 h) (MinX2 h) (X3 h)
    (fun j i => U n (wrap (js h) (je h) j) (wrap (is h) (ie h) i)) (fun j i => B1i n (wrap (js h) (je h) j) (wrap (is h) (ie h) i))
    (fun j i => B2i n (wrap (js h) (je h) j) (wrap (is h) (ie h) i)) (B3i n)
    (fun j i => Phi n (wrap (js h) (je h) j) (wrap (is h) (ie h) i)) (x1Mass n) (x2Mass n)).
  split.
  - unfold same_active2. rewrite E1, E2, E3, E4, E6, E7, E8, E9, E10. cbn [is ie js je dx1 dx2 MinX1 MinX2 X3 U B1i B2i].
    repeat split; auto; intros j i Hj' Hi'.
    + rewrite !wrap_id by lia. reflexivity.
    + rewrite (wrap_id (js h)) by lia. destruct (Z.eq_dec i (ie h + 1)) as [->|]; [rewrite wrap_last by lia; symmetry; auto|rewrite wrap_id by lia; reflexivity].
    + rewrite (wrap_id (is h)) by lia. destruct (Z.eq_dec j (je h + 1)) as [->|]; [rewrite wrap_last by lia; symmetry; auto|rewrite wrap_id by lia; reflexivity].
  - destruct Hp as [Hp _]. split; cbn [is ie js je dx1 dx2 MinX1 MinX2 X3 U B1i B2i Phi]; [exact Hp|].
    intros j i _ _. rewrite !wrap_shift by lia. auto 10.
Qed.
Print Assumptions C40_refill_2d.

(** ** The hypotheses are met: a magnetised isothermal flow on 2 x 2 cells that
    differ, with one scalar, in a periodic potential. *)
Definition ex_cell2 (j i : Z) : cons :=
  let b := if Z.even j then 1 else 2 in
  if Z.even (i + j) then Cons 1 2 0 0 0 b (1 / 2) 0 (1 :: nil) else Cons 3 (-1) 1 0 0 b (1 / 2) 1 (2 :: nil).
Definition ex_grid2 : grid2 :=
  Grid2 4 5 4 5 (1 / 10) 1 1 0 0 0 ex_cell2 (fun j i => if Z.even j then 1 else 2) (fun j i => 1 / 2) (fun _ _ => 0)
    (fun _ _ => 0) (fun _ _ => 0) (fun _ _ => 0).
Definition ex_phi2 (x y _ : R) : R := sin (PI * x) + sin (PI * y).
Definition ex_scheme2 (k : integrator) : scheme := athena (GCfg true (Isothermal 1)) k O3 SHlle (Some ex_phi2) None None (/ 10).
Example ex_periodic2 : forall k, periodic2 (ex_scheme2 k) ex_grid2.
Proof.
  intro k. split.
  - intros phi E x y. injection E as <-. unfold ex_phi2. cbn [ie is je js ex_grid2 dx1 dx2].
    assert (P : forall x, sin (PI * (x + IZR (5 - 4 + 1) * 1)) = sin (PI * x)).
    { intro t. replace (PI * (t + IZR (5 - 4 + 1) * 1)) with (PI * t + 2 * PI) by (change (5 - 4 + 1)%Z with 2%Z; ring).
      rewrite sin_plus, sin_2PI, cos_2PI. ring. }
    rewrite !P. auto.
  - intros j i _ _. cbn [U B1i B2i Phi ex_grid2 ie is je js]. change (5 - 4 + 1)%Z with 2%Z. repeat split; auto;
    unfold ex_cell2; rewrite ?Z.even_add; destruct (Z.even i), (Z.even j); reflexivity.
Qed.
Example ex_scalars2 : scalars2 ex_grid2 1.
Proof. intros j i _ _. cbn [U ex_grid2]. unfold ex_cell2. destruct (Z.even (i + j)); reflexivity. Qed.
Example ex_centred2 : centred2 ex_grid2.
Proof. intros j i _ _. cbn [U B1i B2i ex_grid2]. unfold ex_cell2, half. destruct (Z.even j), (Z.even (i + j)); cbn; split; lra. Qed.
Example ex_runs2 : forall k, exists g' g'', run2 (periodic2 (ex_scheme2 k)) k (ex_scheme2 k) ex_grid2 g' /\
  run2 (periodic2 (ex_scheme2 k)) k (ex_scheme2 k) ex_grid2 g'' /\ periodic2 (ex_scheme2 k) g''.
Proof.
  intro k. assert (Hl : nearby (s_lr (ex_scheme2 k))) by apply lr_states_nearby.
  pose (z := Scratch2 (fun _ _ => (no_prim1, 0)) (fun _ _ => (no_prim1, 0)) (fun _ _ => (no_prim1, no_prim1)) (fun _ _ => (no_prim1, no_prim1))
    (fun _ _ => (no_cons1, no_cons1)) (fun _ _ => (no_cons1, no_cons1)) (fun _ _ => no_cons1) (fun _ _ => no_cons1) (fun _ _ => 0) (fun _ _ => 0)
    (fun _ _ => 0) (fun _ _ => 0) (fun _ _ => 0) (fun _ _ => 0) ex_cell2 (fun _ _ => (no_prim1, 0)) (fun _ _ => (no_prim1, 0))).
  destruct (C40_refill_2d k (ex_scheme2 k) z ex_grid2 Hl) as (g' & A & B); [cbn; lia|cbn; lia|apply ex_periodic2|].
  assert (R1 : run2 (periodic2 (ex_scheme2 k)) k (ex_scheme2 k) ex_grid2 g') by (eapply run2_step; [apply run2_start|apply ex_periodic2|exact A]).
  destruct (run_geom _ _ _ _ _ R1) as (G1 & G2 & G3 & G4 & _).
  destruct (C40_refill_2d k (ex_scheme2 k) z g' Hl) as (g'' & A' & B'); [rewrite G1, G2; cbn; lia|rewrite G3, G4; cbn; lia|exact B|].
  exists g', g''. split; [exact R1|]. split; [eapply run2_step; eauto|exact B'].
Qed.
(** The same cell in a larger Grid whose other cells hold something else. *)
Definition ex_big2 : grid2 :=
  Grid2 10 30 20 40 (1 / 10) 1 1 (-6) (-6) 0
    (fun j i => if (within 26 34 j && within 16 24 i)%bool then ex_cell2 (j - 26) (i - 16) else Cons 7 7 7 7 7 0 0 0 (7 :: nil))
    (fun j i => if within 17 24 i then if Z.even j then 1 else 2 else 9) (fun j i => if within 27 34 j then 1 / 2 else 9) (fun _ _ => 0)
    (fun _ _ => 0) (fun _ _ => 0) (fun _ _ => 0).
Example ex_near2 : forall k, near2 (ex_scheme2 k) ex_grid2 ex_big2 4 4 30 20 (- nghost) nghost (- nghost) nghost.
Proof.
  intro k. split; try reflexivity.
  - intros phi E x y. injection E as <-. unfold ex_phi2, x1c, x2c. cbn [MinX1 MinX2 dx1 dx2 is js ex_grid2 ex_big2].
    change (20 - 10)%Z with 10%Z. change (30 - 20)%Z with 10%Z. change (4 - 4)%Z with 0%Z.
    assert (P : forall t, sin (PI * (-6 + (10 + half) * 1 + t)) = sin (PI * (0 + (0 + half) * 1 + t))).
    { intro t. replace (PI * (-6 + (10 + half) * 1 + t)) with (PI * (0 + (0 + half) * 1 + t) + 2 * PI + 2 * PI) by ring.
      rewrite !sin_plus, !cos_plus, sin_2PI, cos_2PI. ring. }
    rewrite !P. reflexivity.
  - intros dj di Hj Hi. unfold nghost in *. cbn [U ex_grid2 ex_big2]. rewrite !within_in by lia. cbn [andb].
    replace (4 + dj)%Z with (30 + dj - 26)%Z by lia. replace (4 + di)%Z with (20 + di - 16)%Z by lia. reflexivity.
  - intros dj di Hj Hi. unfold nghost in *. cbn [B1i ex_grid2 ex_big2]. rewrite !within_in by lia.
    replace (30 + dj)%Z with (4 + dj + 2 * 13)%Z by lia. rewrite Z.even_add, Z.even_mul. destruct (Z.even (4 + dj)); reflexivity.
  - intros dj di Hj Hi. unfold nghost in *. cbn [B2i ex_grid2 ex_big2]. rewrite !within_in by lia. reflexivity.
Qed.
Example ex_uniform2 : forall k, uniform2 (athena (GCfg true (Isothermal 1)) k O3 SHlle None None None (/ 10))
  (Grid2 4 9 4 9 (1 / 10) 1 1 0 0 0 (fun _ _ => Cons 1 2 3 4 0 5 6 7 nil) (fun _ _ => 5) (fun _ _ => 6) (fun _ _ => 7) (fun _ _ => 0) (fun _ _ => 0) (fun _ _ => 0))
  (Cons 1 2 3 4 0 5 6 7 nil) 5 6.
Proof. intro k. split; [intros _; split; reflexivity|]. intros j i _ _. repeat split; reflexivity. Qed.
