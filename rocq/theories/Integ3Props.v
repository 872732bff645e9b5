(** * Conservation, locality, div B and uniform states of the 3D integrators *)
From Coq Require Import Reals ZArith List Bool Lia Lra.
From Verif Require Import GasModel IntegModel IntegSpec IntegFacts SchemeModel SchemeNearby Integ3Spec Integ3Local.
From Verif Require Ctu3Model Vl3Model.
Import Ctu3Model (grid3, scratch3, Grid3, Scratch3, is, ie, js, je, ks, ke, dt, dx1, dx2, dx3, MinX1, MinX2, MinX3, U, B1i, B2i, B3i, Phi,
  x1Mass, x2Mass, x3Mass, x1c, x2c, x3c, pot, diag, g11, g12, g13, g21, g22, g23, g31, g32, g33, work, centre).
Open Scope R_scope.

Definition flx1 (m : integrator) : scheme -> scratch3 -> grid3 -> Z -> Z -> Z -> cons1 := match m with CTU => Ctu3Model.G1 | VL => Vl3Model.G1 end.
Definition flx2 (m : integrator) : scheme -> scratch3 -> grid3 -> Z -> Z -> Z -> cons1 := match m with CTU => Ctu3Model.G2 | VL => Vl3Model.G2 end.
Definition flx3 (m : integrator) : scheme -> scratch3 -> grid3 -> Z -> Z -> Z -> cons1 := match m with CTU => Ctu3Model.G3 | VL => Vl3Model.G3 end.
Definition emf1 (m : integrator) : scheme -> scratch3 -> grid3 -> Z -> Z -> Z -> R := match m with CTU => Ctu3Model.emf1 | VL => Vl3Model.emf1 end.
Definition emf2 (m : integrator) : scheme -> scratch3 -> grid3 -> Z -> Z -> Z -> R := match m with CTU => Ctu3Model.emf2 | VL => Vl3Model.emf2 end.
Definition emf3 (m : integrator) : scheme -> scratch3 -> grid3 -> Z -> Z -> Z -> R := match m with CTU => Ctu3Model.emf3 | VL => Vl3Model.emf3 end.

Section Geometry.
Variables (m : integrator) (sc : scheme) (z : scratch3) (g : grid3).
Lemma i_is : is (integrate_3d m sc z g) = is g. Proof. destruct m; reflexivity. Qed.
Lemma i_ie : ie (integrate_3d m sc z g) = ie g. Proof. destruct m; reflexivity. Qed.
Lemma i_js : js (integrate_3d m sc z g) = js g. Proof. destruct m; reflexivity. Qed.
Lemma i_je : je (integrate_3d m sc z g) = je g. Proof. destruct m; reflexivity. Qed.
Lemma i_ks : ks (integrate_3d m sc z g) = ks g. Proof. destruct m; reflexivity. Qed.
Lemma i_ke : ke (integrate_3d m sc z g) = ke g. Proof. destruct m; reflexivity. Qed.
Lemma i_dt : dt (integrate_3d m sc z g) = dt g. Proof. destruct m; reflexivity. Qed.
Lemma i_dx1 : dx1 (integrate_3d m sc z g) = dx1 g. Proof. destruct m; reflexivity. Qed.
Lemma i_dx2 : dx2 (integrate_3d m sc z g) = dx2 g. Proof. destruct m; reflexivity. Qed.
Lemma i_dx3 : dx3 (integrate_3d m sc z g) = dx3 g. Proof. destruct m; reflexivity. Qed.
Lemma i_MinX1 : MinX1 (integrate_3d m sc z g) = MinX1 g. Proof. destruct m; reflexivity. Qed.
Lemma i_MinX2 : MinX2 (integrate_3d m sc z g) = MinX2 g. Proof. destruct m; reflexivity. Qed.
Lemma i_MinX3 : MinX3 (integrate_3d m sc z g) = MinX3 g. Proof. destruct m; reflexivity. Qed.
Lemma i_Phi : Phi (integrate_3d m sc z g) = Phi g. Proof. destruct m; reflexivity. Qed.
End Geometry.
Ltac geo := rewrite ?i_is, ?i_ie, ?i_js, ?i_je, ?i_ks, ?i_ke, ?i_dt, ?i_dx1, ?i_dx2, ?i_dx3, ?i_MinX1, ?i_MinX2, ?i_MinX3, ?i_Phi in *.
Ltac bla := unfold box, active3, nghost in *; lia.

Section Local.
Variables (m : integrator) (sc : scheme) (z z' : scratch3) (g g' : grid3) (k j i k' j' i' : Z).
Hypothesis Hlr : nearby (s_lr sc).
Hypothesis N : near3 sc g g' k j i k' j' i' (-4) 3.
Ltac zero := rewrite <- (Z.add_0_r i), <- (Z.add_0_r i'), <- (Z.add_0_r j), <- (Z.add_0_r j'), <- (Z.add_0_r k), <- (Z.add_0_r k').
Lemma flx1_local : box g k j i 0 0 0 0 0 1 -> box g' k' j' i' 0 0 0 0 0 1 -> flx1 m sc z' g' k' j' i' = flx1 m sc z g k j i.
Proof.
  intros. zero. destruct m; cbn [flx1].
  - apply (c_G1 _ z z' _ _ _ _ _ _ _ _ _ _ Hlr N); bl.
  - apply (v_G1 _ z z' _ _ _ _ _ _ _ _ _ _ Hlr N); bl.
Qed.
Lemma flx2_local : box g k j i 0 0 0 1 0 0 -> box g' k' j' i' 0 0 0 1 0 0 -> flx2 m sc z' g' k' j' i' = flx2 m sc z g k j i.
Proof.
  intros. zero. destruct m; cbn [flx2].
  - apply (c_G2 _ z z' _ _ _ _ _ _ _ _ _ _ Hlr N); bl.
  - apply (v_G2 _ z z' _ _ _ _ _ _ _ _ _ _ Hlr N); bl.
Qed.
Lemma flx3_local : box g k j i 0 1 0 0 0 0 -> box g' k' j' i' 0 1 0 0 0 0 -> flx3 m sc z' g' k' j' i' = flx3 m sc z g k j i.
Proof.
  intros. zero. destruct m; cbn [flx3].
  - apply (c_G3 _ z z' _ _ _ _ _ _ _ _ _ _ Hlr N); bl.
  - apply (v_G3 _ z z' _ _ _ _ _ _ _ _ _ _ Hlr N); bl.
Qed.
Lemma emf1_local : s_mhd sc = true -> box g k j i 0 1 0 1 0 0 -> box g' k' j' i' 0 1 0 1 0 0 -> emf1 m sc z' g' k' j' i' = emf1 m sc z g k j i.
Proof.
  intros. zero. destruct m; cbn [emf1].
  - apply (c_emf1 _ z z' _ _ _ _ _ _ _ _ _ _ Hlr N); auto; bl.
  - apply (v_emf1 _ z z' _ _ _ _ _ _ _ _ _ _ Hlr N); bl.
Qed.
Lemma emf2_local : s_mhd sc = true -> box g k j i 0 1 0 0 0 1 -> box g' k' j' i' 0 1 0 0 0 1 -> emf2 m sc z' g' k' j' i' = emf2 m sc z g k j i.
Proof.
  intros. zero. destruct m; cbn [emf2].
  - apply (c_emf2 _ z z' _ _ _ _ _ _ _ _ _ _ Hlr N); auto; bl.
  - apply (v_emf2 _ z z' _ _ _ _ _ _ _ _ _ _ Hlr N); bl.
Qed.
Lemma emf3_local : s_mhd sc = true -> box g k j i 0 0 0 1 0 1 -> box g' k' j' i' 0 0 0 1 0 1 -> emf3 m sc z' g' k' j' i' = emf3 m sc z g k j i.
Proof.
  intros. zero. destruct m; cbn [emf3].
  - apply (c_emf3 _ z z' _ _ _ _ _ _ _ _ _ _ Hlr N); auto; bl.
  - apply (v_emf3 _ z z' _ _ _ _ _ _ _ _ _ _ Hlr N); bl.
Qed.
End Local.

Section Faces.
Variables (m : integrator) (sc : scheme) (z : scratch3) (g : grid3).
Ltac face Hm := intros; destruct m; cbn [integrate_3d emf1 emf2 emf3]; unfold Ctu3Model.integrate_3d_ctu, Vl3Model.integrate_3d_vl; cbn [B1i B2i B3i];
  unfold Ctu3Model.B1i', Vl3Model.B1i', Ctu3Model.B2i', Vl3Model.B2i', Ctu3Model.B3i', Vl3Model.B3i'; rewrite Hm.
Hypothesis Hm : s_mhd sc = true.
Lemma face1 : forall k j i, box g k j i 0 0 0 0 0 1 -> B1i (integrate_3d m sc z g) k j i =
  B1i g k j i + (dt g / dx3 g * (emf2 m sc z g (k + 1) j i - emf2 m sc z g k j i) - dt g / dx2 g * (emf3 m sc z g k (j + 1) i - emf3 m sc z g k j i)).
Proof. face Hm; rewrite loop3_in by bl; reflexivity. Qed.
Lemma face2 : forall k j i, box g k j i 0 0 0 1 0 0 -> B2i (integrate_3d m sc z g) k j i =
  B2i g k j i + (dt g / dx1 g * (emf3 m sc z g k j (i + 1) - emf3 m sc z g k j i) - dt g / dx3 g * (emf1 m sc z g (k + 1) j i - emf1 m sc z g k j i)).
Proof. face Hm; rewrite loop3_in by bl; reflexivity. Qed.
Lemma face3 : forall k j i, box g k j i 0 1 0 0 0 0 -> B3i (integrate_3d m sc z g) k j i =
  B3i g k j i + (dt g / dx2 g * (emf1 m sc z g k (j + 1) i - emf1 m sc z g k j i) - dt g / dx1 g * (emf2 m sc z g k j (i + 1) - emf2 m sc z g k j i)).
Proof. face Hm; rewrite loop3_in by bl; reflexivity. Qed.
End Faces.
Lemma faces_hydro : forall m sc z g, s_mhd sc = false -> let h := integrate_3d m sc z g in B1i h = B1i g /\ B2i h = B2i g /\ B3i h = B3i g.
Proof.
  intros m sc z g Hm h. unfold h. destruct m; cbn [integrate_3d]; unfold Ctu3Model.integrate_3d_ctu, Vl3Model.integrate_3d_vl; cbn [B1i B2i B3i];
  unfold Ctu3Model.B1i', Vl3Model.B1i', Ctu3Model.B2i', Vl3Model.B2i', Ctu3Model.B3i', Vl3Model.B3i'; rewrite Hm; auto.
Qed.

(** ** C41.  A step leaves the divergence of the magnetic field of every active cell
    as it was, whatever the fluxes. *)
Theorem C41_divB_3d : forall m sc z g k j i, active3 g k j i -> divB3 (integrate_3d m sc z g) k j i = divB3 g k j i.
Proof.
  intros m sc z g k j i H. unfold divB3. geo. destruct (s_mhd sc) eqn:Hm.
  - rewrite !(face1 m sc z g Hm), !(face2 m sc z g Hm), !(face3 m sc z g Hm) by bla. unfold Rdiv. ring.
  - destruct (faces_hydro m sc z g Hm) as (-> & -> & ->). reflexivity.
Qed.
Print Assumptions C41_divB_3d.

(** The stages of step 12 of the van Leer integrator leave field and scalars alone. *)
Definition keeps (u v : cons) : Prop := cB1 u = cB1 v /\ cB2 u = cB2 v /\ cB3 u = cB3 v /\ cs u = cs v.
Lemma keeps_trans : forall u v w, keeps u v -> keeps v w -> keeps u w.
Proof. unfold keeps. intros u v w (A1 & A2 & A3 & A4) (B1 & B2 & B3 & B4). repeat split; congruence. Qed.
Lemma keeps_refl : forall u, keeps u u. Proof. unfold keeps. auto. Qed.
Lemma keeps_sg1 : forall g a b F V k j i, keeps (Ctu3Model.sg1 g a b F V k j i) (V k j i). Proof. repeat split; reflexivity. Qed.
Lemma keeps_sg2 : forall g a b F V k j i, keeps (Ctu3Model.sg2 g a b F V k j i) (V k j i). Proof. repeat split; reflexivity. Qed.
Lemma keeps_sg3 : forall g a b F V k j i, keeps (Ctu3Model.sg3 g a b F V k j i) (V k j i). Proof. repeat split; reflexivity. Qed.
Lemma keeps_loop : forall (c : option (R * R)) (f : R -> R -> Z -> Z -> Z -> cons) V kl ku jl ju il iu k j i,
  (kl <= k <= ku)%Z -> (jl <= j <= ju)%Z -> (il <= i <= iu)%Z -> (forall a b, keeps (f a b k j i) (V k j i)) ->
  keeps (match c with None => V | Some (a, b) => loop3 kl ku jl ju il iu (f a b) V end k j i) (V k j i).
Proof. intros [[a b]|] f V kl ku jl ju il iu k j i Hk Hj Hi H; [rewrite loop3_in by auto; apply H|apply keeps_refl]. Qed.
Lemma v_keep : forall sc z g k j i, active3 g k j i -> keeps (Vl3Model.U12b sc z g k j i) (Vl3Model.U11 sc z g k j i).
Proof.
  intros sc z g k j i (Hk & Hj & Hi).
  apply keeps_trans with (Vl3Model.U12b2 sc z g k j i).
  { unfold Vl3Model.U12b. apply (keeps_loop (s_selfg sc) (fun a b => Ctu3Model.sg3 g a b _ _)); auto. intros. apply keeps_sg3. }
  apply keeps_trans with (Vl3Model.U12b1 sc z g k j i).
  { unfold Vl3Model.U12b2. apply (keeps_loop (s_selfg sc) (fun a b => Ctu3Model.sg2 g a b _ _)); auto. intros. apply keeps_sg2. }
  apply keeps_trans with (Vl3Model.U12a sc z g k j i).
  { unfold Vl3Model.U12b1. apply (keeps_loop (s_selfg sc) (fun a b => Ctu3Model.sg1 g a b _ _)); auto. intros. apply keeps_sg1. }
  unfold Vl3Model.U12a.
  generalize (Vl3Model.G1 sc z g) (Vl3Model.G2 sc z g) (Vl3Model.G3 sc z g) (Vl3Model.Uh sc z g) (Vl3Model.U11 sc z g). intros.
  destruct (s_grav sc); [rewrite loop3_in by auto|apply keeps_refl]. repeat split; reflexivity.
Qed.
Theorem C41_centred_3d : forall m sc z g, s_mhd sc = true -> centred3 (integrate_3d m sc z g).
Proof.
  intros m sc z g Hm k j i H. unfold active3 in H. geo. fold (active3 g k j i) in H.
  destruct m; cbn [integrate_3d]; unfold Ctu3Model.integrate_3d_ctu, Vl3Model.integrate_3d_vl; cbn [U B1i B2i B3i].
  - unfold Ctu3Model.U12. generalize (Ctu3Model.U12c sc z g) (Ctu3Model.B1i' sc z g) (Ctu3Model.B2i' sc z g) (Ctu3Model.B3i' sc z g). intros.
    rewrite Hm, !loop3_in by bla. cbn. auto.
  - destruct (v_keep sc z g k j i H) as (A1 & A2 & A3 & _).
    unfold Vl3Model.U13, Vl3Model.U13b, Vl3Model.U13a. revert A1 A2 A3. generalize (Vl3Model.U12b sc z g). intros u A1 A2 A3.
    rewrite !loop3_in by bla. cbn [upd1 upd2 upd3 cB1 cB2 cB3]. rewrite A1, A2, A3. clear u A1 A2 A3.
    unfold Vl3Model.U11. generalize (Vl3Model.B1i' sc z g) (Vl3Model.B2i' sc z g) (Vl3Model.B3i' sc z g). intros.
    rewrite Hm, !loop3_in by bla. cbn. auto.
Qed.
Print Assumptions C41_centred_3d.

(** ** C61.  The value computed for a cell and its faces is a function of the cells
    within nghost of it. *)
Theorem C61_local_3d : forall m sc z z' g g' k j i k' j' i', nearby (s_lr sc) ->
  active3 g k j i -> active3 g' k' j' i' -> near3 sc g g' k j i k' j' i' (- nghost) nghost ->
  let h := integrate_3d m sc z g in let h' := integrate_3d m sc z' g' in
  U h' k' j' i' = U h k j i /\
  B1i h' k' j' i' = B1i h k j i /\ B1i h' k' j' (i' + 1)%Z = B1i h k j (i + 1)%Z /\
  B2i h' k' j' i' = B2i h k j i /\ B2i h' k' (j' + 1)%Z i' = B2i h k (j + 1)%Z i /\
  B3i h' k' j' i' = B3i h k j i /\ B3i h' (k' + 1)%Z j' i' = B3i h (k + 1)%Z j i.
Proof.
  intros m sc z z' g g' k j i k' j' i' Hlr H H' N h h'. unfold nghost in N.
  assert (EU : U h' (k' + 0)%Z (j' + 0)%Z (i' + 0)%Z = U h (k + 0)%Z (j + 0)%Z (i + 0)%Z).
  { unfold h, h'. destruct m; cbn [integrate_3d Ctu3Model.integrate_3d_ctu Vl3Model.integrate_3d_vl U].
    - apply (c_U12 _ z z' _ _ _ _ _ _ _ _ _ _ Hlr N); bla.
    - apply (v_U13 _ z z' _ _ _ _ _ _ _ _ _ _ Hlr N); bla. }
  assert (EB1 : forall d, (0 <= d <= 1)%Z -> B1i h' (k' + 0)%Z (j' + 0)%Z (i' + d)%Z = B1i h (k + 0)%Z (j + 0)%Z (i + d)%Z).
  { intros d Hd. unfold h, h'. destruct m; cbn [integrate_3d Ctu3Model.integrate_3d_ctu Vl3Model.integrate_3d_vl B1i].
    - apply (c_B1i' _ z z' _ _ _ _ _ _ _ _ _ _ Hlr N); bla.
    - apply (v_B1i' _ z z' _ _ _ _ _ _ _ _ _ _ Hlr N); bla. }
  assert (EB2 : forall d, (0 <= d <= 1)%Z -> B2i h' (k' + 0)%Z (j' + d)%Z (i' + 0)%Z = B2i h (k + 0)%Z (j + d)%Z (i + 0)%Z).
  { intros d Hd. unfold h, h'. destruct m; cbn [integrate_3d Ctu3Model.integrate_3d_ctu Vl3Model.integrate_3d_vl B2i].
    - apply (c_B2i' _ z z' _ _ _ _ _ _ _ _ _ _ Hlr N); bla.
    - apply (v_B2i' _ z z' _ _ _ _ _ _ _ _ _ _ Hlr N); bla. }
  assert (EB3 : forall d, (0 <= d <= 1)%Z -> B3i h' (k' + d)%Z (j' + 0)%Z (i' + 0)%Z = B3i h (k + d)%Z (j + 0)%Z (i + 0)%Z).
  { intros d Hd. unfold h, h'. destruct m; cbn [integrate_3d Ctu3Model.integrate_3d_ctu Vl3Model.integrate_3d_vl B3i].
    - apply (c_B3i' _ z z' _ _ _ _ _ _ _ _ _ _ Hlr N); bla.
    - apply (v_B3i' _ z z' _ _ _ _ _ _ _ _ _ _ Hlr N); bla. }
  pose proof (EB1 0%Z ltac:(lia)) as X0. pose proof (EB1 1%Z ltac:(lia)) as X1.
  pose proof (EB2 0%Z ltac:(lia)) as Y0. pose proof (EB2 1%Z ltac:(lia)) as Y1.
  pose proof (EB3 0%Z ltac:(lia)) as Z0. pose proof (EB3 1%Z ltac:(lia)) as Z1. rewrite !Z.add_0_r in *. auto 10.
Qed.
Print Assumptions C61_local_3d.

(** ** C40.  Conservation *)
Definition stress (sc : scheme) (f : R -> R -> R) : R := match s_selfg sc with None => 0 | Some (a, b) => f a b end.
(** The part of the flux due to self-gravity. *)
Definition sflx1 (sc : scheme) (g : grid3) (q : quantity) (k j i : Z) : R :=
  match q with
  | Mom1 => stress sc (fun a b => diag a b (g11 g k j i) (g12 g k j i) (g13 g k j i) (half * (Phi g k j (i - 1)%Z + Phi g k j i)))
  | Mom2 => stress sc (fun a _ => g11 g k j i * g12 g k j i / a)
  | Mom3 => stress sc (fun a _ => g11 g k j i * g13 g k j i / a)
  | _ => 0
  end.
Definition sflx2 (sc : scheme) (g : grid3) (q : quantity) (k j i : Z) : R :=
  match q with
  | Mom1 => stress sc (fun a _ => g22 g k j i * g21 g k j i / a)
  | Mom2 => stress sc (fun a b => diag a b (g22 g k j i) (g21 g k j i) (g23 g k j i) (half * (Phi g k (j - 1)%Z i + Phi g k j i)))
  | Mom3 => stress sc (fun a _ => g22 g k j i * g23 g k j i / a)
  | _ => 0
  end.
Definition sflx3 (sc : scheme) (g : grid3) (q : quantity) (k j i : Z) : R :=
  match q with
  | Mom1 => stress sc (fun a _ => g33 g k j i * g31 g k j i / a)
  | Mom2 => stress sc (fun a _ => g33 g k j i * g32 g k j i / a)
  | Mom3 => stress sc (fun a b => diag a b (g33 g k j i) (g31 g k j i) (g32 g k j i) (half * (Phi g (k - 1)%Z j i + Phi g k j i)))
  | _ => 0
  end.
(** The fluxes of the quantities through the faces, from those the solver returns and
    the electromotive forces along the edges. *)
Definition gflx1 (sc : scheme) (q : quantity) (F : Z -> Z -> Z -> cons1) (e1 e2 e3 : Z -> Z -> Z -> R) (k j i : Z) : R :=
  match q with
  | Mass => ud (F k j i) | Mom1 => umx (F k j i) | Mom2 => umy (F k j i) | Mom3 => umz (F k j i) | Energy => ue (F k j i) | Fld1 => 0
  | Fld2 => if s_mhd sc then - (half * (e3 k j i + e3 k (j + 1)%Z i)) else 0
  | Fld3 => if s_mhd sc then half * (e2 k j i + e2 (k + 1)%Z j i) else 0 | Scal n => nth n (us (F k j i)) 0
  end.
Definition gflx2 (sc : scheme) (q : quantity) (F : Z -> Z -> Z -> cons1) (e1 e2 e3 : Z -> Z -> Z -> R) (k j i : Z) : R :=
  match q with
  | Mass => ud (F k j i) | Mom1 => umz (F k j i) | Mom2 => umx (F k j i) | Mom3 => umy (F k j i) | Energy => ue (F k j i)
  | Fld1 => if s_mhd sc then half * (e3 k j i + e3 k j (i + 1)%Z) else 0 | Fld2 => 0
  | Fld3 => if s_mhd sc then - (half * (e1 k j i + e1 (k + 1)%Z j i)) else 0 | Scal n => nth n (us (F k j i)) 0
  end.
Definition gflx3 (sc : scheme) (q : quantity) (F : Z -> Z -> Z -> cons1) (e1 e2 e3 : Z -> Z -> Z -> R) (k j i : Z) : R :=
  match q with
  | Mass => ud (F k j i) | Mom1 => umy (F k j i) | Mom2 => umz (F k j i) | Mom3 => umx (F k j i) | Energy => ue (F k j i)
  | Fld1 => if s_mhd sc then - (half * (e2 k j i + e2 k j (i + 1)%Z)) else 0
  | Fld2 => if s_mhd sc then half * (e1 k j i + e1 k (j + 1)%Z i) else 0
  | Fld3 => 0 | Scal n => nth n (us (F k j i)) 0
  end.
Definition qflx1 (m : integrator) (sc : scheme) (z : scratch3) (g : grid3) (q : quantity) (k j i : Z) : R :=
  gflx1 sc q (flx1 m sc z g) (emf1 m sc z g) (emf2 m sc z g) (emf3 m sc z g) k j i + sflx1 sc g q k j i.
Definition qflx2 (m : integrator) (sc : scheme) (z : scratch3) (g : grid3) (q : quantity) (k j i : Z) : R :=
  gflx2 sc q (flx2 m sc z g) (emf1 m sc z g) (emf2 m sc z g) (emf3 m sc z g) k j i + sflx2 sc g q k j i.
Definition qflx3 (m : integrator) (sc : scheme) (z : scratch3) (g : grid3) (q : quantity) (k j i : Z) : R :=
  gflx3 sc q (flx3 m sc z g) (emf1 m sc z g) (emf2 m sc z g) (emf3 m sc z g) k j i + sflx3 sc g q k j i.

(** The source-term stages. *)
Ltac dens := cbn [density set_E set_M1 set_M2 set_M3 cd cM1 cM2 cM3 cE cB1 cB2 cB3 cs].
Lemma no_stress : forall sc g q, s_selfg sc = None -> forall k j i, sflx1 sc g q k j i = 0 /\ sflx2 sc g q k j i = 0 /\ sflx3 sc g q k j i = 0.
Proof. intros sc g q Hg k' j' i'. unfold sflx1, sflx2, sflx3, stress. rewrite Hg. destruct q; auto. Qed.
Section Stages.
Variables (sc : scheme) (g : grid3) (q : quantity) (k j i : Z).
Hypothesis Hq : unsourced3 sc q.
Hypothesis H : active3 g k j i.
Lemma sg1_dens : forall a b F V, s_selfg sc = Some (a, b) -> density q (Ctu3Model.sg1 g a b F V k j i) =
  density q (V k j i) - dt g / dx1 g * (sflx1 sc g q k j (i + 1) - sflx1 sc g q k j i).
Proof.
  intros a b F V Hg. unfold Ctu3Model.sg1, sflx1, stress. rewrite Hg. cbv zeta. unfold Ctu3Model.q1.
  destruct q; try (destruct Hq as (_ & _ & ?); congruence); dens; replace (i + 1 - 1)%Z with i by lia; unfold Rdiv; ring.
Qed.
Lemma sg2_dens : forall a b F V, s_selfg sc = Some (a, b) -> density q (Ctu3Model.sg2 g a b F V k j i) =
  density q (V k j i) - dt g / dx2 g * (sflx2 sc g q k (j + 1) i - sflx2 sc g q k j i).
Proof.
  intros a b F V Hg. unfold Ctu3Model.sg2, sflx2, stress. rewrite Hg. cbv zeta. unfold Ctu3Model.q2.
  destruct q; try (destruct Hq as (_ & _ & ?); congruence); dens; replace (j + 1 - 1)%Z with j by lia; unfold Rdiv; ring.
Qed.
Lemma sg3_dens : forall a b F V, s_selfg sc = Some (a, b) -> density q (Ctu3Model.sg3 g a b F V k j i) =
  density q (V k j i) - dt g / dx3 g * (sflx3 sc g q (k + 1) j i - sflx3 sc g q k j i).
Proof.
  intros a b F V Hg. unfold Ctu3Model.sg3, sflx3, stress. rewrite Hg. cbv zeta. unfold Ctu3Model.q3.
  destruct q; try (destruct Hq as (_ & _ & ?); congruence); dens; replace (k + 1 - 1)%Z with k by lia; unfold Rdiv; ring.
Qed.
Lemma c_src : forall z, density q (Ctu3Model.U11c sc z g k j i) =
  density q (U g k j i) - dt g / dx1 g * (sflx1 sc g q k j (i + 1) - sflx1 sc g q k j i)
    - dt g / dx2 g * (sflx2 sc g q k (j + 1) i - sflx2 sc g q k j i) - dt g / dx3 g * (sflx3 sc g q (k + 1) j i - sflx3 sc g q k j i).
Proof.
  intro z.
  assert (Ea : density q (Ctu3Model.U11a sc z g k j i) = density q (U g k j i)).
  { unfold Ctu3Model.U11a. destruct (s_grav sc) eqn:Hg; [|reflexivity]. rewrite loop3_in by bla.
    generalize (Ctu3Model.G1 sc z g) (Ctu3Model.G2 sc z g) (Ctu3Model.G3 sc z g) (Ctu3Model.dhalf sc z g). intros.
    unfold unsourced3 in Hq. destruct q; try (destruct Hq; congruence); try congruence; reflexivity. }
  assert (E1 : density q (Ctu3Model.U11b1 sc z g k j i) =
    density q (Ctu3Model.U11a sc z g k j i) - dt g / dx1 g * (sflx1 sc g q k j (i + 1) - sflx1 sc g q k j i)).
  { unfold Ctu3Model.U11b1. destruct (s_selfg sc) as [[? ?]|] eqn:Hg; [rewrite loop3_in by bla; apply sg1_dens, Hg|].
    destruct (no_stress sc g q Hg k j i) as (A1 & A2 & A3). rewrite ?A1, ?A2, ?A3. clear A1 A2 A3.
    { destruct (no_stress sc g q Hg k j (i + 1)%Z) as (-> & _ & _). ring. } }
  assert (E2 : density q (Ctu3Model.U11b2 sc z g k j i) =
    density q (Ctu3Model.U11b1 sc z g k j i) - dt g / dx2 g * (sflx2 sc g q k (j + 1) i - sflx2 sc g q k j i)).
  { unfold Ctu3Model.U11b2. destruct (s_selfg sc) as [[? ?]|] eqn:Hg; [rewrite loop3_in by bla; apply sg2_dens, Hg|].
    destruct (no_stress sc g q Hg k j i) as (A1 & A2 & A3). rewrite ?A1, ?A2, ?A3. clear A1 A2 A3.
    { destruct (no_stress sc g q Hg k (j + 1)%Z i) as (_ & -> & _). ring. } }
  assert (E3 : density q (Ctu3Model.U11b sc z g k j i) =
    density q (Ctu3Model.U11b2 sc z g k j i) - dt g / dx3 g * (sflx3 sc g q (k + 1) j i - sflx3 sc g q k j i)).
  { unfold Ctu3Model.U11b. destruct (s_selfg sc) as [[? ?]|] eqn:Hg; [rewrite loop3_in by bla; apply sg3_dens, Hg|].
    destruct (no_stress sc g q Hg k j i) as (A1 & A2 & A3). rewrite ?A1, ?A2, ?A3. clear A1 A2 A3.
    { destruct (no_stress sc g q Hg (k + 1)%Z j i) as (_ & _ & ->). ring. } }
  rewrite <- Ea, <- E1, <- E2, <- E3. unfold Ctu3Model.U11c.
  generalize (Ctu3Model.U11b sc z g) (Ctu3Model.dhalf sc z g) (Ctu3Model.phalf sc z g). intros.
  destruct (s_cool sc) eqn:Hg; [rewrite loop3_in by bla|reflexivity].
  destruct q; try (destruct Hq as (_ & ? & _); congruence); reflexivity.
Qed.
Lemma v_src : forall z, density q (Vl3Model.U12b sc z g k j i) =
  density q (Vl3Model.U11 sc z g k j i) - dt g / dx1 g * (sflx1 sc g q k j (i + 1) - sflx1 sc g q k j i)
    - dt g / dx2 g * (sflx2 sc g q k (j + 1) i - sflx2 sc g q k j i) - dt g / dx3 g * (sflx3 sc g q (k + 1) j i - sflx3 sc g q k j i).
Proof.
  intro z.
  assert (Ea : density q (Vl3Model.U12a sc z g k j i) = density q (Vl3Model.U11 sc z g k j i)).
  { unfold Vl3Model.U12a. destruct (s_grav sc) eqn:Hg; [|reflexivity]. rewrite loop3_in by bla.
    generalize (Vl3Model.G1 sc z g) (Vl3Model.G2 sc z g) (Vl3Model.G3 sc z g) (Vl3Model.Uh sc z g) (Vl3Model.U11 sc z g). intros.
    unfold unsourced3 in Hq. destruct q; try (destruct Hq; congruence); try congruence; reflexivity. }
  assert (E1 : density q (Vl3Model.U12b1 sc z g k j i) =
    density q (Vl3Model.U12a sc z g k j i) - dt g / dx1 g * (sflx1 sc g q k j (i + 1) - sflx1 sc g q k j i)).
  { unfold Vl3Model.U12b1. destruct (s_selfg sc) as [[? ?]|] eqn:Hg; [rewrite loop3_in by bla; apply sg1_dens, Hg|].
    destruct (no_stress sc g q Hg k j i) as (A1 & A2 & A3). rewrite ?A1, ?A2, ?A3. clear A1 A2 A3.
    { destruct (no_stress sc g q Hg k j (i + 1)%Z) as (-> & _ & _). ring. } }
  assert (E2 : density q (Vl3Model.U12b2 sc z g k j i) =
    density q (Vl3Model.U12b1 sc z g k j i) - dt g / dx2 g * (sflx2 sc g q k (j + 1) i - sflx2 sc g q k j i)).
  { unfold Vl3Model.U12b2. destruct (s_selfg sc) as [[? ?]|] eqn:Hg; [rewrite loop3_in by bla; apply sg2_dens, Hg|].
    destruct (no_stress sc g q Hg k j i) as (A1 & A2 & A3). rewrite ?A1, ?A2, ?A3. clear A1 A2 A3.
    { destruct (no_stress sc g q Hg k (j + 1)%Z i) as (_ & -> & _). ring. } }
  assert (E3 : density q (Vl3Model.U12b sc z g k j i) =
    density q (Vl3Model.U12b2 sc z g k j i) - dt g / dx3 g * (sflx3 sc g q (k + 1) j i - sflx3 sc g q k j i)).
  { unfold Vl3Model.U12b. destruct (s_selfg sc) as [[? ?]|] eqn:Hg; [rewrite loop3_in by bla; apply sg3_dens, Hg|].
    destruct (no_stress sc g q Hg k j i) as (A1 & A2 & A3). rewrite ?A1, ?A2, ?A3. clear A1 A2 A3.
    { destruct (no_stress sc g q Hg (k + 1)%Z j i) as (_ & _ & ->). ring. } }
  rewrite <- Ea, <- E1, <- E2, <- E3. reflexivity.
Qed.
End Stages.

(** Scalars keep their number. *)
Lemma c_keep : forall sc z g k j i, active3 g k j i -> keeps (Ctu3Model.U11c sc z g k j i) (U g k j i).
Proof.
  intros sc z g k j i (Hk & Hj & Hi).
  apply keeps_trans with (Ctu3Model.U11b sc z g k j i).
  { unfold Ctu3Model.U11c. generalize (Ctu3Model.U11b sc z g) (Ctu3Model.dhalf sc z g) (Ctu3Model.phalf sc z g). intros.
    destruct (s_cool sc); [rewrite loop3_in by auto|apply keeps_refl]. repeat split; reflexivity. }
  apply keeps_trans with (Ctu3Model.U11b2 sc z g k j i).
  { unfold Ctu3Model.U11b. apply (keeps_loop (s_selfg sc) (fun a b => Ctu3Model.sg3 g a b _ _)); auto. intros. apply keeps_sg3. }
  apply keeps_trans with (Ctu3Model.U11b1 sc z g k j i).
  { unfold Ctu3Model.U11b2. apply (keeps_loop (s_selfg sc) (fun a b => Ctu3Model.sg2 g a b _ _)); auto. intros. apply keeps_sg2. }
  apply keeps_trans with (Ctu3Model.U11a sc z g k j i).
  { unfold Ctu3Model.U11b1. apply (keeps_loop (s_selfg sc) (fun a b => Ctu3Model.sg1 g a b _ _)); auto. intros. apply keeps_sg1. }
  unfold Ctu3Model.U11a. generalize (Ctu3Model.G1 sc z g) (Ctu3Model.G2 sc z g) (Ctu3Model.G3 sc z g) (Ctu3Model.dhalf sc z g). intros.
  destruct (s_grav sc); [rewrite loop3_in by auto|apply keeps_refl]. repeat split; reflexivity.
Qed.
Lemma c_len : forall sc z g k j i, active3 g k j i -> length (cs (Ctu3Model.U11c sc z g k j i)) = length (cs (U g k j i)).
Proof. intros sc z g k j i H. now destruct (c_keep sc z g k j i H) as (_ & _ & _ & ->). Qed.
Lemma v_len : forall sc z g k j i, active3 g k j i -> length (cs (Vl3Model.U12b sc z g k j i)) = length (cs (U g k j i)).
Proof.
  intros sc z g k j i H. destruct (v_keep sc z g k j i H) as (_ & _ & _ & ->).
  unfold Vl3Model.U11. destruct (s_mhd sc); rewrite ?loop3_in by bla; reflexivity.
Qed.
Lemma scalars_step3 : forall m sc z g n, scalars3 g n -> scalars3 (integrate_3d m sc z g) n.
Proof.
  intros m sc z g n Hs k j i H. unfold active3 in H. geo. fold (active3 g k j i) in H. rewrite <- (Hs k j i H).
  destruct m; cbn [integrate_3d].
  - unfold Ctu3Model.integrate_3d_ctu. cbn [U]. rewrite <- (c_len sc z g k j i H).
    unfold Ctu3Model.U12, Ctu3Model.U12c, Ctu3Model.U12b, Ctu3Model.U12a. generalize (Ctu3Model.U11c sc z g). intro.
    destruct (s_mhd sc); rewrite !loop3_in by bla; unfold centre; cbn [upd1 upd2 upd3 cs set_B1 set_B2 set_B3]; rewrite !sub_s_length; reflexivity.
  - unfold Vl3Model.integrate_3d_vl. cbn [U]. rewrite <- (v_len sc z g k j i H).
    unfold Vl3Model.U13, Vl3Model.U13b, Vl3Model.U13a. generalize (Vl3Model.U12b sc z g). intro.
    rewrite !loop3_in by bla; cbn [upd1 upd2 upd3 cs]; rewrite !sub_s_length; reflexivity.
Qed.

(** The change of a cell is what its faces give and take. *)
Lemma cell_form : forall m sc z g q ns k j i, unsourced3 sc q -> scalars3 g ns -> (forall n, q = Scal n -> (n < ns)%nat) ->
  (s_mhd sc = true -> centred3 g) -> active3 g k j i ->
  density q (U (integrate_3d m sc z g) k j i) =
  density q (U g k j i) - dt g / dx1 g * (qflx1 m sc z g q k j (i + 1) - qflx1 m sc z g q k j i)
    - dt g / dx2 g * (qflx2 m sc z g q k (j + 1) i - qflx2 m sc z g q k j i)
    - dt g / dx3 g * (qflx3 m sc z g q (k + 1) j i - qflx3 m sc z g q k j i).
Proof.
  intros m sc z g q ns k j i Hq Hs Hn Hc H.
  assert (Hn' : forall n, q = Scal n -> (n < length (cs (U g k j i)))%nat) by (intros; rewrite Hs; auto).
  clear Hn Hs. unfold qflx1, qflx2, qflx3.
  assert (HB : s_mhd sc = true /\ (q = Fld1 \/ q = Fld2 \/ q = Fld3) \/ (s_mhd sc = true -> q <> Fld1 /\ q <> Fld2 /\ q <> Fld3))
    by (destruct (s_mhd sc); [destruct q; auto; right; intro; repeat split; discriminate | right; discriminate]).
  destruct HB as [[Hm Hf]|HB].
  - destruct (C41_centred_3d m sc z g Hm k j i) as (D1 & D2 & D3); [unfold active3; geo; exact H|].
    destruct (Hc Hm k j i H) as (C1 & C2 & C3).
    destruct Hf as [->|[->| ->]]; cbn [density gflx1 gflx2 gflx3 sflx1 sflx2 sflx3]; rewrite Hm;
      [rewrite D1, C1, !(face1 m sc z g Hm) by bla | rewrite D2, C2, !(face2 m sc z g Hm) by bla | rewrite D3, C3, !(face3 m sc z g Hm) by bla];
      unfold half, Rdiv; ring.
  - clear Hc. destruct m; cbn [integrate_3d].
    + unfold Ctu3Model.integrate_3d_ctu. cbn [U].
      generalize (c_src sc g q k j i Hq H z). rewrite <- (c_len sc z g k j i H) in Hn'. revert Hn'.
      unfold Ctu3Model.U12, Ctu3Model.U12c, Ctu3Model.U12b, Ctu3Model.U12a. cbn [flx1 flx2 flx3].
      generalize (Ctu3Model.U11c sc z g) (Ctu3Model.G1 sc z g) (Ctu3Model.G2 sc z g) (Ctu3Model.G3 sc z g)
        (emf1 CTU sc z g) (emf2 CTU sc z g) (emf3 CTU sc z g). intros u G1 G2 G3 e1 e2 e3 Hn' E.
      transitivity (density q (u k j i) - dt g / dx1 g * (gflx1 sc q G1 e1 e2 e3 k j (i + 1) - gflx1 sc q G1 e1 e2 e3 k j i)
        - dt g / dx2 g * (gflx2 sc q G2 e1 e2 e3 k (j + 1) i - gflx2 sc q G2 e1 e2 e3 k j i)
        - dt g / dx3 g * (gflx3 sc q G3 e1 e2 e3 (k + 1) j i - gflx3 sc q G3 e1 e2 e3 k j i)); [|rewrite E; ring]. clear E.
      destruct (s_mhd sc) eqn:Hm; rewrite !loop3_in by bla; unfold centre;
      (destruct q; try (destruct (HB eq_refl) as (? & ? & ?); congruence);
         cbn [gflx1 gflx2 gflx3 density upd1 upd2 upd3 set_B1 set_B2 set_B3 cd cM1 cM2 cM3 cE cB1 cB2 cB3 cs];
         rewrite ?sub_s_nth by (rewrite ?sub_s_length; apply Hn'; reflexivity); rewrite ?Hm;
         unfold Ctu3Model.q1, Ctu3Model.q2, Ctu3Model.q3, Rdiv; ring).
    + unfold Vl3Model.integrate_3d_vl. cbn [U].
      generalize (v_src sc g q k j i Hq H z). rewrite <- (v_len sc z g k j i H) in Hn'. revert Hn'.
      assert (EU : density q (Vl3Model.U11 sc z g k j i) = density q (U g k j i)).
      { unfold Vl3Model.U11. generalize (Vl3Model.B1i' sc z g) (Vl3Model.B2i' sc z g) (Vl3Model.B3i' sc z g). intros.
        destruct (s_mhd sc) eqn:Hm; [|reflexivity]. rewrite loop3_in by bla. unfold centre.
        destruct q; try (destruct (HB eq_refl) as (? & ? & ?); congruence); reflexivity. }
      rewrite EU. clear EU. unfold Vl3Model.U13, Vl3Model.U13b, Vl3Model.U13a. cbn [flx1 flx2 flx3].
      generalize (Vl3Model.U12b sc z g) (Vl3Model.G1 sc z g) (Vl3Model.G2 sc z g) (Vl3Model.G3 sc z g)
        (emf1 VL sc z g) (emf2 VL sc z g) (emf3 VL sc z g). intros u G1 G2 G3 e1 e2 e3 Hn' E.
      transitivity (density q (u k j i) - dt g / dx1 g * (gflx1 sc q G1 e1 e2 e3 k j (i + 1) - gflx1 sc q G1 e1 e2 e3 k j i)
        - dt g / dx2 g * (gflx2 sc q G2 e1 e2 e3 k (j + 1) i - gflx2 sc q G2 e1 e2 e3 k j i)
        - dt g / dx3 g * (gflx3 sc q G3 e1 e2 e3 (k + 1) j i - gflx3 sc q G3 e1 e2 e3 k j i)); [|rewrite E; ring]. clear E.
      rewrite !loop3_in by bla.
      destruct (s_mhd sc) eqn:Hm;
      (destruct q; try (destruct (HB eq_refl) as (? & ? & ?); congruence);
         cbn [gflx1 gflx2 gflx3 density upd1 upd2 upd3 set_B1 set_B2 set_B3 cd cM1 cM2 cM3 cE cB1 cB2 cB3 cs];
         rewrite ?sub_s_nth by (rewrite ?sub_s_length; apply Hn'; reflexivity); rewrite ?Hm;
         unfold Ctu3Model.q1, Ctu3Model.q2, Ctu3Model.q3, Rdiv; ring).
Qed.

(** The fluxes of energy including the potential energy carried by the mass. *)
Definition eflx1 m sc z g (phi : R -> R -> R -> R) (k j i : Z) : R := ue (flx1 m sc z g k j i) + ud (flx1 m sc z g k j i) * pot g phi k j i (- half) 0 0.
Definition eflx2 m sc z g (phi : R -> R -> R -> R) (k j i : Z) : R := ue (flx2 m sc z g k j i) + ud (flx2 m sc z g k j i) * pot g phi k j i 0 (- half) 0.
Definition eflx3 m sc z g (phi : R -> R -> R -> R) (k j i : Z) : R := ue (flx3 m sc z g k j i) + ud (flx3 m sc z g k j i) * pot g phi k j i 0 0 (- half).
Lemma pot_next1 : forall g phi k j i, pot g phi k j (i + 1) (- half) 0 0 = pot g phi k j i half 0 0.
Proof. intros. unfold pot. rewrite x1c_off. f_equal. unfold half. lra. Qed.
Lemma pot_next2 : forall g phi k j i, pot g phi k (j + 1) i 0 (- half) 0 = pot g phi k j i 0 half 0.
Proof. intros. unfold pot. rewrite x2c_off. f_equal. unfold half. lra. Qed.
Lemma pot_next3 : forall g phi k j i, pot g phi (k + 1) j i 0 0 (- half) = pot g phi k j i 0 0 half.
Proof. intros. unfold pot. rewrite x3c_off. f_equal. unfold half. lra. Qed.
Lemma pot_centre : forall g phi k j i, phi (x1c g i) (x2c g j) (x3c g k) = pot g phi k j i 0 0 0.
Proof. intros. unfold pot. rewrite !Rmult_0_l, !Rplus_0_r. reflexivity. Qed.
Lemma cell_form_energy : forall m sc z g phi k j i,
  s_grav sc = Some phi -> s_cool sc = None -> s_selfg sc = None -> active3 g k j i ->
  etot3 phi g (U (integrate_3d m sc z g) k j i) k j i =
  etot3 phi g (U g k j i) k j i - dt g / dx1 g * (eflx1 m sc z g phi k j (i + 1) - eflx1 m sc z g phi k j i)
    - dt g / dx2 g * (eflx2 m sc z g phi k (j + 1) i - eflx2 m sc z g phi k j i)
    - dt g / dx3 g * (eflx3 m sc z g phi (k + 1) j i - eflx3 m sc z g phi k j i).
Proof.
  intros m sc z g phi k j i Hg Hc Hsg H. unfold etot3, eflx1, eflx2, eflx3.
  rewrite pot_next1, pot_next2, pot_next3, pot_centre.
  destruct m; cbn [integrate_3d flx1 flx2 flx3].
  - unfold Ctu3Model.integrate_3d_ctu. cbn [U].
    assert (E : cE (Ctu3Model.U12 sc z g k j i) = cE (Ctu3Model.U12c sc z g k j i) /\ cd (Ctu3Model.U12 sc z g k j i) = cd (Ctu3Model.U12c sc z g k j i)).
    { unfold Ctu3Model.U12. generalize (Ctu3Model.U12c sc z g) (Ctu3Model.B1i' sc z g) (Ctu3Model.B2i' sc z g) (Ctu3Model.B3i' sc z g). intros.
      destruct (s_mhd sc); rewrite ?loop3_in by bla; split; reflexivity. }
    destruct E as [-> ->]. unfold Ctu3Model.U12c, Ctu3Model.U12b, Ctu3Model.U12a.
    assert (E : Ctu3Model.U11c sc z g = Ctu3Model.U11a sc z g).
    { unfold Ctu3Model.U11c. rewrite Hc. unfold Ctu3Model.U11b. rewrite Hsg. unfold Ctu3Model.U11b2. rewrite Hsg. unfold Ctu3Model.U11b1. now rewrite Hsg. }
    rewrite E. clear E. unfold Ctu3Model.U11a. rewrite Hg.
    generalize (Ctu3Model.G1 sc z g) (Ctu3Model.G2 sc z g) (Ctu3Model.G3 sc z g) (Ctu3Model.dhalf sc z g). intros.
    rewrite !loop3_in by bla. cbv zeta. cbn [upd1 upd2 upd3 cd cE cM1 cM2 cM3 set_E set_M1 set_M2 set_M3]. unfold work.
    generalize (pot g phi k j i). intro p. unfold Ctu3Model.q1, Ctu3Model.q2, Ctu3Model.q3, Rdiv. ring.
  - unfold Vl3Model.integrate_3d_vl. cbn [U].
    assert (E : cE (Vl3Model.U11 sc z g k j i) = cE (U g k j i) /\ cd (Vl3Model.U11 sc z g k j i) = cd (U g k j i)).
    { unfold Vl3Model.U11. generalize (Vl3Model.B1i' sc z g) (Vl3Model.B2i' sc z g) (Vl3Model.B3i' sc z g). intros.
      destruct (s_mhd sc); rewrite ?loop3_in by bla; split; reflexivity. }
    destruct E as [<- <-]. unfold Vl3Model.U13, Vl3Model.U13b, Vl3Model.U13a.
    assert (E : Vl3Model.U12b sc z g = Vl3Model.U12a sc z g).
    { unfold Vl3Model.U12b. rewrite Hsg. unfold Vl3Model.U12b2. rewrite Hsg. unfold Vl3Model.U12b1. now rewrite Hsg. }
    rewrite E. clear E. unfold Vl3Model.U12a. rewrite Hg.
    generalize (Vl3Model.G1 sc z g) (Vl3Model.G2 sc z g) (Vl3Model.G3 sc z g) (Vl3Model.Uh sc z g) (Vl3Model.U11 sc z g). intros.
    rewrite !loop3_in by bla. cbv zeta. unfold Vl3Model.gsrc. cbv zeta. cbn [upd1 upd2 upd3 cd cE cM1 cM2 cM3 set_E set_M1 set_M2 set_M3]. unfold work.
    generalize (pot g phi k j i). intro p. unfold Ctu3Model.q1, Ctu3Model.q2, Ctu3Model.q3, Rdiv. ring.
Qed.

(** What passes through the six sides of the Grid. *)
Definition edge (X Y W : Z -> Z -> Z -> R) (g : grid3) (a b c : R) : R :=
  - a * sumZ (ks g) (ke g) (fun k => sumZ (js g) (je g) (fun j => X k j (ie g + 1)%Z - X k j (is g)))
  - b * sumZ (ks g) (ke g) (fun k => sumZ (is g) (ie g) (fun i => Y k (je g + 1)%Z i - Y k (js g) i))
  - c * sumZ (js g) (je g) (fun j => sumZ (is g) (ie g) (fun i => W (ke g + 1)%Z j i - W (ks g) j i)).
Lemma tele_total : forall (f : cons -> Z -> Z -> Z -> R) (X Y W : Z -> Z -> Z -> R) g g' a b c,
  is g' = is g -> ie g' = ie g -> js g' = js g -> je g' = je g -> ks g' = ks g -> ke g' = ke g -> nonempty3 g ->
  (forall k j i, active3 g k j i ->
     f (U g' k j i) k j i = f (U g k j i) k j i - a * (X k j (i + 1)%Z - X k j i) - b * (Y k (j + 1)%Z i - Y k j i) - c * (W (k + 1)%Z j i - W k j i)) ->
  total3 f g' - total3 f g = edge X Y W g a b c.
Proof.
  intros f X Y W g g' a b c E1 E2 E3 E4 E5 E6 (Hi & Hj & Hk) H. unfold total3, edge. rewrite E1, E2, E3, E4, E5, E6.
  rewrite (sumZ_ext (ks g) (ke g) (fun k => sumZ (js g) (je g) (fun j => sumZ (is g) (ie g) (fun i => f (U g' k j i) k j i)))
    (fun k => sumZ (js g) (je g) (fun j => sumZ (is g) (ie g) (fun i => f (U g k j i) k j i))
      + (- a) * sumZ (js g) (je g) (fun j => X k j (ie g + 1)%Z - X k j (is g))
      + (- b) * sumZ (is g) (ie g) (fun i => Y k (je g + 1)%Z i - Y k (js g) i)
      + (- c) * sumZ (js g) (je g) (fun j => sumZ (is g) (ie g) (fun i => W (k + 1)%Z j i - W k j i)))).
  2:{ intros k Hk'.
      rewrite (sumZ_ext (is g) (ie g) (fun i => Y k (je g + 1)%Z i - Y k (js g) i) (fun i => sumZ (js g) (je g) (fun j => Y k (j + 1)%Z i - Y k j i)))
        by (intros i0 _; symmetry; apply (sumZ_tele (js g) (je g) (fun j => Y k j i0)); lia).
      rewrite <- (sumZ_swap (js g) (je g) (is g) (ie g) (fun j i => Y k (j + 1)%Z i - Y k j i)).
      rewrite <- !sumZ_scal, <- !sumZ_plus. apply sumZ_ext. intros j Hj'. cbv beta.
      rewrite <- (sumZ_tele (is g) (ie g) (X k j)) by lia.
      rewrite <- !sumZ_scal, <- !sumZ_plus. apply sumZ_ext. intros i Hi'. rewrite H by bla. ring. }
  rewrite !sumZ_plus, !sumZ_scal.
  rewrite (sumZ_swap (ks g) (ke g) (js g) (je g) (fun k j => sumZ (is g) (ie g) (fun i => W (k + 1)%Z j i - W k j i))).
  rewrite (sumZ_ext (js g) (je g) (fun j => sumZ (ks g) (ke g) (fun k => sumZ (is g) (ie g) (fun i => W (k + 1)%Z j i - W k j i)))
    (fun j => sumZ (is g) (ie g) (fun i => W (ke g + 1)%Z j i - W (ks g) j i))).
  2:{ intros j _. rewrite (sumZ_swap (ks g) (ke g) (is g) (ie g) (fun k i => W (k + 1)%Z j i - W k j i)). apply sumZ_ext. intros i _.
      apply (sumZ_tele (ks g) (ke g) (fun k => W k j i)). lia. }
  ring.
Qed.
Lemma edge_zero : forall X Y W g a b c,
  (forall k j, (ks g <= k <= ke g)%Z -> (js g <= j <= je g)%Z -> X k j (ie g + 1)%Z = X k j (is g)) ->
  (forall k i, (ks g <= k <= ke g)%Z -> (is g <= i <= ie g)%Z -> Y k (je g + 1)%Z i = Y k (js g) i) ->
  (forall j i, (js g <= j <= je g)%Z -> (is g <= i <= ie g)%Z -> W (ke g + 1)%Z j i = W (ks g) j i) -> edge X Y W g a b c = 0.
Proof.
  intros X Y W g a b c HX HY HW. unfold edge.
  assert (Z2 : forall l u l' u' (F : Z -> Z -> R), (forall x y, (l <= x <= u)%Z -> (l' <= y <= u')%Z -> F x y = 0) -> sumZ l u (fun x => sumZ l' u' (F x)) = 0).
  { intros l u l' u' F HF. rewrite (sumZ_ext l u _ (fun _ => 0)); [apply sumZ_zero|]. intros x Hx.
    rewrite (sumZ_ext l' u' _ (fun _ => 0)); [apply sumZ_zero|]. intros y Hy. now apply HF. }
  rewrite !Z2; [ring| | |].
  - intros j i Hj Hi. rewrite HW by auto. ring.
  - intros k i Hk Hi. rewrite HY by auto. ring.
  - intros k j Hk Hj. rewrite HX by auto. ring.
Qed.
Lemma edge_same : forall X Y W X' Y' W' g a b c,
  (forall k j i, (ks g <= k <= ke g)%Z -> (js g <= j <= je g)%Z -> (i = is g \/ i = ie g + 1)%Z -> X' k j i = X k j i) ->
  (forall k j i, (ks g <= k <= ke g)%Z -> (is g <= i <= ie g)%Z -> (j = js g \/ j = je g + 1)%Z -> Y' k j i = Y k j i) ->
  (forall k j i, (js g <= j <= je g)%Z -> (is g <= i <= ie g)%Z -> (k = ks g \/ k = ke g + 1)%Z -> W' k j i = W k j i) ->
  edge X' Y' W' g a b c = edge X Y W g a b c.
Proof.
  intros X Y W X' Y' W' g a b c HX HY HW. unfold edge. f_equal; [f_equal|]; f_equal; apply sumZ_ext; intros x Hx; apply sumZ_ext; intros y Hy.
  - rewrite !HX by auto. reflexivity.
  - rewrite !HY by auto. reflexivity.
  - rewrite !HW by auto. reflexivity.
Qed.

Section FluxLocal.
Variables (m : integrator) (sc : scheme) (z z' : scratch3) (g g' : grid3) (k j i k' j' i' : Z).
Hypothesis Hlr : nearby (s_lr sc).
Notation N a b c := (near3 sc g g' (k + a) (j + b) (i + c) (k' + a) (j' + b) (i' + c) (-4) 3).
Hypothesis N0 : near3 sc g g' k j i k' j' i' (-4) 3.
Ltac zero := rewrite <- (Z.add_0_r i), <- (Z.add_0_r i'), <- (Z.add_0_r j), <- (Z.add_0_r j'), <- (Z.add_0_r k), <- (Z.add_0_r k').
Lemma stress_local : forall q, sflx1 sc g' q k' j' i' = sflx1 sc g q k j i /\ sflx2 sc g' q k' j' i' = sflx2 sc g q k j i /\ sflx3 sc g' q k' j' i' = sflx3 sc g q k j i.
Proof.
  intro q. destruct (s_selfg sc) as [[? ?]|] eqn:Hsg.
  2:{ destruct (no_stress sc g q Hsg k j i) as (-> & -> & ->). now apply no_stress. }
  unfold sflx1, sflx2, sflx3, stress, g11, g12, g13, g21, g22, g23, g31, g32, g33, Ctu3Model.dx1i, Ctu3Model.dx2i, Ctu3Model.dx3i. rewrite Hsg, (n3_dx1 N0), (n3_dx2 N0), (n3_dx3 N0).
  zero. offs. rewrite !(n3_Phi N0 ltac:(congruence)) by lia. auto.
Qed.
Lemma qflx1_local : forall q, box g k j i 0 0 0 0 0 1 -> box g' k' j' i' 0 0 0 0 0 1 ->
  (s_mhd sc = true -> near3 sc g g' k (j + 1) i k' (j' + 1) i' (-4) 3 /\ near3 sc g g' (k + 1) j i (k' + 1) j' i' (-4) 3) ->
  qflx1 m sc z' g' q k' j' i' = qflx1 m sc z g q k j i.
Proof.
  intros q H H' HN. unfold qflx1. f_equal; [|apply stress_local].
  pose proof (flx1_local m sc z z' g g' k j i k' j' i' Hlr N0 H H') as E.
  unfold gflx1. destruct q; rewrite ?E; auto; (destruct (s_mhd sc) eqn:Hm; [|reflexivity]); destruct (HN eq_refl) as [N1 N2].
  - rewrite (emf3_local m sc z z' g g' k j i k' j' i' Hlr N0 Hm), (emf3_local m sc z z' g g' _ _ _ _ _ _ Hlr N1 Hm) by bl. reflexivity.
  - rewrite (emf2_local m sc z z' g g' k j i k' j' i' Hlr N0 Hm), (emf2_local m sc z z' g g' _ _ _ _ _ _ Hlr N2 Hm) by bl. reflexivity.
Qed.
Lemma qflx2_local : forall q, box g k j i 0 0 0 1 0 0 -> box g' k' j' i' 0 0 0 1 0 0 ->
  (s_mhd sc = true -> near3 sc g g' k j (i + 1) k' j' (i' + 1) (-4) 3 /\ near3 sc g g' (k + 1) j i (k' + 1) j' i' (-4) 3) ->
  qflx2 m sc z' g' q k' j' i' = qflx2 m sc z g q k j i.
Proof.
  intros q H H' HN. unfold qflx2. f_equal; [|apply stress_local].
  pose proof (flx2_local m sc z z' g g' k j i k' j' i' Hlr N0 H H') as E.
  unfold gflx2. destruct q; rewrite ?E; auto; (destruct (s_mhd sc) eqn:Hm; [|reflexivity]); destruct (HN eq_refl) as [N1 N2].
  - rewrite (emf3_local m sc z z' g g' k j i k' j' i' Hlr N0 Hm), (emf3_local m sc z z' g g' _ _ _ _ _ _ Hlr N1 Hm) by bl. reflexivity.
  - rewrite (emf1_local m sc z z' g g' k j i k' j' i' Hlr N0 Hm), (emf1_local m sc z z' g g' _ _ _ _ _ _ Hlr N2 Hm) by bl. reflexivity.
Qed.
Lemma qflx3_local : forall q, box g k j i 0 1 0 0 0 0 -> box g' k' j' i' 0 1 0 0 0 0 ->
  (s_mhd sc = true -> near3 sc g g' k j (i + 1) k' j' (i' + 1) (-4) 3 /\ near3 sc g g' k (j + 1) i k' (j' + 1) i' (-4) 3) ->
  qflx3 m sc z' g' q k' j' i' = qflx3 m sc z g q k j i.
Proof.
  intros q H H' HN. unfold qflx3. f_equal; [|apply stress_local].
  pose proof (flx3_local m sc z z' g g' k j i k' j' i' Hlr N0 H H') as E.
  unfold gflx3. destruct q; rewrite ?E; auto; (destruct (s_mhd sc) eqn:Hm; [|reflexivity]); destruct (HN eq_refl) as [N1 N2].
  - rewrite (emf2_local m sc z z' g g' k j i k' j' i' Hlr N0 Hm), (emf2_local m sc z z' g g' _ _ _ _ _ _ Hlr N1 Hm) by bl. reflexivity.
  - rewrite (emf1_local m sc z z' g g' k j i k' j' i' Hlr N0 Hm), (emf1_local m sc z z' g g' _ _ _ _ _ _ Hlr N2 Hm) by bl. reflexivity.
Qed.
Lemma eflx1_local : forall phi, s_grav sc = Some phi -> box g k j i 0 0 0 0 0 1 -> box g' k' j' i' 0 0 0 0 0 1 -> eflx1 m sc z' g' phi k' j' i' = eflx1 m sc z g phi k j i.
Proof.
  intros phi Hg H H'. unfold eflx1. rewrite (flx1_local m sc z z' g g' k j i k' j' i' Hlr N0 H H').
  pose proof (pot_eq _ _ _ _ _ _ _ _ _ _ _ N0 _ Hg 0 0 0 (- half) 0 0) as P. rewrite !Z.add_0_r in P. rewrite P. reflexivity.
Qed.
Lemma eflx2_local : forall phi, s_grav sc = Some phi -> box g k j i 0 0 0 1 0 0 -> box g' k' j' i' 0 0 0 1 0 0 -> eflx2 m sc z' g' phi k' j' i' = eflx2 m sc z g phi k j i.
Proof.
  intros phi Hg H H'. unfold eflx2. rewrite (flx2_local m sc z z' g g' k j i k' j' i' Hlr N0 H H').
  pose proof (pot_eq _ _ _ _ _ _ _ _ _ _ _ N0 _ Hg 0 0 0 0 (- half) 0) as P. rewrite !Z.add_0_r in P. rewrite P. reflexivity.
Qed.
Lemma eflx3_local : forall phi, s_grav sc = Some phi -> box g k j i 0 1 0 0 0 0 -> box g' k' j' i' 0 1 0 0 0 0 -> eflx3 m sc z' g' phi k' j' i' = eflx3 m sc z g phi k j i.
Proof.
  intros phi Hg H H'. unfold eflx3. rewrite (flx3_local m sc z z' g g' k j i k' j' i' Hlr N0 H H').
  pose proof (pot_eq _ _ _ _ _ _ _ _ _ _ _ N0 _ Hg 0 0 0 0 0 (- half)) as P. rewrite !Z.add_0_r in P. rewrite P. reflexivity.
Qed.
End FluxLocal.

Lemma periodic_near1 : forall sc g k j, periodic3 sc g -> nonempty3 g -> (ks g <= k <= ke g + 1)%Z -> (js g <= j <= je g + 1)%Z -> near3 sc g g k j (is g) k j (ie g + 1) (-4) 3.
Proof.
  intros sc g k j [Hp H] (Le1 & Le2 & Le3) Ha Hb. unfold zone3, nghost in H.
  split; auto.
  - intros phi Hg x y w. pose proof (Hp phi Hg (x1c g (is g) + x) (x2c g j + y) (x3c g k + w)) as P. rewrite <- (proj1 P). f_equal.
    unfold x1c. rewrite Z.sub_diag. rewrite (minus_IZR (ie g + 1)), !plus_IZR, minus_IZR. ring.
  - intros dk dj di Hk Hj Hi. replace (ie g + 1 + di)%Z with (is g + di + (ie g - is g + 1))%Z by lia.
    destruct (H (k + dk)%Z (j + dj)%Z (is g + di)%Z ltac:(lia)) as (H1 & H2 & H3). destruct (H1 ltac:(lia)) as (A1 & A2 & A3 & A4 & A5). exact A1.
  - intros dk dj di Hk Hj Hi. replace (ie g + 1 + di)%Z with (is g + di + (ie g - is g + 1))%Z by lia.
    destruct (H (k + dk)%Z (j + dj)%Z (is g + di)%Z ltac:(lia)) as (H1 & H2 & H3). destruct (H1 ltac:(lia)) as (A1 & A2 & A3 & A4 & A5). apply A3; unfold nghost; lia.
  - intros dk dj di Hk Hj Hi. replace (ie g + 1 + di)%Z with (is g + di + (ie g - is g + 1))%Z by lia.
    destruct (H (k + dk)%Z (j + dj)%Z (is g + di)%Z ltac:(lia)) as (H1 & H2 & H3). destruct (H1 ltac:(lia)) as (A1 & A2 & A3 & A4 & A5). apply A4; unfold nghost; lia.
  - intros dk dj di Hk Hj Hi. replace (ie g + 1 + di)%Z with (is g + di + (ie g - is g + 1))%Z by lia.
    destruct (H (k + dk)%Z (j + dj)%Z (is g + di)%Z ltac:(lia)) as (H1 & H2 & H3). destruct (H1 ltac:(lia)) as (A1 & A2 & A3 & A4 & A5). apply A5; unfold nghost; lia.
  - intros Hsg dk dj di Hk Hj Hi. replace (ie g + 1 + di)%Z with (is g + di + (ie g - is g + 1))%Z by lia.
    destruct (H (k + dk)%Z (j + dj)%Z (is g + di)%Z ltac:(lia)) as (H1 & H2 & H3). destruct (H1 ltac:(lia)) as (A1 & A2 & A3 & A4 & A5). now apply A2.
Qed.
Lemma periodic_near2 : forall sc g k i, periodic3 sc g -> nonempty3 g -> (ks g <= k <= ke g + 1)%Z -> (is g <= i <= ie g + 1)%Z -> near3 sc g g k (js g) i k (je g + 1) i (-4) 3.
Proof.
  intros sc g k i [Hp H] (Le1 & Le2 & Le3) Ha Hb. unfold zone3, nghost in H.
  split; auto.
  - intros phi Hg x y w. pose proof (Hp phi Hg (x1c g i + x) (x2c g (js g) + y) (x3c g k + w)) as P. rewrite <- (proj1 (proj2 P)). f_equal.
    unfold x2c. rewrite Z.sub_diag. rewrite (minus_IZR (je g + 1)), !plus_IZR, minus_IZR. ring.
  - intros dk dj di Hk Hj Hi. replace (je g + 1 + dj)%Z with (js g + dj + (je g - js g + 1))%Z by lia.
    destruct (H (k + dk)%Z (js g + dj)%Z (i + di)%Z ltac:(lia)) as (H1 & H2 & H3). destruct (H2 ltac:(lia)) as (A1 & A2 & A3 & A4 & A5). exact A1.
  - intros dk dj di Hk Hj Hi. replace (je g + 1 + dj)%Z with (js g + dj + (je g - js g + 1))%Z by lia.
    destruct (H (k + dk)%Z (js g + dj)%Z (i + di)%Z ltac:(lia)) as (H1 & H2 & H3). destruct (H2 ltac:(lia)) as (A1 & A2 & A3 & A4 & A5). apply A3; unfold nghost; lia.
  - intros dk dj di Hk Hj Hi. replace (je g + 1 + dj)%Z with (js g + dj + (je g - js g + 1))%Z by lia.
    destruct (H (k + dk)%Z (js g + dj)%Z (i + di)%Z ltac:(lia)) as (H1 & H2 & H3). destruct (H2 ltac:(lia)) as (A1 & A2 & A3 & A4 & A5). apply A4; unfold nghost; lia.
  - intros dk dj di Hk Hj Hi. replace (je g + 1 + dj)%Z with (js g + dj + (je g - js g + 1))%Z by lia.
    destruct (H (k + dk)%Z (js g + dj)%Z (i + di)%Z ltac:(lia)) as (H1 & H2 & H3). destruct (H2 ltac:(lia)) as (A1 & A2 & A3 & A4 & A5). apply A5; unfold nghost; lia.
  - intros Hsg dk dj di Hk Hj Hi. replace (je g + 1 + dj)%Z with (js g + dj + (je g - js g + 1))%Z by lia.
    destruct (H (k + dk)%Z (js g + dj)%Z (i + di)%Z ltac:(lia)) as (H1 & H2 & H3). destruct (H2 ltac:(lia)) as (A1 & A2 & A3 & A4 & A5). now apply A2.
Qed.
Lemma periodic_near3 : forall sc g j i, periodic3 sc g -> nonempty3 g -> (js g <= j <= je g + 1)%Z -> (is g <= i <= ie g + 1)%Z -> near3 sc g g (ks g) j i (ke g + 1) j i (-4) 3.
Proof.
  intros sc g j i [Hp H] (Le1 & Le2 & Le3) Ha Hb. unfold zone3, nghost in H.
  split; auto.
  - intros phi Hg x y w. pose proof (Hp phi Hg (x1c g i + x) (x2c g j + y) (x3c g (ks g) + w)) as P. rewrite <- (proj2 (proj2 P)). f_equal.
    unfold x3c. rewrite Z.sub_diag. rewrite (minus_IZR (ke g + 1)), !plus_IZR, minus_IZR. ring.
  - intros dk dj di Hk Hj Hi. replace (ke g + 1 + dk)%Z with (ks g + dk + (ke g - ks g + 1))%Z by lia.
    destruct (H (ks g + dk)%Z (j + dj)%Z (i + di)%Z ltac:(lia)) as (H1 & H2 & H3). destruct (H3 ltac:(lia)) as (A1 & A2 & A3 & A4 & A5). exact A1.
  - intros dk dj di Hk Hj Hi. replace (ke g + 1 + dk)%Z with (ks g + dk + (ke g - ks g + 1))%Z by lia.
    destruct (H (ks g + dk)%Z (j + dj)%Z (i + di)%Z ltac:(lia)) as (H1 & H2 & H3). destruct (H3 ltac:(lia)) as (A1 & A2 & A3 & A4 & A5). apply A3; unfold nghost; lia.
  - intros dk dj di Hk Hj Hi. replace (ke g + 1 + dk)%Z with (ks g + dk + (ke g - ks g + 1))%Z by lia.
    destruct (H (ks g + dk)%Z (j + dj)%Z (i + di)%Z ltac:(lia)) as (H1 & H2 & H3). destruct (H3 ltac:(lia)) as (A1 & A2 & A3 & A4 & A5). apply A4; unfold nghost; lia.
  - intros dk dj di Hk Hj Hi. replace (ke g + 1 + dk)%Z with (ks g + dk + (ke g - ks g + 1))%Z by lia.
    destruct (H (ks g + dk)%Z (j + dj)%Z (i + di)%Z ltac:(lia)) as (H1 & H2 & H3). destruct (H3 ltac:(lia)) as (A1 & A2 & A3 & A4 & A5). apply A5; unfold nghost; lia.
  - intros Hsg dk dj di Hk Hj Hi. replace (ke g + 1 + dk)%Z with (ks g + dk + (ke g - ks g + 1))%Z by lia.
    destruct (H (ks g + dk)%Z (j + dj)%Z (i + di)%Z ltac:(lia)) as (H1 & H2 & H3). destruct (H3 ltac:(lia)) as (A1 & A2 & A3 & A4 & A5). now apply A2.
Qed.

(** With periodic boundaries the amount of every quantity on which no source acts is
    unchanged by a step. *)
Theorem C40_periodic_3d : forall m sc z g q ns, nearby (s_lr sc) -> nonempty3 g ->
  unsourced3 sc q -> scalars3 g ns -> (forall n, q = Scal n -> (n < ns)%nat) -> (s_mhd sc = true -> centred3 g) ->
  periodic3 sc g ->
  total3 (fun u _ _ _ => density q u) (integrate_3d m sc z g) = total3 (fun u _ _ _ => density q u) g.
Proof.
  intros m sc z g q ns Hlr Hne Hq Hs Hn Hc Hp.
  pose proof (tele_total (fun u _ _ _ => density q u) _ _ _ g (integrate_3d m sc z g) (dt g / dx1 g) (dt g / dx2 g) (dt g / dx3 g)
    (i_is _ _ _ _) (i_ie _ _ _ _) (i_js _ _ _ _) (i_je _ _ _ _) (i_ks _ _ _ _) (i_ke _ _ _ _) Hne
    (fun k j i H => cell_form m sc z g q ns k j i Hq Hs Hn Hc H)) as T. cbv beta in T.
  pose proof Hne as (L1 & L2 & L3). rewrite edge_zero in T; [lra| | |].
  - intros k j Hk Hj. apply qflx1_local; auto; try bl; [apply periodic_near1; auto; lia|intros _; split; apply periodic_near1; auto; lia].
  - intros k i Hk Hi. apply qflx2_local; auto; try bl; [apply periodic_near2; auto; lia|intros _; split; apply periodic_near2; auto; lia].
  - intros j i Hj Hi. apply qflx3_local; auto; try bl; [apply periodic_near3; auto; lia|intros _; split; apply periodic_near3; auto; lia].
Qed.
Print Assumptions C40_periodic_3d.

(** Whatever happens inside, the change of the total only depends on the data near
    the edge of the Grid: two runs that agree within nghost zones of the edge lose or
    gain the same amounts. *)
Definition same_edge (sc : scheme) (g g' : grid3) : Prop :=
  is g' = is g /\ ie g' = ie g /\ js g' = js g /\ je g' = je g /\ ks g' = ks g /\ ke g' = ke g /\
  forall k j i, (ks g <= k <= ke g + 1)%Z -> (js g <= j <= je g + 1)%Z -> (is g <= i <= ie g + 1)%Z ->
    (k = ks g \/ k = ke g + 1 \/ j = js g \/ j = je g + 1 \/ i = is g \/ i = ie g + 1)%Z ->
    near3 sc g g' k j i k j i (- nghost) (nghost - 1).
Theorem C40_interior_3d : forall m sc z z' g g' q ns ns', nearby (s_lr sc) -> nonempty3 g ->
  unsourced3 sc q -> scalars3 g ns -> scalars3 g' ns' -> (forall n, q = Scal n -> (n < ns)%nat /\ (n < ns')%nat) ->
  (s_mhd sc = true -> centred3 g /\ centred3 g') -> same_edge sc g g' ->
  let f := fun (u : cons) (_ _ _ : Z) => density q u in
  total3 f (integrate_3d m sc z' g') - total3 f g' = total3 f (integrate_3d m sc z g) - total3 f g.
Proof.
  intros m sc z z' g g' q ns ns' Hlr Hne Hq Hs Hs' Hn Hc (I1 & I2 & I3 & I4 & I5 & I6 & Hn3) f.
  unfold nghost in Hn3. change (4 - 1)%Z with 3%Z in Hn3. change (- (4))%Z with (-4)%Z in Hn3.
  assert (Hne' : nonempty3 g') by (unfold nonempty3 in *; rewrite I1, I2, I3, I4, I5, I6; exact Hne).
  unfold f. rewrite (tele_total (fun u _ _ _ => density q u) _ _ _ g (integrate_3d m sc z g) (dt g / dx1 g) (dt g / dx2 g) (dt g / dx3 g)
    (i_is _ _ _ _) (i_ie _ _ _ _) (i_js _ _ _ _) (i_je _ _ _ _) (i_ks _ _ _ _) (i_ke _ _ _ _) Hne
    (fun k j i H => cell_form m sc z g q ns k j i Hq Hs (fun n E => proj1 (Hn n E)) (fun H => proj1 (Hc H)) H)).
  rewrite (tele_total (fun u _ _ _ => density q u) _ _ _ g' (integrate_3d m sc z' g') (dt g' / dx1 g') (dt g' / dx2 g') (dt g' / dx3 g')
    (i_is _ _ _ _) (i_ie _ _ _ _) (i_js _ _ _ _) (i_je _ _ _ _) (i_ks _ _ _ _) (i_ke _ _ _ _) Hne'
    (fun k j i H => cell_form m sc z' g' q ns' k j i Hq Hs' (fun n E => proj2 (Hn n E)) (fun H => proj2 (Hc H)) H)).
  destruct Hne as (L1 & L2 & L3).
  pose proof (Hn3 (ks g) (js g) (is g) ltac:(lia) ltac:(lia) ltac:(lia) ltac:(lia)) as N0.
  rewrite (n3_dt N0), (n3_dx1 N0), (n3_dx2 N0), (n3_dx3 N0). clear N0.
  transitivity (edge (qflx1 m sc z' g' q) (qflx2 m sc z' g' q) (qflx3 m sc z' g' q) g (dt g / dx1 g) (dt g / dx2 g) (dt g / dx3 g)).
  { unfold edge. rewrite I1, I2, I3, I4, I5, I6. reflexivity. }
  apply edge_same; intros; [apply qflx1_local|apply qflx2_local|apply qflx3_local]; auto; try (unfold box; rewrite ?I1, ?I2, ?I3, ?I4, ?I5, ?I6; lia);
    try (apply Hn3; lia); intros _; split; apply Hn3; lia.
Qed.
Print Assumptions C40_interior_3d.

(** ** C62.  In a static potential the energy including potential energy is
    conserved: exactly with periodic data, and otherwise up to what crosses the edge. *)
Theorem C62_energy_periodic_3d : forall m sc z g phi, nearby (s_lr sc) -> nonempty3 g ->
  s_grav sc = Some phi -> s_cool sc = None -> s_selfg sc = None -> periodic3 sc g ->
  total3 (etot3 phi g) (integrate_3d m sc z g) = total3 (etot3 phi g) g.
Proof.
  intros m sc z g phi Hlr Hne Hg Hc Hsg Hp.
  pose proof (tele_total (etot3 phi g) _ _ _ g (integrate_3d m sc z g) (dt g / dx1 g) (dt g / dx2 g) (dt g / dx3 g)
    (i_is _ _ _ _) (i_ie _ _ _ _) (i_js _ _ _ _) (i_je _ _ _ _) (i_ks _ _ _ _) (i_ke _ _ _ _) Hne
    (fun k j i H => cell_form_energy m sc z g phi k j i Hg Hc Hsg H)) as T.
  pose proof Hne as (L1 & L2 & L3). rewrite edge_zero in T; [lra| | |].
  - intros k j Hk Hj. apply eflx1_local; auto; try bl. apply periodic_near1; auto; lia.
  - intros k i Hk Hi. apply eflx2_local; auto; try bl. apply periodic_near2; auto; lia.
  - intros j i Hj Hi. apply eflx3_local; auto; try bl. apply periodic_near3; auto; lia.
Qed.
Print Assumptions C62_energy_periodic_3d.
Theorem C62_energy_interior_3d : forall m sc z z' g g' phi, nearby (s_lr sc) -> nonempty3 g ->
  s_grav sc = Some phi -> s_cool sc = None -> s_selfg sc = None -> same_edge sc g g' ->
  total3 (etot3 phi g') (integrate_3d m sc z' g') - total3 (etot3 phi g') g' =
  total3 (etot3 phi g) (integrate_3d m sc z g) - total3 (etot3 phi g) g.
Proof.
  intros m sc z z' g g' phi Hlr Hne Hg Hc Hsg (I1 & I2 & I3 & I4 & I5 & I6 & Hn3).
  unfold nghost in Hn3. change (4 - 1)%Z with 3%Z in Hn3. change (- (4))%Z with (-4)%Z in Hn3.
  assert (Hne' : nonempty3 g') by (unfold nonempty3 in *; rewrite I1, I2, I3, I4, I5, I6; exact Hne).
  rewrite (tele_total (etot3 phi g) _ _ _ g (integrate_3d m sc z g) (dt g / dx1 g) (dt g / dx2 g) (dt g / dx3 g)
    (i_is _ _ _ _) (i_ie _ _ _ _) (i_js _ _ _ _) (i_je _ _ _ _) (i_ks _ _ _ _) (i_ke _ _ _ _) Hne
    (fun k j i H => cell_form_energy m sc z g phi k j i Hg Hc Hsg H)).
  rewrite (tele_total (etot3 phi g') _ _ _ g' (integrate_3d m sc z' g') (dt g' / dx1 g') (dt g' / dx2 g') (dt g' / dx3 g')
    (i_is _ _ _ _) (i_ie _ _ _ _) (i_js _ _ _ _) (i_je _ _ _ _) (i_ks _ _ _ _) (i_ke _ _ _ _) Hne'
    (fun k j i H => cell_form_energy m sc z' g' phi k j i Hg Hc Hsg H)).
  destruct Hne as (L1 & L2 & L3).
  pose proof (Hn3 (ks g) (js g) (is g) ltac:(lia) ltac:(lia) ltac:(lia) ltac:(lia)) as N0.
  rewrite (n3_dt N0), (n3_dx1 N0), (n3_dx2 N0), (n3_dx3 N0). clear N0.
  transitivity (edge (eflx1 m sc z' g' phi) (eflx2 m sc z' g' phi) (eflx3 m sc z' g' phi) g (dt g / dx1 g) (dt g / dx2 g) (dt g / dx3 g)).
  { unfold edge. rewrite I1, I2, I3, I4, I5, I6. reflexivity. }
  apply edge_same; intros; [apply eflx1_local|apply eflx2_local|apply eflx3_local]; auto; try (unfold box; rewrite ?I1, ?I2, ?I3, ?I4, ?I5, ?I6; lia);
    apply Hn3; lia.
Qed.
Print Assumptions C62_energy_interior_3d.

(** ** C63.  A uniform state, moving and magnetised or not, stays exactly as it is. *)
Definition uniform3 (sc : scheme) (g : grid3) (u : cons) (b1 b2 b3 : R) : Prop :=
  (s_mhd sc = true -> cB1 u = b1 /\ cB2 u = b2 /\ cB3 u = b3) /\
  forall k j i, zone3 g k j i ->
    U g k j i = u /\ ((is g - nghost < i)%Z -> B1i g k j i = b1) /\ ((js g - nghost < j)%Z -> B2i g k j i = b2) /\
    ((ks g - nghost < k)%Z -> B3i g k j i = b3).
Theorem C63_uniform_3d : forall m sc z g u b1 b2 b3, nearby (s_lr sc) ->
  s_grav sc = None -> s_cool sc = None -> s_selfg sc = None -> uniform3 sc g u b1 b2 b3 ->
  let h := integrate_3d m sc z g in
  forall k j i, active3 g k j i -> U h k j i = u /\
    B1i h k j i = b1 /\ B1i h k j (i + 1)%Z = b1 /\ B2i h k j i = b2 /\ B2i h k (j + 1)%Z i = b2 /\
    B3i h k j i = b3 /\ B3i h (k + 1)%Z j i = b3.
Proof.
  intros m sc z g u b1 b2 b3 Hlr Hg Hc Hsg [Hu0 Hu] h. unfold zone3, nghost in Hu.
  assert (HN : forall k j i k' j' i', box g k j i 0 1 0 1 0 1 -> box g k' j' i' 0 1 0 1 0 1 -> near3 sc g g k j i k' j' i' (-4) 3).
  { intros k j i k' j' i' H H'. split; try reflexivity; try (intros; congruence); intros dk dj di Hdk Hdj Hdi;
      destruct (Hu (k + dk)%Z (j + dj)%Z (i + di)%Z ltac:(bl)) as (A & B & C & D); destruct (Hu (k' + dk)%Z (j' + dj)%Z (i' + di)%Z ltac:(bl)) as (A' & B' & C' & D').
    - congruence.
    - rewrite B, B' by bl. reflexivity.
    - rewrite C, C' by bl. reflexivity.
    - rewrite D, D' by bl. reflexivity. }
  assert (He1 : forall k j i k' j' i', s_mhd sc = true -> box g k j i 0 1 0 1 0 0 -> box g k' j' i' 0 1 0 1 0 0 -> emf1 m sc z g k' j' i' = emf1 m sc z g k j i)
    by (intros; apply emf1_local; auto; apply HN; bl).
  assert (He2 : forall k j i k' j' i', s_mhd sc = true -> box g k j i 0 1 0 0 0 1 -> box g k' j' i' 0 1 0 0 0 1 -> emf2 m sc z g k' j' i' = emf2 m sc z g k j i)
    by (intros; apply emf2_local; auto; apply HN; bl).
  assert (He3 : forall k j i k' j' i', s_mhd sc = true -> box g k j i 0 0 0 1 0 1 -> box g k' j' i' 0 0 0 1 0 1 -> emf3 m sc z g k' j' i' = emf3 m sc z g k j i)
    by (intros; apply emf3_local; auto; apply HN; bl).
  assert (HB : (forall k j i, box g k j i 0 0 0 0 0 1 -> B1i h k j i = b1) /\ (forall k j i, box g k j i 0 0 0 1 0 0 -> B2i h k j i = b2) /\
               (forall k j i, box g k j i 0 1 0 0 0 0 -> B3i h k j i = b3)).
  { unfold h. destruct (s_mhd sc) eqn:Hm.
    - repeat split; intros k j i H; destruct (Hu k j i ltac:(bl)) as (_ & A & B & C).
      + rewrite (face1 m sc z g Hm) by bl. rewrite (He2 k j i (k + 1)%Z j i eq_refl), (He3 k j i k (j + 1)%Z i eq_refl), A by bl. ring.
      + rewrite (face2 m sc z g Hm) by bl. rewrite (He3 k j i k j (i + 1)%Z eq_refl), (He1 k j i (k + 1)%Z j i eq_refl), B by bl. ring.
      + rewrite (face3 m sc z g Hm) by bl. rewrite (He1 k j i k (j + 1)%Z i eq_refl), (He2 k j i k j (i + 1)%Z eq_refl), C by bl. ring.
    - destruct (faces_hydro m sc z g Hm) as (F1 & F2 & F3). rewrite F1, F2, F3.
      repeat split; intros k j i H; destruct (Hu k j i ltac:(bl)) as (_ & A & B & C); [apply A|apply B|apply C]; bl. }
  intros k j i H. split; [|destruct HB as (HB1 & HB2 & HB3); repeat split; (apply HB1 || apply HB2 || apply HB3); bla].
  assert (HU : U g k j i = u) by (apply Hu; bla).
  assert (Hs : scalars3 g (length (cs u))) by (intros k' j' i' H'; destruct (Hu k' j' i' ltac:(bla)) as (A & _); now rewrite A).
  assert (Hcen : s_mhd sc = true -> centred3 g).
  { intros Hm k' j' i' H'. destruct (Hu0 Hm) as (P1 & P2 & P3).
    destruct (Hu k' j' i' ltac:(bla)) as (A & B & C & D). destruct (Hu k' j' (i' + 1)%Z ltac:(bla)) as (_ & B' & _).
    destruct (Hu k' (j' + 1)%Z i' ltac:(bla)) as (_ & _ & C' & _). destruct (Hu (k' + 1)%Z j' i' ltac:(bla)) as (_ & _ & _ & D').
    rewrite A, B, B', C, C', D, D', P1, P2, P3 by bla. unfold half. repeat split; lra. }
  apply cons_ext.
  - unfold h. apply (scalars_step3 m sc z g _ Hs). unfold active3. geo. exact H.
  - intros q Hq. rewrite <- HU. unfold h. rewrite (cell_form m sc z g q (length (cs u)) k j i); auto.
    2:{ destruct q; cbn; auto. }
    rewrite (qflx1_local m sc z z g g k j i k j (i + 1)%Z Hlr (HN k j i k j (i + 1)%Z ltac:(bla) ltac:(bla))); try bla; [|intros _; split; apply HN; bla].
    rewrite (qflx2_local m sc z z g g k j i k (j + 1)%Z i Hlr (HN k j i k (j + 1)%Z i ltac:(bla) ltac:(bla))); try bla; [|intros _; split; apply HN; bla].
    rewrite (qflx3_local m sc z z g g k j i (k + 1)%Z j i Hlr (HN k j i (k + 1)%Z j i ltac:(bla) ltac:(bla))); try bla; [|intros _; split; apply HN; bla].
    unfold Rdiv. ring.
Qed.
Print Assumptions C63_uniform_3d.
