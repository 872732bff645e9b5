(** * C93: states that meet the hypotheses, and a flow along x2 whose energy is not conserved *)
From Coq Require Import Reals ZArith List Bool Lia Lra.
From Verif Require Import GasModel IntegModel IntegSpec IntegFacts SchemeModel SchemeNearby SelfgModel SelfgSpec SelfgFacts SelfgExists.
From Verif Require Ctu1Model Ctu2Model Ctu3Model Integ1Spec Integ2Spec Integ3Spec Integ1Props Integ2Props Integ3Props Integ3Run Selfg1Props Selfg2Props Selfg3Props Selfg3Total.
Open Scope R_scope.

(** ** The flows of C40 on a chequerboard of densities 1 and 3, now with their own gravity instead of a static potential. *)
Definition chess (a : R) (n : Z) : R := if Z.even n then a else - a.
Lemma chess_next : forall a n, chess a (n + 1) = - chess a n.
Proof. intros. unfold chess. rewrite Z.even_add. change (Z.even 1) with false. destruct (Z.even n); cbn; lra. Qed.
Lemma chess_prev : forall a n, chess a (n - 1) = - chess a n.
Proof. intros. unfold chess. rewrite Z.even_sub. change (Z.even 1) with false. destruct (Z.even n); cbn; lra. Qed.
Lemma sum45 : forall f, sumZ 4 5 f = f 4%Z + f 5%Z.
Proof. intro f. rewrite sumZ_last, (sumZ_last 4 (5 - 1)), sumZ_empty by lia. cbn [Z.sub Z.add Z.opp Z.pos_sub]. change (5 - 1)%Z with 4%Z. lra. Qed.

Definition ex_sc3 (m : integrator) : scheme := athena (GCfg true (Isothermal 1)) m O3 SHlle None None (Some (1, 2)) (/ 10).
Definition ex_phi3 (k j i : Z) : R := chess (/ 12) (i + j + k).
Definition ex_g3 : Ctu3Model.grid3 := let g := Integ3Run.ex_grid3 in
  Ctu3Model.Grid3 4 5 4 5 4 5 (1 / 10) 1 1 1 0 0 0 (Ctu3Model.U g) (Ctu3Model.B1i g) (Ctu3Model.B2i g) (Ctu3Model.B3i g) ex_phi3 (fun _ _ _ => 0) (fun _ _ _ => 0) (fun _ _ _ => 0).
Example ex_selfg3 : forall m z, exists P, let sc := ex_sc3 m in let g := ex_g3 in let h := Integ3Spec.integrate_3d m sc z g in
  nearby (s_lr sc) /\ Integ3Spec.nonempty3 g /\ s_grav sc = None /\ s_cool sc = None /\ s_selfg sc = Some (1, 2) /\ Integ3Spec.scalars3 g 1 /\
  Integ3Spec.centred3 g /\ Integ3Spec.periodic3 sc g /\
  solves3 1 1 1 1 4 5 4 5 4 5 (fun k j i => cd (Ctu3Model.U g k j i)) (Ctu3Model.Phi g) /\
  solves3 1 1 1 1 4 5 4 5 4 5 (fun k j i => cd (Ctu3Model.U h k j i)) P.
Proof.
  intros m z.
  destruct (C93_potential_exists_3d 1 1 1 1 4 5 4 5 4 5 (fun k j i => cd (Ctu3Model.U (Integ3Spec.integrate_3d m (ex_sc3 m) z ex_g3) k j i))) as (P & S & Q); try lia; try lra.
  exists P. cbv zeta. split; [apply lr_states_nearby|]. split; [exact Integ3Run.ex_nonempty3|]. do 3 (split; [reflexivity|]).
  split; [exact Integ3Run.ex_scalars3|]. split; [exact Integ3Run.ex_centred3|].
  assert (C2 : forall n, chess (/ 12) (n + 2) = chess (/ 12) n).
  { intro n. replace (n + 2)%Z with (n + 1 + 1)%Z by lia. rewrite !chess_next. lra. }
  split; [|split; [|exact S]].
  - split; [intros phi E; discriminate|]. intros k j i Hz. destruct (Integ3Run.ex_periodic3 m) as [_ H]. destruct (H k j i Hz) as (A & B & C).
    split; [|split]; intro Hz'; [destruct (A Hz') as (X1 & _ & X3)|destruct (B Hz') as (X1 & _ & X3)|destruct (C Hz') as (X1 & _ & X3)]; (split; [exact X1|split; [intros _|exact X3]]);
      cbn [ex_g3 Ctu3Model.Phi Ctu3Model.is Ctu3Model.ie Ctu3Model.js Ctu3Model.je Ctu3Model.ks Ctu3Model.ke]; unfold ex_phi3; rewrite <- (C2 (i + j + k)%Z); f_equal; lia.
  - cbn [ex_g3 Ctu3Model.Phi Ctu3Model.U Integ3Run.ex_grid3]. unfold ex_phi3. split; [|split].
    + split; [intros k _; split; [intros j _; split|intros i _; split]|intros j i _ _; split].
      * rewrite <- C2. f_equal. lia.
      * symmetry. rewrite <- C2. f_equal. lia.
      * rewrite <- C2. f_equal. lia.
      * symmetry. rewrite <- C2. f_equal. lia.
      * rewrite <- C2. f_equal. lia.
      * symmetry. rewrite <- C2. f_equal. lia.
    + unfold sum3, sum2. rewrite !sum45. unfold chess. cbn. lra.
    + intros k j i _ _ _. unfold diff2. unfold sum3, sum2. rewrite !sum45. unfold Integ3Run.ex_cell3 at 2 3 4 5 6 7 8 9. cbn [Z.even Z.add Pos.add Pos.succ cd].
      change (IZR (5 - 4 + 1)) with 2.
      replace (i + 1 + j + k)%Z with (i + j + k + 1)%Z by lia. replace (i - 1 + j + k)%Z with (i + j + k - 1)%Z by lia.
      replace (i + (j + 1) + k)%Z with (i + j + k + 1)%Z by lia. replace (i + (j - 1) + k)%Z with (i + j + k - 1)%Z by lia.
      replace (i + j + (k + 1))%Z with (i + j + k + 1)%Z by lia. replace (i + j + (k - 1))%Z with (i + j + k - 1)%Z by lia.
      rewrite chess_next, chess_prev. unfold chess, Integ3Run.ex_cell3. cbn zeta. destruct (Z.even (i + j + k)); cbn [cd]; lra.
Qed.

Definition ex_sc2 (m : integrator) : scheme := athena (GCfg true (Isothermal 1)) m O3 SHlle None None (Some (1, 2)) (/ 10).
Definition ex_phi2 (j i : Z) : R := chess (/ 8) (i + j).
Definition ex_g2 : Ctu2Model.grid2 := let g := Integ2Props.ex_grid2 in
  Ctu2Model.Grid2 4 5 4 5 (1 / 10) 1 1 0 0 0 (Ctu2Model.U g) (Ctu2Model.B1i g) (Ctu2Model.B2i g) (Ctu2Model.B3i g) ex_phi2 (fun _ _ => 0) (fun _ _ => 0).
Example ex_selfg2 : forall m z, exists P, let sc := ex_sc2 m in let g := ex_g2 in let h := Integ2Spec.integrate_2d m sc z g in
  nearby (s_lr sc) /\ s_grav sc = None /\ s_cool sc = None /\ s_selfg sc = Some (1, 2) /\ Integ2Spec.scalars2 g 1 /\
  Integ2Spec.centred2 g /\ Integ2Spec.periodic2 sc g /\
  solves2 1 1 1 4 5 4 5 (fun j i => cd (Ctu2Model.U g j i)) (Ctu2Model.Phi g) /\
  solves2 1 1 1 4 5 4 5 (fun j i => cd (Ctu2Model.U h j i)) P.
Proof.
  intros m z.
  destruct (C93_potential_exists_2d 1 1 1 4 5 4 5 (fun j i => cd (Ctu2Model.U (Integ2Spec.integrate_2d m (ex_sc2 m) z ex_g2) j i))) as (P & S & Q); try lia; try lra.
  exists P. cbv zeta. split; [apply lr_states_nearby|]. do 3 (split; [reflexivity|]).
  split; [exact Integ2Props.ex_scalars2|]. split; [exact Integ2Props.ex_centred2|].
  assert (C2 : forall n, chess (/ 8) (n + 2) = chess (/ 8) n).
  { intro n. replace (n + 2)%Z with (n + 1 + 1)%Z by lia. rewrite !chess_next. lra. }
  split; [|split; [|exact S]].
  - split; [intros phi E; discriminate|]. intros j i Hj Hi. destruct (Integ2Props.ex_periodic2 m) as [_ H]. destruct (H j i Hj Hi) as (A & B).
    split; intro Hz'; [destruct (A Hz') as (X1 & _ & X3)|destruct (B Hz') as (X1 & _ & X3)]; (split; [exact X1|split; [intros _|exact X3]]);
      cbn [ex_g2 Ctu2Model.Phi Ctu2Model.is Ctu2Model.ie Ctu2Model.js Ctu2Model.je]; unfold ex_phi2; rewrite <- (C2 (i + j)%Z); f_equal; lia.
  - cbn [ex_g2 Ctu2Model.Phi Ctu2Model.U Integ2Props.ex_grid2]. unfold ex_phi2. split; [|split].
    + split; [intros j _; split|intros i _; split].
      * rewrite <- C2. f_equal. lia.
      * symmetry. rewrite <- C2. f_equal. lia.
      * rewrite <- C2. f_equal. lia.
      * symmetry. rewrite <- C2. f_equal. lia.
    + unfold sum2. rewrite !sum45. unfold chess. cbn. lra.
    + intros j i _ _. unfold diff2. unfold sum2. rewrite !sum45. unfold Integ2Props.ex_cell2 at 2 3 4 5. cbn [Z.even Z.add Pos.add Pos.succ cd].
      change (IZR (5 - 4 + 1)) with 2.
      replace (i + 1 + j)%Z with (i + j + 1)%Z by lia. replace (i - 1 + j)%Z with (i + j - 1)%Z by lia.
      replace (i + (j + 1))%Z with (i + j + 1)%Z by lia. replace (i + (j - 1))%Z with (i + j - 1)%Z by lia.
      rewrite chess_next, chess_prev. unfold chess, Integ2Props.ex_cell2. cbn zeta. destruct (Z.even (i + j)); cbn [cd]; lra.
Qed.

Definition ex_sc1 (m : integrator) : scheme := athena (GCfg false (Isothermal 1)) m O3 SHlle None None (Some (1, 2)) (/ 10).
Definition ex_phi1 (i : Z) : R := chess (/ 4) i.
Definition ex_g1 : Ctu1Model.grid1 := let g := Integ1Props.ex_grid in
  Ctu1Model.Grid1 4 5 (1 / 10) 1 0 0 0 (Ctu1Model.U g) (Ctu1Model.B1i g) (Ctu1Model.B2i g) (Ctu1Model.B3i g) ex_phi1 (fun _ => 0).
Example ex_selfg1 : forall m z, exists P, let sc := ex_sc1 m in let g := ex_g1 in let h := Integ1Spec.integrate_1d m sc z g in
  nearby (s_lr sc) /\ s_grav sc = None /\ s_cool sc = None /\ s_selfg sc = Some (1, 2) /\ Integ1Spec.scalars1 g 1 /\ Integ1Spec.periodic1 sc g /\
  solves1 1 1 4 5 (fun i => cd (Ctu1Model.U g i)) (Ctu1Model.Phi g) /\
  solves1 1 1 4 5 (fun i => cd (Ctu1Model.U h i)) P.
Proof.
  intros m z.
  destruct (C93_potential_exists_1d 1 1 4 5 (fun i => cd (Ctu1Model.U (Integ1Spec.integrate_1d m (ex_sc1 m) z ex_g1) i))) as (P & S & Q); try lia; try lra.
  exists P. cbv zeta. split; [apply lr_states_nearby|]. do 3 (split; [reflexivity|]). split; [exact Integ1Props.ex_scalars|].
  assert (C2 : forall n, chess (/ 4) (n + 2) = chess (/ 4) n).
  { intro n. replace (n + 2)%Z with (n + 1 + 1)%Z by lia. rewrite !chess_next. lra. }
  split; [|split; [|exact S]].
  - split; [intros phi E; discriminate|]. intros i Hi Hi'. destruct (Integ1Props.ex_periodic m) as [_ H]. destruct (H i Hi Hi') as (X1 & _ & X3).
    split; [exact X1|split; [intros _|exact X3]]. cbn [ex_g1 Ctu1Model.Phi Ctu1Model.is Ctu1Model.ie]. unfold ex_phi1. rewrite <- (C2 i). f_equal.
  - cbn [ex_g1 Ctu1Model.Phi Ctu1Model.U Integ1Props.ex_grid]. unfold ex_phi1. split; [|split].
    + split; [rewrite <- C2; f_equal; lia|symmetry; rewrite <- C2; f_equal; lia].
    + rewrite !sum45. unfold chess. cbn. lra.
    + intros i _. unfold diff2. rewrite !sum45. unfold Integ1Props.ex_cell at 2 3. cbn [Z.even cd].
      change (IZR (5 - 4 + 1)) with 2. rewrite chess_next, chess_prev. unfold chess, Integ1Props.ex_cell. destruct (Z.even i); cbn [cd]; lra.
Qed.

(** ** Two dimensions: a flow along x2 on 2 x 2 cells.  The lower row sends half of its mass to the upper one; nothing else moves, and the
    energy pays exactly for the work done in the old potential, which is zero everywhere.  All that the conservation of energy relies on
    holds, and yet the corrected energy is not the initial one. *)
Definition bad_cell (d : R) : cons := Cons d 0 0 0 0 0 0 0 nil.
Definition bad_before : Ctu2Model.grid2 :=
  Ctu2Model.Grid2 4 5 4 5 1 1 1 0 0 0 (fun _ _ => bad_cell 1) (fun _ _ => 0) (fun _ _ => 0) (fun _ _ => 0) (fun _ _ => 0) (fun _ _ => 0) (fun _ _ => 0).
Definition bad_after : Ctu2Model.grid2 :=
  Ctu2Model.Grid2 4 5 4 5 1 1 1 0 0 0 (fun j _ => bad_cell (if Z.even j then / 2 else 3 / 2)) (fun _ _ => 0) (fun _ _ => 0) (fun _ _ => 0) (fun _ _ => 0) (fun _ _ => 0)
    (fun j _ => if Z.even j then 0 else / 2).
Theorem C93_energy_2d_refuted : exists (g h : Ctu2Model.grid2) (P : Z -> Z -> R),
  let Phi := Ctu2Model.Phi g in let d g j i := cd (Ctu2Model.U g j i) in let F1 := Ctu2Model.x1Mass h in let F2 := Ctu2Model.x2Mass h in
  (Ctu2Model.is g = 4 /\ Ctu2Model.ie g = 5 /\ Ctu2Model.js g = 4 /\ Ctu2Model.je g = 5 /\ Ctu2Model.is h = 4 /\ Ctu2Model.ie h = 5 /\ Ctu2Model.js h = 4 /\ Ctu2Model.je h = 5)%Z /\
  Ctu2Model.dt h = 1 /\ Ctu2Model.dx1 h = 1 /\ Ctu2Model.dx2 h = 1 /\ Ctu2Model.Phi h = Phi /\
  (forall n, F1 n 6%Z = F1 n 4%Z /\ F2 6%Z n = F2 4%Z n) /\
  (forall j i, (4 <= j <= 5)%Z -> (4 <= i <= 5)%Z ->
     d h j i = d g j i - (F1 j (i + 1)%Z - F1 j i) - (F2 (j + 1)%Z i - F2 j i) /\
     cE (Ctu2Model.U h j i) = cE (Ctu2Model.U g j i)
       - (F1 j i * (Phi j i - (Phi j (i - 1)%Z + Phi j i) / 2) + F1 j (i + 1)%Z * ((Phi j i + Phi j (i + 1)%Z) / 2 - Phi j i))
       - (F2 j i * (Phi j i - (Phi (j - 1)%Z i + Phi j i) / 2) + F2 (j + 1)%Z i * ((Phi j i + Phi (j + 1)%Z i) / 2 - Phi j i))) /\
  solves2 1 1 1 4 5 4 5 (d g) Phi /\ solves2 1 1 1 4 5 4 5 (d h) P /\
  Selfg2Props.gas2 g (Selfg2Props.corrected2 1 1 h P) (fun u j i => cE u + cd u * P j i / 2) <>
  Selfg2Props.gas2 g (Ctu2Model.U g) (fun u j i => cE u + cd u * Phi j i / 2).
Proof.
  exists bad_before, bad_after, (fun j _ => chess (/ 8) j). cbv zeta.
  assert (C2 : forall n, chess (/ 8) (n + 2) = chess (/ 8) n).
  { intro n. replace (n + 2)%Z with (n + 1 + 1)%Z by lia. rewrite !chess_next. lra. }
  split; [repeat split; reflexivity|]. do 4 (split; [reflexivity|]). split; [intro; split; reflexivity|]. split; [|split; [|split]].
  - intros j i Hj _. cbn [bad_before bad_after Ctu2Model.U Ctu2Model.Phi Ctu2Model.x1Mass Ctu2Model.x2Mass bad_cell cd cE].
    rewrite Z.even_add. change (Z.even 1) with false. destruct (Z.even j); cbn; lra.
  - cbn [bad_before Ctu2Model.U Ctu2Model.Phi bad_cell cd]. split; [repeat split; reflexivity|]. split; [unfold sum2; rewrite !sum45; lra|].
    intros j i _ _. unfold diff2, sum2. rewrite !sum45. change (IZR (5 - 4 + 1)) with 2. lra.
  - cbn [bad_after Ctu2Model.U Ctu2Model.Phi bad_cell cd]. split; [|split].
    + split; [intros j _; split; reflexivity|intros i _; split].
      * rewrite <- C2. f_equal; lia.
      * symmetry. rewrite <- C2. f_equal; lia.
    + unfold sum2. rewrite !sum45. unfold chess. cbn. lra.
    + intros j i _ _. unfold diff2, sum2. rewrite !sum45. cbn [Z.even]. change (IZR (5 - 4 + 1)) with 2. rewrite chess_next, chess_prev. unfold chess.
      destruct (Z.even j); cbn; lra.
  - unfold Selfg2Props.gas2, sum2. cbn [bad_before Ctu2Model.is Ctu2Model.ie Ctu2Model.js Ctu2Model.je]. rewrite !sum45.
    assert (ED : forall j i, cd (Selfg2Props.corrected2 1 1 bad_after (fun j _ => chess (/ 8) j) j i) = cd (Ctu2Model.U bad_after j i)) by (intros; apply Selfg2Props.C93_touches_2d).
    rewrite !ED. rewrite !Selfg2Props.corr_energy by (unfold Selfg2Props.active2; cbn; lia). cbv zeta. unfold Selfg2Props.wk, phi1l2, phi1r2, phi2l2, phi2r2, half.
    cbn [bad_after bad_before Ctu2Model.U Ctu2Model.Phi Ctu2Model.x1Mass Ctu2Model.x2Mass Ctu2Model.dt Ctu2Model.dx1 Ctu2Model.dx2 bad_cell cd cE]. unfold chess. cbn. lra.
Qed.
Print Assumptions C93_energy_2d_refuted.
