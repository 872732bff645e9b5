(** * C93 in three dimensions: a step with self-gravity and its correction *)
From Coq Require Import Reals ZArith List Bool Lia Lra.
From Verif Require Import GasModel IntegModel IntegSpec IntegFacts SchemeModel SchemeNearby Integ3Spec Integ3Local Integ3Props SelfgModel SelfgSpec SelfgFacts.
From Verif Require Ctu3Model Vl3Model.
Import Ctu3Model (grid3, scratch3, Grid3, Scratch3, is, ie, js, je, ks, ke, dt, dx1, dx2, dx3, MinX1, MinX2, MinX3, U, B1i, B2i, B3i, Phi,
  x1Mass, x2Mass, x3Mass, x1c, x2c, x3c, work).
Open Scope R_scope.

(** The cells after the correction: [h] is the Grid after the integrator, whose potential is still the old one, and [P] the new potential. *)
Definition corrected3 (G4 mean : R) (h : grid3) (P : Z -> Z -> Z -> R) : Z -> Z -> Z -> cons :=
  selfg_fc_3d G4 mean (dt h) (dx1 h) (dx2 h) (dx3 h) (is h) (ie h) (js h) (je h) (ks h) (ke h) P (Phi h) (x1Mass h) (x2Mass h) (x3Mass h) (U h).
Definition gas3 (g : grid3) (V : Z -> Z -> Z -> cons) (f : cons -> Z -> Z -> Z -> R) : R :=
  sum3 (ks g) (ke g) (js g) (je g) (is g) (ie g) (fun k j i => f (V k j i) k j i).

Lemma step_mass1 : forall m sc z g a k j i, s_selfg sc = Some a -> box g k j i 0 0 0 0 0 1 ->
  x1Mass (integrate_3d m sc z g) k j i = ud (flx1 m sc z g k j i).
Proof.
  intros m sc z g a k j i Hs H. destruct m; cbn [integrate_3d flx1].
  - unfold Ctu3Model.integrate_3d_ctu. cbn [x1Mass]. unfold Ctu3Model.mass1. rewrite Hs. now rewrite loop3_in by bl.
  - unfold Vl3Model.integrate_3d_vl. cbn [x1Mass]. unfold Vl3Model.mass1. rewrite Hs. now rewrite loop3_in by bl.
Qed.
Lemma step_mass2 : forall m sc z g a k j i, s_selfg sc = Some a -> box g k j i 0 0 0 1 0 0 ->
  x2Mass (integrate_3d m sc z g) k j i = ud (flx2 m sc z g k j i).
Proof.
  intros m sc z g a k j i Hs H. destruct m; cbn [integrate_3d flx2].
  - unfold Ctu3Model.integrate_3d_ctu. cbn [x2Mass]. unfold Ctu3Model.mass2. rewrite Hs. now rewrite loop3_in by bl.
  - unfold Vl3Model.integrate_3d_vl. cbn [x2Mass]. unfold Vl3Model.mass2. rewrite Hs. now rewrite loop3_in by bl.
Qed.
Lemma step_mass3 : forall m sc z g a k j i, s_selfg sc = Some a -> box g k j i 0 1 0 0 0 0 ->
  x3Mass (integrate_3d m sc z g) k j i = ud (flx3 m sc z g k j i).
Proof.
  intros m sc z g a k j i Hs H. destruct m; cbn [integrate_3d flx3].
  - unfold Ctu3Model.integrate_3d_ctu. cbn [x3Mass]. unfold Ctu3Model.mass3. rewrite Hs. now rewrite loop3_in by bl.
  - unfold Vl3Model.integrate_3d_vl. cbn [x3Mass]. unfold Vl3Model.mass3. rewrite Hs. now rewrite loop3_in by bl.
Qed.

(** Work done by the potential P on the mass fluxes a, b of the left and right face with face values l, r. *)
Definition wk (a b c l r : R) : R := a * (c - l) + b * (r - c).
Section Step.
Variables (m : integrator) (sc : scheme) (z : scratch3) (g : grid3) (k j i : Z).
Let F1 := flx1 m sc z g. Let F2 := flx2 m sc z g. Let F3 := flx3 m sc z g.
Lemma step_energy : forall a, s_grav sc = None -> s_cool sc = None -> s_selfg sc = Some a -> active3 g k j i ->
  cE (U (integrate_3d m sc z g) k j i) = cE (U g k j i)
    - dt g / dx1 g * (ue (F1 k j (i + 1)%Z) - ue (F1 k j i)) - dt g / dx2 g * (ue (F2 k (j + 1)%Z i) - ue (F2 k j i)) - dt g / dx3 g * (ue (F3 (k + 1)%Z j i) - ue (F3 k j i))
    - dt g / dx1 g * wk (ud (F1 k j i)) (ud (F1 k j (i + 1)%Z)) (Phi g k j i) (phi1l (Phi g) k j i) (phi1r (Phi g) k j i)
    - dt g / dx2 g * wk (ud (F2 k j i)) (ud (F2 k (j + 1)%Z i)) (Phi g k j i) (phi2l (Phi g) k j i) (phi2r (Phi g) k j i)
    - dt g / dx3 g * wk (ud (F3 k j i)) (ud (F3 (k + 1)%Z j i)) (Phi g k j i) (phi3l (Phi g) k j i) (phi3r (Phi g) k j i).
Proof.
  intros [a b] Hg Hc Hs H. unfold F1, F2, F3, wk, phi1l, phi1r, phi2l, phi2r, phi3l, phi3r. destruct m; cbn [integrate_3d flx1 flx2 flx3].
  - unfold Ctu3Model.integrate_3d_ctu. cbn [U].
    assert (E : cE (Ctu3Model.U12 sc z g k j i) = cE (Ctu3Model.U12c sc z g k j i)).
    { unfold Ctu3Model.U12. generalize (Ctu3Model.U12c sc z g) (Ctu3Model.B1i' sc z g) (Ctu3Model.B2i' sc z g) (Ctu3Model.B3i' sc z g). intros.
      destruct (s_mhd sc); rewrite ?loop3_in by bla; reflexivity. }
    rewrite E. unfold Ctu3Model.U12c, Ctu3Model.U12b, Ctu3Model.U12a, Ctu3Model.U11c. rewrite Hc.
    unfold Ctu3Model.U11b, Ctu3Model.U11b2, Ctu3Model.U11b1, Ctu3Model.U11a. rewrite Hs, Hg.
    generalize (Ctu3Model.G1 sc z g) (Ctu3Model.G2 sc z g) (Ctu3Model.G3 sc z g). intros A1 A2 A3.
    rewrite !loop3_in by bla. unfold Ctu3Model.sg1, Ctu3Model.sg2, Ctu3Model.sg3. rewrite ?loop3_in by bla. cbv zeta. cbn [upd1 upd2 upd3 cE set_E set_M1 set_M2 set_M3]. unfold work, Ctu3Model.q1, Ctu3Model.q2, Ctu3Model.q3, Rdiv. ring.
  - unfold Vl3Model.integrate_3d_vl. cbn [U].
    assert (E : cE (Vl3Model.U11 sc z g k j i) = cE (U g k j i)).
    { unfold Vl3Model.U11. generalize (Vl3Model.B1i' sc z g) (Vl3Model.B2i' sc z g) (Vl3Model.B3i' sc z g). intros.
      destruct (s_mhd sc); rewrite ?loop3_in by bla; reflexivity. }
    rewrite <- E. unfold Vl3Model.U13, Vl3Model.U13b, Vl3Model.U13a, Vl3Model.U12b, Vl3Model.U12b2, Vl3Model.U12b1, Vl3Model.U12a. rewrite Hs, Hg.
    generalize (Vl3Model.G1 sc z g) (Vl3Model.G2 sc z g) (Vl3Model.G3 sc z g) (Vl3Model.U11 sc z g). intros A1 A2 A3 A4.
    rewrite !loop3_in by bla. unfold Ctu3Model.sg1, Ctu3Model.sg2, Ctu3Model.sg3. rewrite ?loop3_in by bla. cbv zeta. cbn [upd1 upd2 upd3 cE set_E set_M1 set_M2 set_M3]. unfold work, Ctu3Model.q1, Ctu3Model.q2, Ctu3Model.q3, Rdiv. ring.
Qed.
Lemma step_density : forall ns, scalars3 g ns -> (s_mhd sc = true -> centred3 g) -> active3 g k j i ->
  cd (U (integrate_3d m sc z g) k j i) = cd (U g k j i)
    - dt g / dx1 g * (ud (F1 k j (i + 1)%Z) - ud (F1 k j i)) - dt g / dx2 g * (ud (F2 k (j + 1)%Z i) - ud (F2 k j i)) - dt g / dx3 g * (ud (F3 (k + 1)%Z j i) - ud (F3 k j i)).
Proof.
  intros ns Hs Hc H. pose proof (cell_form m sc z g Mass ns k j i I Hs ltac:(discriminate) Hc H) as C. cbv zeta in C.
  cbn [density] in C. rewrite C. unfold qflx1, qflx2, qflx3. cbn [gflx1 gflx2 gflx3 sflx1 sflx2 sflx3]. unfold F1, F2, F3. ring.
Qed.
End Step.

(** The correction touches the momenta and E of the active cells, nothing else. *)
Theorem C93_touches_3d : forall G4 mean h P k j i,
  let V := corrected3 G4 mean h P in
  (~ active3 h k j i -> V k j i = U h k j i) /\
  cd (V k j i) = cd (U h k j i) /\
  cB1 (V k j i) = cB1 (U h k j i) /\ cB2 (V k j i) = cB2 (U h k j i) /\ cB3 (V k j i) = cB3 (U h k j i) /\ cs (V k j i) = cs (U h k j i).
Proof.
  intros G4 mean h P k j i V. unfold V, corrected3, selfg_fc_3d, selfg_fc_3d_2, selfg_fc_3d_1.
  assert (D : active3 h k j i \/ ~ active3 h k j i) by (unfold active3; lia). destruct D as [D|D].
  - rewrite !loop3_in by bla. cbn [set_E set_M1 set_M2 set_M3 cd cM1 cM2 cM3 cE cB1 cB2 cB3 cs]. split; [intro; contradiction|auto 10].
  - rewrite !loop3_out by bla. auto 10.
Qed.
Print Assumptions C93_touches_3d.

(** Momentum.  The components of momentum and the fluxes of the Riemann solver. *)
Definition mom (b : dir) : quantity := match b with D1 => Mom1 | D2 => Mom2 | D3 => Mom3 end.
Definition hydro (b : dir) (F1 F2 F3 : Z -> Z -> Z -> cons1) (a : dir) (k j i : Z) : R :=
  match a, b with
  | D1, D1 => umx (F1 k j i) | D1, D2 => umy (F1 k j i) | D1, D3 => umz (F1 k j i)
  | D2, D2 => umx (F2 k j i) | D2, D3 => umy (F2 k j i) | D2, D1 => umz (F2 k j i)
  | D3, D3 => umx (F3 k j i) | D3, D1 => umy (F3 k j i) | D3, D2 => umz (F3 k j i)
  end.
(** The expressions of the code are the components of the stress. *)
Section Mid.
Variables (P : Z -> Z -> Z -> R) (k j i : Z).
Ltac mid := unfold phi1l, phi1r, phi2l, phi2r, phi3l, phi3r, sh, half; rewrite <- ?Z.add_opp_r; change (- (1))%Z with (-1)%Z;
  replace (i + 1 + -1)%Z with i by lia; replace (j + 1 + -1)%Z with j by lia; replace (k + 1 + -1)%Z with k by lia; lra.
Lemma fp1l : phi1l P k j i = (sh D1 (-1) P k j i + P k j i) / 2. Proof. mid. Qed.
Lemma fp1r : phi1r P k j i = (sh D1 (-1) P k j (i + 1)%Z + P k j (i + 1)%Z) / 2. Proof. mid. Qed.
Lemma fp2l : phi2l P k j i = (sh D2 (-1) P k j i + P k j i) / 2. Proof. mid. Qed.
Lemma fp2r : phi2r P k j i = (sh D2 (-1) P k (j + 1)%Z i + P k (j + 1)%Z i) / 2. Proof. mid. Qed.
Lemma fp3l : phi3l P k j i = (sh D3 (-1) P k j i + P k j i) / 2. Proof. mid. Qed.
Lemma fp3r : phi3r P k j i = (sh D3 (-1) P (k + 1)%Z j i + P (k + 1)%Z j i) / 2. Proof. mid. Qed.
End Mid.
Section Faces.
Variables (G4 mean y1 y2 y3 : R) (P : Z -> Z -> Z -> R) (k j i : Z).
Ltac face := unfold gx1l, gx1r, gy1l, gy1r, gz1l, gz1r, phi1l, phi1r, gx2l, gx2r, gy2l, gy2r, gz2l, gz2r, phi2l, phi2r, gx3l, gx3r, gy3l, gy3r, gz3l, gz3r, phi3l, phi3r,
  field, sh, along, same, quarter, half, Rdiv; rewrite ?Rinv_mult; rewrite <- ?Z.add_opp_r; change (- (1))%Z with (-1)%Z;
  replace (i + 1 + -1)%Z with i by lia; replace (j + 1 + -1)%Z with j by lia; replace (k + 1 + -1)%Z with k by lia;
  set (v1 := / y1); set (v2 := / y2); set (v3 := / y3); lra.
Lemma fc11l : gx1l y1 P k j i = field y1 y2 y3 D1 D1 P k j i. Proof. face. Qed.
Lemma fc11r : gx1r y1 P k j i = field y1 y2 y3 D1 D1 P k j (i + 1)%Z. Proof. face. Qed.
Lemma fc12l : gy1l y2 P k j i = field y1 y2 y3 D1 D2 P k j i. Proof. face. Qed.
Lemma fc12r : gy1r y2 P k j i = field y1 y2 y3 D1 D2 P k j (i + 1)%Z. Proof. face. Qed.
Lemma fc13l : gz1l y3 P k j i = field y1 y2 y3 D1 D3 P k j i. Proof. face. Qed.
Lemma fc13r : gz1r y3 P k j i = field y1 y2 y3 D1 D3 P k j (i + 1)%Z. Proof. face. Qed.
Lemma fc21l : gx2l y1 P k j i = field y1 y2 y3 D2 D1 P k j i. Proof. face. Qed.
Lemma fc21r : gx2r y1 P k j i = field y1 y2 y3 D2 D1 P k (j + 1)%Z i. Proof. face. Qed.
Lemma fc22l : gy2l y2 P k j i = field y1 y2 y3 D2 D2 P k j i. Proof. face. Qed.
Lemma fc22r : gy2r y2 P k j i = field y1 y2 y3 D2 D2 P k (j + 1)%Z i. Proof. face. Qed.
Lemma fc23l : gz2l y3 P k j i = field y1 y2 y3 D2 D3 P k j i. Proof. face. Qed.
Lemma fc23r : gz2r y3 P k j i = field y1 y2 y3 D2 D3 P k (j + 1)%Z i. Proof. face. Qed.
Lemma fc31l : gx3l y1 P k j i = field y1 y2 y3 D3 D1 P k j i. Proof. face. Qed.
Lemma fc31r : gx3r y1 P k j i = field y1 y2 y3 D3 D1 P (k + 1)%Z j i. Proof. face. Qed.
Lemma fc32l : gy3l y2 P k j i = field y1 y2 y3 D3 D2 P k j i. Proof. face. Qed.
Lemma fc32r : gy3r y2 P k j i = field y1 y2 y3 D3 D2 P (k + 1)%Z j i. Proof. face. Qed.
Lemma fc33l : gz3l y3 P k j i = field y1 y2 y3 D3 D3 P k j i. Proof. face. Qed.
Lemma fc33r : gz3r y3 P k j i = field y1 y2 y3 D3 D3 P (k + 1)%Z j i. Proof. face. Qed.
Lemma st_diag1 : diag3 G4 mean (field y1 y2 y3 D1 D1 P k j i) (field y1 y2 y3 D1 D2 P k j i) (field y1 y2 y3 D1 D3 P k j i) ((sh D1 (-1) P k j i + P k j i) / 2) = stress3 G4 mean y1 y2 y3 D1 D1 P k j i.
Proof. unfold stress3, diag3, half. cbn [same]. generalize (field y1 y2 y3 D1 D1 P k j i) (field y1 y2 y3 D1 D2 P k j i) (field y1 y2 y3 D1 D3 P k j i). intros. unfold Rdiv. set (x := / G4). field. Qed.
Lemma st_diag2 : diag3 G4 mean (field y1 y2 y3 D2 D2 P k j i) (field y1 y2 y3 D2 D1 P k j i) (field y1 y2 y3 D2 D3 P k j i) ((sh D2 (-1) P k j i + P k j i) / 2) = stress3 G4 mean y1 y2 y3 D2 D2 P k j i.
Proof. unfold stress3, diag3, half. cbn [same]. generalize (field y1 y2 y3 D2 D1 P k j i) (field y1 y2 y3 D2 D2 P k j i) (field y1 y2 y3 D2 D3 P k j i). intros. unfold Rdiv. set (x := / G4). field. Qed.
Lemma st_diag3 : diag3 G4 mean (field y1 y2 y3 D3 D3 P k j i) (field y1 y2 y3 D3 D1 P k j i) (field y1 y2 y3 D3 D2 P k j i) ((sh D3 (-1) P k j i + P k j i) / 2) = stress3 G4 mean y1 y2 y3 D3 D3 P k j i.
Proof. unfold stress3, diag3, half. cbn [same]. generalize (field y1 y2 y3 D3 D1 P k j i) (field y1 y2 y3 D3 D2 P k j i) (field y1 y2 y3 D3 D3 P k j i). intros. unfold Rdiv. set (x := / G4). field. Qed.
Lemma st_off : forall a b, same a b = false -> field y1 y2 y3 a a P k j i * field y1 y2 y3 a b P k j i / G4 = stress3 G4 mean y1 y2 y3 a b P k j i.
Proof. intros a b E. unfold stress3. rewrite E. ring. Qed.
End Faces.
Lemma corr_mom : forall G4 mean h P b k j i, active3 h k j i ->
  density (mom b) (corrected3 G4 mean h P k j i) = density (mom b) (U h k j i)
   - dt h / 2 * (div_stress G4 mean (dx1 h) (dx2 h) (dx3 h) b P k j i - div_stress G4 mean (dx1 h) (dx2 h) (dx3 h) b (Phi h) k j i).
Proof.
  intros G4 mean h P b k j i H. unfold corrected3, selfg_fc_3d, selfg_fc_3d_2, selfg_fc_3d_1. rewrite !loop3_in by bla. cbv zeta.
  generalize (Phi h). intro Q. unfold div_stress. cbn [sh].
  destruct b; cbn [mom density set_E set_M1 set_M2 set_M3 cM1 cM2 cM3];
  rewrite ?(fc11l (dx1 h) (dx2 h) (dx3 h) P k j i), ?(fc11r (dx1 h) (dx2 h) (dx3 h) P k j i), ?(fc12l (dx1 h) (dx2 h) (dx3 h) P k j i), ?(fc12r (dx1 h) (dx2 h) (dx3 h) P k j i), ?(fc13l (dx1 h) (dx2 h) (dx3 h) P k j i), ?(fc13r (dx1 h) (dx2 h) (dx3 h) P k j i), ?(fp1l P k j i), ?(fp1r P k j i), ?(fc21l (dx1 h) (dx2 h) (dx3 h) P k j i), ?(fc21r (dx1 h) (dx2 h) (dx3 h) P k j i), ?(fc22l (dx1 h) (dx2 h) (dx3 h) P k j i), ?(fc22r (dx1 h) (dx2 h) (dx3 h) P k j i), ?(fc23l (dx1 h) (dx2 h) (dx3 h) P k j i), ?(fc23r (dx1 h) (dx2 h) (dx3 h) P k j i), ?(fp2l P k j i), ?(fp2r P k j i), ?(fc31l (dx1 h) (dx2 h) (dx3 h) P k j i), ?(fc31r (dx1 h) (dx2 h) (dx3 h) P k j i), ?(fc32l (dx1 h) (dx2 h) (dx3 h) P k j i), ?(fc32r (dx1 h) (dx2 h) (dx3 h) P k j i), ?(fc33l (dx1 h) (dx2 h) (dx3 h) P k j i), ?(fc33r (dx1 h) (dx2 h) (dx3 h) P k j i), ?(fp3l P k j i), ?(fp3r P k j i), ?(fc11l (dx1 h) (dx2 h) (dx3 h) Q k j i), ?(fc11r (dx1 h) (dx2 h) (dx3 h) Q k j i), ?(fc12l (dx1 h) (dx2 h) (dx3 h) Q k j i), ?(fc12r (dx1 h) (dx2 h) (dx3 h) Q k j i), ?(fc13l (dx1 h) (dx2 h) (dx3 h) Q k j i), ?(fc13r (dx1 h) (dx2 h) (dx3 h) Q k j i), ?(fp1l Q k j i), ?(fp1r Q k j i), ?(fc21l (dx1 h) (dx2 h) (dx3 h) Q k j i), ?(fc21r (dx1 h) (dx2 h) (dx3 h) Q k j i), ?(fc22l (dx1 h) (dx2 h) (dx3 h) Q k j i), ?(fc22r (dx1 h) (dx2 h) (dx3 h) Q k j i), ?(fc23l (dx1 h) (dx2 h) (dx3 h) Q k j i), ?(fc23r (dx1 h) (dx2 h) (dx3 h) Q k j i), ?(fp2l Q k j i), ?(fp2r Q k j i), ?(fc31l (dx1 h) (dx2 h) (dx3 h) Q k j i), ?(fc31r (dx1 h) (dx2 h) (dx3 h) Q k j i), ?(fc32l (dx1 h) (dx2 h) (dx3 h) Q k j i), ?(fc32r (dx1 h) (dx2 h) (dx3 h) Q k j i), ?(fc33l (dx1 h) (dx2 h) (dx3 h) Q k j i), ?(fc33r (dx1 h) (dx2 h) (dx3 h) Q k j i), ?(fp3l Q k j i), ?(fp3r Q k j i);
  rewrite ?st_diag1, ?st_diag2, ?st_diag3, ?(st_off G4 mean) by reflexivity;
  unfold kick, half, Rdiv; set (y1 := / dx1 h); set (y2 := / dx2 h); set (y3 := / dx3 h); field.
Qed.
Section Code.
Variables (g : grid3) (k j i : Z).
Ltac cfc := unfold Ctu3Model.g11, Ctu3Model.g12, Ctu3Model.g13, Ctu3Model.g21, Ctu3Model.g22, Ctu3Model.g23, Ctu3Model.g31, Ctu3Model.g32, Ctu3Model.g33, Ctu3Model.dx1i, Ctu3Model.dx2i, Ctu3Model.dx3i,
  field, sh, along, same, Rdiv; rewrite ?Rinv_mult; rewrite <- ?Z.add_opp_r; change (- (1))%Z with (-1)%Z;
  set (v1 := / dx1 g); set (v2 := / dx2 g); set (v3 := / dx3 g); lra.
Lemma cf11 : Ctu3Model.g11 g k j i = field (dx1 g) (dx2 g) (dx3 g) D1 D1 (Phi g) k j i. Proof. cfc. Qed.
Lemma cf12 : Ctu3Model.g12 g k j i = field (dx1 g) (dx2 g) (dx3 g) D1 D2 (Phi g) k j i. Proof. cfc. Qed.
Lemma cf13 : Ctu3Model.g13 g k j i = field (dx1 g) (dx2 g) (dx3 g) D1 D3 (Phi g) k j i. Proof. cfc. Qed.
Lemma cf21 : Ctu3Model.g21 g k j i = field (dx1 g) (dx2 g) (dx3 g) D2 D1 (Phi g) k j i. Proof. cfc. Qed.
Lemma cf22 : Ctu3Model.g22 g k j i = field (dx1 g) (dx2 g) (dx3 g) D2 D2 (Phi g) k j i. Proof. cfc. Qed.
Lemma cf23 : Ctu3Model.g23 g k j i = field (dx1 g) (dx2 g) (dx3 g) D2 D3 (Phi g) k j i. Proof. cfc. Qed.
Lemma cf31 : Ctu3Model.g31 g k j i = field (dx1 g) (dx2 g) (dx3 g) D3 D1 (Phi g) k j i. Proof. cfc. Qed.
Lemma cf32 : Ctu3Model.g32 g k j i = field (dx1 g) (dx2 g) (dx3 g) D3 D2 (Phi g) k j i. Proof. cfc. Qed.
Lemma cf33 : Ctu3Model.g33 g k j i = field (dx1 g) (dx2 g) (dx3 g) D3 D3 (Phi g) k j i. Proof. cfc. Qed.
End Code.
Lemma sflx_stress : forall sc g G4 mean b k j i, s_selfg sc = Some (G4, mean) ->
  sflx1 sc g (mom b) k j i = stress3 G4 mean (dx1 g) (dx2 g) (dx3 g) D1 b (Phi g) k j i /\
  sflx2 sc g (mom b) k j i = stress3 G4 mean (dx1 g) (dx2 g) (dx3 g) D2 b (Phi g) k j i /\
  sflx3 sc g (mom b) k j i = stress3 G4 mean (dx1 g) (dx2 g) (dx3 g) D3 b (Phi g) k j i.
Proof.
  intros sc g G4 mean b k j i Hs. unfold sflx1, sflx2, sflx3, Integ3Props.stress. rewrite Hs.
  destruct b; cbn [mom]; rewrite ?cf11, ?cf12, ?cf13, ?cf21, ?cf22, ?cf23, ?cf31, ?cf32, ?cf33; repeat split;
    try (apply st_off; reflexivity); [rewrite <- st_diag1|rewrite <- st_diag2|rewrite <- st_diag3];
    unfold Ctu3Model.diag, diag3; cbn [sh]; unfold half; rewrite <- ?Z.add_opp_r; change (- (1))%Z with (-1)%Z; unfold Rdiv; set (x := / G4); field.
Qed.
(** In one step a cell receives, besides the fluxes of the Riemann solver, minus the mean of the divergences of the gravitational
    stress of the old and of the new potential. *)
Theorem C93_stress_3d : forall m sc z g G4 mean P ns b k j i,
  s_grav sc = None -> s_selfg sc = Some (G4, mean) -> scalars3 g ns -> (s_mhd sc = true -> centred3 g) -> active3 g k j i ->
  let h := integrate_3d m sc z g in let F := hydro b (flx1 m sc z g) (flx2 m sc z g) (flx3 m sc z g) in
  let T := div_stress G4 mean (dx1 g) (dx2 g) (dx3 g) b in
  density (mom b) (corrected3 G4 mean h P k j i) = density (mom b) (U g k j i)
    - dt g / dx1 g * (F D1 k j (i + 1)%Z - F D1 k j i) - dt g / dx2 g * (F D2 k (j + 1)%Z i - F D2 k j i) - dt g / dx3 g * (F D3 (k + 1)%Z j i - F D3 k j i)
    - dt g * ((T (Phi g) k j i + T P k j i) / 2).
Proof.
  intros m sc z g G4 mean P ns b k j i Hg Hs HS Hc H h F T.
  assert (Hu : unsourced3 sc (mom b)) by (destruct b; cbn; auto).
  pose proof (cell_form m sc z g (mom b) ns k j i Hu HS ltac:(destruct b; discriminate) Hc H) as C. cbv zeta in C. fold h in C.
  rewrite corr_mom by (unfold active3, h in *; geo; exact H). unfold h. geo. fold h. rewrite C. unfold T, F. clear C Hu T F h.
  assert (E : forall b, - dt g / dx1 g * (sflx1 sc g (mom b) k j (i + 1) - sflx1 sc g (mom b) k j i) - dt g / dx2 g * (sflx2 sc g (mom b) k (j + 1) i - sflx2 sc g (mom b) k j i)
    - dt g / dx3 g * (sflx3 sc g (mom b) (k + 1) j i - sflx3 sc g (mom b) k j i) = - dt g * div_stress G4 mean (dx1 g) (dx2 g) (dx3 g) b (Phi g) k j i).
  { clear b. intro b. destruct (sflx_stress sc g G4 mean b k j i Hs) as (-> & -> & ->).
    destruct (sflx_stress sc g G4 mean b k j (i + 1) Hs) as (-> & _ & _). destruct (sflx_stress sc g G4 mean b k (j + 1) i Hs) as (_ & -> & _).
    destruct (sflx_stress sc g G4 mean b (k + 1) j i Hs) as (_ & _ & ->). unfold div_stress. cbn [sh]. unfold Rdiv. ring. }
  specialize (E b). unfold qflx1, qflx2, qflx3.
  set (A := div_stress G4 mean (dx1 g) (dx2 g) (dx3 g) b (Phi g) k j i) in *. set (B := div_stress G4 mean (dx1 g) (dx2 g) (dx3 g) b P k j i). clearbody A B.
  match type of E with ?l = _ => transitivity (density (mom b) (U g k j i)
    - dt g / dx1 g * (gflx1 sc (mom b) (flx1 m sc z g) (emf1 m sc z g) (emf2 m sc z g) (emf3 m sc z g) k j (i + 1) - gflx1 sc (mom b) (flx1 m sc z g) (emf1 m sc z g) (emf2 m sc z g) (emf3 m sc z g) k j i)
    - dt g / dx2 g * (gflx2 sc (mom b) (flx2 m sc z g) (emf1 m sc z g) (emf2 m sc z g) (emf3 m sc z g) k (j + 1) i - gflx2 sc (mom b) (flx2 m sc z g) (emf1 m sc z g) (emf2 m sc z g) (emf3 m sc z g) k j i)
    - dt g / dx3 g * (gflx3 sc (mom b) (flx3 m sc z g) (emf1 m sc z g) (emf2 m sc z g) (emf3 m sc z g) (k + 1) j i - gflx3 sc (mom b) (flx3 m sc z g) (emf1 m sc z g) (emf2 m sc z g) (emf3 m sc z g) k j i)
    + l - dt g / 2 * (B - A)) end; [unfold Rdiv; ring|].
  rewrite E. clear E. destruct b; cbn [mom gflx1 gflx2 gflx3 hydro]; unfold Rdiv; set (y1 := / dx1 g); set (y2 := / dx2 g); set (y3 := / dx3 g); field.
Qed.
Print Assumptions C93_stress_3d.
