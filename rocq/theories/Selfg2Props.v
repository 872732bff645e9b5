(** * C93 in two dimensions: a step with self-gravity and its correction *)
From Coq Require Import Reals ZArith List Bool Lia Lra.
From Verif Require Import GasModel IntegModel IntegSpec IntegFacts SchemeModel SchemeNearby Integ2Spec Integ2Local Integ2Props SelfgModel SelfgSpec SelfgFacts.
From Verif Require Ctu2Model Vl2Model.
Import Ctu2Model (grid2, scratch2, Grid2, Scratch2, is, ie, js, je, dt, dx1, dx2, MinX1, MinX2, X3, U, B1i, B2i, B3i, Phi, x1Mass, x2Mass, x1c, x2c).
Open Scope R_scope.

(** The cells after the correction: [h] is the Grid after the integrator, whose potential is still the old one, and [P] the new potential. *)
Definition corrected2 (G4 mean : R) (h : grid2) (P : Z -> Z -> R) : Z -> Z -> cons :=
  selfg_fc_2d G4 mean (dt h) (dx1 h) (dx2 h) (is h) (ie h) (js h) (je h) P (Phi h) (x1Mass h) (x2Mass h) (U h).
Definition gas2 (g : grid2) (V : Z -> Z -> cons) (f : cons -> Z -> Z -> R) : R :=
  sum2 (js g) (je g) (is g) (ie g) (fun j i => f (V j i) j i).
Definition active2 (g : grid2) (j i : Z) : Prop := (js g <= j <= je g)%Z /\ (is g <= i <= ie g)%Z.
Ltac bla2 := unfold box, active2, nghost in *; lia.

Lemma j_is : forall m sc z g, is (integrate_2d m sc z g) = is g. Proof. intros []; reflexivity. Qed.
Lemma j_ie : forall m sc z g, ie (integrate_2d m sc z g) = ie g. Proof. intros []; reflexivity. Qed.
Lemma j_js : forall m sc z g, js (integrate_2d m sc z g) = js g. Proof. intros []; reflexivity. Qed.
Lemma j_je : forall m sc z g, je (integrate_2d m sc z g) = je g. Proof. intros []; reflexivity. Qed.
Lemma j_dt : forall m sc z g, dt (integrate_2d m sc z g) = dt g. Proof. intros []; reflexivity. Qed.
Lemma j_dx1 : forall m sc z g, dx1 (integrate_2d m sc z g) = dx1 g. Proof. intros []; reflexivity. Qed.
Lemma j_dx2 : forall m sc z g, dx2 (integrate_2d m sc z g) = dx2 g. Proof. intros []; reflexivity. Qed.
Lemma j_Phi : forall m sc z g, Phi (integrate_2d m sc z g) = Phi g. Proof. intros []; reflexivity. Qed.
Ltac geo2 := rewrite ?j_is, ?j_ie, ?j_js, ?j_je, ?j_dt, ?j_dx1, ?j_dx2, ?j_Phi in *.

Lemma step_mass1 : forall m sc z g a j i, s_selfg sc = Some a -> (js g <= j <= je g + 1)%Z -> (is g <= i <= ie g + 1)%Z ->
  x1Mass (integrate_2d m sc z g) j i = ud (flx1 m sc z g j i).
Proof.
  intros m sc z g a j i Hs Hj Hi. destruct m; cbn [integrate_2d flx1].
  - unfold Ctu2Model.integrate_2d_ctu. cbn [x1Mass]. unfold Ctu2Model.mass1. rewrite Hs. now rewrite loop2_in by lia.
  - unfold Vl2Model.integrate_2d_vl. cbn [x1Mass]. unfold Vl2Model.mass1. rewrite Hs. now rewrite loop2_in by lia.
Qed.
Lemma step_mass2 : forall m sc z g a j i, s_selfg sc = Some a -> (js g <= j <= je g + 1)%Z -> (is g <= i <= ie g + 1)%Z ->
  x2Mass (integrate_2d m sc z g) j i = ud (flx2 m sc z g j i).
Proof.
  intros m sc z g a j i Hs Hj Hi. destruct m; cbn [integrate_2d flx2].
  - unfold Ctu2Model.integrate_2d_ctu. cbn [x2Mass]. unfold Ctu2Model.mass2. rewrite Hs. now rewrite loop2_in by lia.
  - unfold Vl2Model.integrate_2d_vl. cbn [x2Mass]. unfold Vl2Model.mass2. rewrite Hs. now rewrite loop2_in by lia.
Qed.

(** Work done by a potential on the mass fluxes a, b of the left and right face, with face values l, r and cell value c. *)
Definition wk (a b c l r : R) : R := a * (c - l) + b * (r - c).
Section Step.
Variables (m : integrator) (sc : scheme) (z : scratch2) (g : grid2) (j i : Z).
Let F1 := flx1 m sc z g. Let F2 := flx2 m sc z g.
Lemma step_energy : forall a, s_grav sc = None -> s_cool sc = None -> s_selfg sc = Some a -> active2 g j i ->
  cE (U (integrate_2d m sc z g) j i) = cE (U g j i)
    - dt g / dx1 g * (ue (F1 j (i + 1)%Z) - ue (F1 j i)) - dt g / dx2 g * (ue (F2 (j + 1)%Z i) - ue (F2 j i))
    - dt g / dx1 g * wk (ud (F1 j i)) (ud (F1 j (i + 1)%Z)) (Phi g j i) (phi1l2 (Phi g) j i) (phi1r2 (Phi g) j i)
    - dt g / dx2 g * wk (ud (F2 j i)) (ud (F2 (j + 1)%Z i)) (Phi g j i) (phi2l2 (Phi g) j i) (phi2r2 (Phi g) j i).
Proof.
  intros [a b] Hg Hc Hs H. unfold F1, F2, wk, phi1l2, phi1r2, phi2l2, phi2r2. destruct m; cbn [integrate_2d flx1 flx2].
  - unfold Ctu2Model.integrate_2d_ctu. cbn [U].
    assert (E : cE (Ctu2Model.U12 sc z g j i) = cE (Ctu2Model.U12b sc z g j i)).
    { unfold Ctu2Model.U12. generalize (Ctu2Model.U12b sc z g) (Ctu2Model.B1i' sc z g) (Ctu2Model.B2i' sc z g). intros.
      destruct (s_mhd sc); rewrite ?loop2_in by bla2; reflexivity. }
    rewrite E. unfold Ctu2Model.U12b, Ctu2Model.U12a, Ctu2Model.U11c. rewrite Hc.
    unfold Ctu2Model.U11b, Ctu2Model.U11b1, Ctu2Model.U11a. rewrite Hs, Hg.
    generalize (Ctu2Model.G1 sc z g) (Ctu2Model.G2 sc z g). intros A1 A2.
    rewrite !loop2_in by bla2. cbv zeta. cbn [upd1 upd2 cE set_E set_M1 set_M2 set_M3]. unfold Ctu2Model.q1, Ctu2Model.q2, Rdiv. ring.
  - unfold Vl2Model.integrate_2d_vl. cbn [U].
    assert (E : cE (Vl2Model.U11 sc z g j i) = cE (U g j i)).
    { unfold Vl2Model.U11. generalize (Vl2Model.B1i' sc z g) (Vl2Model.B2i' sc z g). intros.
      destruct (s_mhd sc); rewrite ?loop2_in by bla2; reflexivity. }
    rewrite <- E. unfold Vl2Model.U13, Vl2Model.U13a, Vl2Model.U12b, Vl2Model.U12b1, Vl2Model.U12a. rewrite Hs, Hg.
    generalize (Vl2Model.G1 sc z g) (Vl2Model.G2 sc z g) (Vl2Model.U11 sc z g). intros A1 A2 A3.
    rewrite !loop2_in by bla2. cbv zeta. cbn [upd1 upd2 cE set_E set_M1 set_M2 set_M3]. unfold Ctu2Model.q1, Ctu2Model.q2, Rdiv. ring.
Qed.
Lemma step_density : forall ns, scalars2 g ns -> (s_mhd sc = true -> centred2 g) -> active2 g j i ->
  cd (U (integrate_2d m sc z g) j i) = cd (U g j i)
    - dt g / dx1 g * (ud (F1 j (i + 1)%Z) - ud (F1 j i)) - dt g / dx2 g * (ud (F2 (j + 1)%Z i) - ud (F2 j i)).
Proof.
  intros ns Hs Hc [Hj Hi]. pose proof (cell_form m sc z g Mass ns j i I Hs ltac:(discriminate) Hc Hj Hi) as C. cbv zeta in C.
  cbn [density] in C. rewrite C. unfold qflx1, qflx2. cbn [gflx1 gflx2 sflx1 sflx2]. unfold F1, F2. ring.
Qed.
End Step.

(** The correction touches the momenta along x1 and x2 and E of the active cells, nothing else. *)
Theorem C93_touches_2d : forall G4 mean h P j i,
  let V := corrected2 G4 mean h P in
  (~ active2 h j i -> V j i = U h j i) /\
  cd (V j i) = cd (U h j i) /\ cM3 (V j i) = cM3 (U h j i) /\
  cB1 (V j i) = cB1 (U h j i) /\ cB2 (V j i) = cB2 (U h j i) /\ cB3 (V j i) = cB3 (U h j i) /\ cs (V j i) = cs (U h j i).
Proof.
  intros G4 mean h P j i V. unfold V, corrected2, selfg_fc_2d, selfg_fc_2d_1.
  assert (D : active2 h j i \/ ~ active2 h j i) by (unfold active2; lia). destruct D as [D|D].
  - rewrite !loop2_in by bla2. cbn [set_E set_M1 set_M2 set_M3 cd cM1 cM2 cM3 cE cB1 cB2 cB3 cs]. split; [intro; contradiction|auto 10].
  - rewrite !loop2_out by bla2. auto 10.
Qed.
Print Assumptions C93_touches_2d.

(** Momentum.  A two-dimensional potential is one that does not depend on x3. *)
Definition flat (P : Z -> Z -> R) : Z -> Z -> Z -> R := fun _ j i => P j i.
Definition mom (b : dir) : quantity := match b with D1 => Mom1 | D2 => Mom2 | D3 => Mom3 end.
Definition hydro (b : dir) (F1 F2 : Z -> Z -> cons1) (a : dir) (j i : Z) : R :=
  match a, b with
  | D1, D1 => umx (F1 j i) | D1, D2 => umy (F1 j i) | D1, D3 => umz (F1 j i)
  | D2, D1 => umz (F2 j i) | D2, D2 => umx (F2 j i) | D2, D3 => umy (F2 j i)
  | D3, _ => 0
  end.
Section Mid.
Variables (P : Z -> Z -> R) (j i : Z).
Ltac mid := unfold phi1l2, phi1r2, phi2l2, phi2r2, half; rewrite ?Z.add_simpl_r; lra.
Lemma fp1l : phi1l2 P j i = (P j (i - 1)%Z + P j i) / 2. Proof. mid. Qed.
Lemma fp1r : phi1r2 P j i = (P j (i + 1 - 1)%Z + P j (i + 1)%Z) / 2. Proof. mid. Qed.
Lemma fp2l : phi2l2 P j i = (P (j - 1)%Z i + P j i) / 2. Proof. mid. Qed.
Lemma fp2r : phi2r2 P j i = (P (j + 1 - 1)%Z i + P (j + 1)%Z i) / 2. Proof. mid. Qed.
End Mid.
Section Faces.
Variables (G4 mean y1 y2 : R) (P : Z -> Z -> R) (k j i : Z).
Ltac face := unfold gx1l2, gx1r2, gy1l2, gy1r2, gx2l2, gx2r2, gy2l2, gy2r2, flat, field, sh, along, same, quarter, Rdiv; rewrite ?Rinv_mult;
  rewrite <- ?Z.add_opp_r; change (- (1))%Z with (-1)%Z; replace (i + 1 + -1)%Z with i by lia; replace (j + 1 + -1)%Z with j by lia;
  set (v1 := / y1); set (v2 := / y2); lra.
Lemma fc11l : gx1l2 y1 P j i = field y1 y2 1 D1 D1 (flat P) k j i. Proof. face. Qed.
Lemma fc11r : gx1r2 y1 P j i = field y1 y2 1 D1 D1 (flat P) k j (i + 1)%Z. Proof. face. Qed.
Lemma fc12l : gy1l2 y2 P j i = field y1 y2 1 D1 D2 (flat P) k j i. Proof. face. Qed.
Lemma fc12r : gy1r2 y2 P j i = field y1 y2 1 D1 D2 (flat P) k j (i + 1)%Z. Proof. face. Qed.
Lemma fc21l : gx2l2 y1 P j i = field y1 y2 1 D2 D1 (flat P) k j i. Proof. face. Qed.
Lemma fc21r : gx2r2 y1 P j i = field y1 y2 1 D2 D1 (flat P) k (j + 1)%Z i. Proof. face. Qed.
Lemma fc22l : gy2l2 y2 P j i = field y1 y2 1 D2 D2 (flat P) k j i. Proof. face. Qed.
Lemma fc22r : gy2r2 y2 P j i = field y1 y2 1 D2 D2 (flat P) k (j + 1)%Z i. Proof. face. Qed.
Lemma fc_3 : forall a, same a D3 = false -> field y1 y2 1 a D3 (flat P) k j i = 0. Proof. intros []; try discriminate; intros _; unfold field, flat, sh, along, same; lra. Qed.
Lemma fc_33 : field y1 y2 1 D3 D3 (flat P) k j i = 0. Proof. unfold field, flat, sh, along, same; lra. Qed.
Lemma st_diag1 : diag2 G4 mean (field y1 y2 1 D1 D1 (flat P) k j i) (field y1 y2 1 D1 D2 (flat P) k j i) ((P j (i - 1)%Z + P j i) / 2) = stress3 G4 mean y1 y2 1 D1 D1 (flat P) k j i.
Proof. unfold stress3. rewrite (fc_3 D1) by reflexivity. unfold diag2, half. cbn [same sh flat]. rewrite <- ?Z.add_opp_r; change (- (1))%Z with (-1)%Z. unfold flat, Rdiv. set (x := / G4). generalize (field y1 y2 1 D1 D1). intros. field. Qed.
Lemma st_diag2 : diag2 G4 mean (field y1 y2 1 D2 D2 (flat P) k j i) (field y1 y2 1 D2 D1 (flat P) k j i) ((P (j - 1)%Z i + P j i) / 2) = stress3 G4 mean y1 y2 1 D2 D2 (flat P) k j i.
Proof. unfold stress3. rewrite (fc_3 D2) by reflexivity. unfold diag2, half. cbn [same sh flat]. rewrite <- ?Z.add_opp_r; change (- (1))%Z with (-1)%Z. unfold flat, Rdiv. set (x := / G4). generalize (field y1 y2 1 D2 D2). intros. field. Qed.
Lemma st_off : forall a b, same a b = false -> field y1 y2 1 a a (flat P) k j i * field y1 y2 1 a b (flat P) k j i / G4 = stress3 G4 mean y1 y2 1 a b (flat P) k j i.
Proof. intros a b E. unfold stress3. rewrite E. ring. Qed.
End Faces.
Lemma st_k : forall G4 mean y1 y2 a b P k k' j i, stress3 G4 mean y1 y2 1 a b (flat P) k j i = stress3 G4 mean y1 y2 1 a b (flat P) k' j i.
Proof. intros. reflexivity. Qed.
Lemma st_a3 : forall G4 mean y1 y2 a P k j i, same a D3 = false -> stress3 G4 mean y1 y2 1 a D3 (flat P) k j i = 0.
Proof. intros. rewrite <- st_off by auto. rewrite (fc_3 y1 y2 P k j i a) by auto. unfold Rdiv. ring. Qed.
Lemma corr_mom : forall G4 mean h P b k j i, active2 h j i ->
  density (mom b) (corrected2 G4 mean h P j i) = density (mom b) (U h j i)
   - dt h / 2 * (div_stress G4 mean (dx1 h) (dx2 h) 1 b (flat P) k j i - div_stress G4 mean (dx1 h) (dx2 h) 1 b (flat (Phi h)) k j i).
Proof.
  intros G4 mean h P b k j i H. unfold corrected2, selfg_fc_2d, selfg_fc_2d_1. rewrite !loop2_in by bla2. cbv zeta.
  generalize (Phi h). intro Q. unfold div_stress. cbn [sh].
  rewrite (st_k _ _ _ _ _ _ P (k + 1)%Z k), (st_k _ _ _ _ _ _ Q (k + 1)%Z k).
  destruct b; cbn [mom density set_E set_M1 set_M2 set_M3 cM1 cM2 cM3].
  3:{ rewrite !(st_a3 _ _ _ _ D1), !(st_a3 _ _ _ _ D2) by reflexivity. unfold Rdiv. ring. }
  all: rewrite ?(fc11l (dx1 h) (dx2 h) P k j i), ?(fc11r (dx1 h) (dx2 h) P k j i), ?(fc12l (dx1 h) (dx2 h) P k j i), ?(fc12r (dx1 h) (dx2 h) P k j i), ?(fp1l P j i), ?(fp1r P j i),
   ?(fc21l (dx1 h) (dx2 h) P k j i), ?(fc21r (dx1 h) (dx2 h) P k j i), ?(fc22l (dx1 h) (dx2 h) P k j i), ?(fc22r (dx1 h) (dx2 h) P k j i), ?(fp2l P j i), ?(fp2r P j i),
   ?(fc11l (dx1 h) (dx2 h) Q k j i), ?(fc11r (dx1 h) (dx2 h) Q k j i), ?(fc12l (dx1 h) (dx2 h) Q k j i), ?(fc12r (dx1 h) (dx2 h) Q k j i), ?(fp1l Q j i), ?(fp1r Q j i),
   ?(fc21l (dx1 h) (dx2 h) Q k j i), ?(fc21r (dx1 h) (dx2 h) Q k j i), ?(fc22l (dx1 h) (dx2 h) Q k j i), ?(fc22r (dx1 h) (dx2 h) Q k j i), ?(fp2l Q j i), ?(fp2r Q j i);
  rewrite ?st_diag1, ?st_diag2, ?(st_off G4 mean) by reflexivity;
  unfold kick, half, Rdiv; set (v1 := / dx1 h); set (v2 := / dx2 h); field.
Qed.
Section Code.
Variables (g : grid2) (k j i : Z).
Ltac cfc := unfold gx1, gy1, gx2, gy2, flat, field, sh, along, same, Rdiv; rewrite ?Rinv_mult; rewrite <- ?Z.add_opp_r; change (- (1))%Z with (-1)%Z;
  set (v1 := / dx1 g); set (v2 := / dx2 g); lra.
Lemma cf11 : gx1 g j i = field (dx1 g) (dx2 g) 1 D1 D1 (flat (Phi g)) k j i. Proof. cfc. Qed.
Lemma cf12 : gy1 g j i = field (dx1 g) (dx2 g) 1 D1 D2 (flat (Phi g)) k j i. Proof. cfc. Qed.
Lemma cf21 : gx2 g j i = field (dx1 g) (dx2 g) 1 D2 D1 (flat (Phi g)) k j i. Proof. cfc. Qed.
Lemma cf22 : gy2 g j i = field (dx1 g) (dx2 g) 1 D2 D2 (flat (Phi g)) k j i. Proof. cfc. Qed.
End Code.
Lemma sflx_stress : forall sc g G4 mean b k j i, s_selfg sc = Some (G4, mean) ->
  sflx1 sc g (mom b) j i = stress3 G4 mean (dx1 g) (dx2 g) 1 D1 b (flat (Phi g)) k j i /\
  sflx2 sc g (mom b) j i = stress3 G4 mean (dx1 g) (dx2 g) 1 D2 b (flat (Phi g)) k j i.
Proof.
  intros sc g G4 mean b k j i Hs. unfold sflx1, sflx2, Integ2Props.stress. rewrite Hs.
  destruct b; cbn [mom]; rewrite ?(cf11 g k), ?(cf12 g k), ?(cf21 g k), ?(cf22 g k); split;
    try (rewrite st_a3 by reflexivity; reflexivity); try (apply st_off; reflexivity); [rewrite <- st_diag1|rewrite <- st_diag2];
    unfold diag2, half; rewrite <- ?Z.add_opp_r; change (- (1))%Z with (-1)%Z; unfold Rdiv; set (x := / G4); field.
Qed.
(** In one step a cell receives, besides the fluxes of the Riemann solver, minus the mean of the divergences of the gravitational
    stress of the old and of the new potential. *)
Theorem C93_stress_2d : forall m sc z g G4 mean P ns b j i,
  s_grav sc = None -> s_selfg sc = Some (G4, mean) -> scalars2 g ns -> (s_mhd sc = true -> centred2 g) -> active2 g j i ->
  let h := integrate_2d m sc z g in let F := hydro b (flx1 m sc z g) (flx2 m sc z g) in
  let T := fun P => div_stress G4 mean (dx1 g) (dx2 g) 1 b (flat P) 0 in
  density (mom b) (corrected2 G4 mean h P j i) = density (mom b) (U g j i)
    - dt g / dx1 g * (F D1 j (i + 1)%Z - F D1 j i) - dt g / dx2 g * (F D2 (j + 1)%Z i - F D2 j i)
    - dt g * ((T (Phi g) j i + T P j i) / 2).
Proof.
  intros m sc z g G4 mean P ns b j i Hg Hs HS Hc H h F T.
  assert (Hu : unsourced2 sc (mom b)) by (destruct b; cbn; auto).
  pose proof (cell_form m sc z g (mom b) ns j i Hu HS ltac:(destruct b; discriminate) Hc (proj1 H) (proj2 H)) as C. cbv zeta in C. fold h in C.
  rewrite (corr_mom G4 mean h P b 0) by (unfold active2, h in *; geo2; exact H). unfold h. geo2. fold h. rewrite C. unfold T, F. clear C Hu T F h.
  assert (E : - dt g / dx1 g * (sflx1 sc g (mom b) j (i + 1) - sflx1 sc g (mom b) j i) - dt g / dx2 g * (sflx2 sc g (mom b) (j + 1) i - sflx2 sc g (mom b) j i)
     = - dt g * div_stress G4 mean (dx1 g) (dx2 g) 1 b (flat (Phi g)) 0 j i).
  { destruct (sflx_stress sc g G4 mean b 0 j i Hs) as (-> & ->).
    destruct (sflx_stress sc g G4 mean b 0 j (i + 1) Hs) as (-> & _). destruct (sflx_stress sc g G4 mean b 0 (j + 1) i Hs) as (_ & ->).
    unfold div_stress. cbn [sh]. rewrite (st_k _ _ _ _ _ _ _ (0 + 1)%Z 0%Z). unfold Rdiv. ring. }
  unfold qflx1, qflx2.
  set (A := div_stress G4 mean (dx1 g) (dx2 g) 1 b (flat (Phi g)) 0 j i) in *. set (B := div_stress G4 mean (dx1 g) (dx2 g) 1 b (flat P) 0 j i). clearbody A B.
  match type of E with ?l = _ => transitivity (density (mom b) (U g j i)
    - dt g / dx1 g * (gflx1 sc (mom b) (flx1 m sc z g) (emf3 m sc z g) j (i + 1) - gflx1 sc (mom b) (flx1 m sc z g) (emf3 m sc z g) j i)
    - dt g / dx2 g * (gflx2 sc (mom b) (flx2 m sc z g) (emf3 m sc z g) (j + 1) i - gflx2 sc (mom b) (flx2 m sc z g) (emf3 m sc z g) j i)
    + l - dt g / 2 * (B - A)) end; [unfold Rdiv; ring|].
  rewrite E. clear E. destruct b; cbn [mom gflx1 gflx2 hydro]; unfold Rdiv; set (v1 := / dx1 g); set (v2 := / dx2 g); field.
Qed.
Print Assumptions C93_stress_2d.

(** The totals of a periodic Grid. *)
Lemma stress_wraps : forall G4 mean y1 y2 lj uj li ui P b k j i, wraps2 lj uj li ui P -> (lj <= j <= uj)%Z -> (li <= i <= ui)%Z ->
  stress3 G4 mean y1 y2 1 D1 b (flat P) k j (ui + 1) = stress3 G4 mean y1 y2 1 D1 b (flat P) k j li /\
  stress3 G4 mean y1 y2 1 D2 b (flat P) k (uj + 1) i = stress3 G4 mean y1 y2 1 D2 b (flat P) k lj i.
Proof.
  intros G4 mean y1 y2 lj uj li ui P b k j i [W1 W2] Hj Hi.
  assert (A1 : forall j, (lj - 1 <= j <= uj + 1)%Z -> P j (li + -1)%Z = P j ui) by (intros j' Hj'; apply (W1 j' Hj')).
  assert (A2 : forall j, (lj - 1 <= j <= uj + 1)%Z -> P j (ui + 1)%Z = P j li) by (intros j' Hj'; apply (W1 j' Hj')).
  assert (B1 : forall i, (li - 1 <= i <= ui + 1)%Z -> P (lj + -1)%Z i = P uj i) by (intros j' Hj'; apply (W2 j' Hj')).
  assert (B2 : forall i, (li - 1 <= i <= ui + 1)%Z -> P (uj + 1)%Z i = P lj i) by (intros j' Hj'; apply (W2 j' Hj')).
  assert (I1 : (ui + 1 + -1 = ui)%Z) by lia. assert (J1 : (uj + 1 + -1 = uj)%Z) by lia. clear W1 W2.
  assert (F1 : forall c, field y1 y2 1 D1 c (flat P) k j (ui + 1) = field y1 y2 1 D1 c (flat P) k j li).
  { intros []; unfold field, sh, flat; cbn [same along]; rewrite I1, !A2, !A1 by lia; reflexivity. }
  assert (F2 : forall c, field y1 y2 1 D2 c (flat P) k (uj + 1) i = field y1 y2 1 D2 c (flat P) k lj i).
  { intros []; unfold field, sh, flat; cbn [same along]; rewrite J1, !B2, !B1 by lia; reflexivity. }
  unfold stress3. rewrite !F1, !F2. unfold sh, flat. rewrite I1, J1, A1, A2, B1, B2 by lia. auto.
Qed.
Lemma periodic_wraps : forall sc g, periodic2 sc g -> (is g <= ie g)%Z -> (js g <= je g)%Z -> s_selfg sc <> None -> wraps2 (js g) (je g) (is g) (ie g) (Phi g).
Proof.
  intros sc g [_ Hp] L1 L2 Hsg. unfold nghost in Hp.
  assert (X : forall j i, (js g - 1 <= j <= je g + 1)%Z -> (is g - 1 <= i <= is g)%Z -> Phi g j (i + (ie g - is g + 1))%Z = Phi g j i).
  { intros j i Hj Hi. destruct (Hp j i ltac:(lia) ltac:(lia)) as (X & _). destruct (X ltac:(lia)) as (_ & Y & _). auto. }
  assert (Y : forall j i, (js g - 1 <= j <= js g)%Z -> (is g - 1 <= i <= ie g + 1)%Z -> Phi g (j + (je g - js g + 1))%Z i = Phi g j i).
  { intros j i Hj Hi. destruct (Hp j i ltac:(lia) ltac:(lia)) as (_ & Y). destruct (Y ltac:(lia)) as (_ & Z & _). auto. }
  split; [intros j Hj; split|intros i Hi; split].
  - rewrite <- (X j (is g - 1)%Z) by lia. f_equal. lia.
  - rewrite <- (X j (is g)) by lia. f_equal. lia.
  - rewrite <- (Y (js g - 1)%Z i) by lia. f_equal. lia.
  - rewrite <- (Y (js g) i) by lia. f_equal. lia.
Qed.
Definition withU (g : grid2) (V : Z -> Z -> cons) : grid2 :=
  Grid2 (is g) (ie g) (js g) (je g) (dt g) (dx1 g) (dx2 g) (MinX1 g) (MinX2 g) (X3 g) V (B1i g) (B2i g) (B3i g) (Phi g) (x1Mass g) (x2Mass g).
Lemma sumZ_null : forall l u f, (forall x, (l <= x <= u)%Z -> f x = 0) -> sumZ l u f = 0.
Proof. intros l u f H. rewrite (sumZ_ext l u f (fun _ => 0)) by auto. apply sumZ_zero. Qed.

(** With periodic boundaries, step and correction together leave the total momentum exactly as it was, whatever the potentials. *)
Theorem C93_momentum_2d : forall m sc z g G4 mean P ns b, nearby (s_lr sc) -> (is g <= ie g)%Z -> (js g <= je g)%Z ->
  s_grav sc = None -> s_selfg sc = Some (G4, mean) -> scalars2 g ns -> (s_mhd sc = true -> centred2 g) -> periodic2 sc g ->
  wraps2 (js g) (je g) (is g) (ie g) P ->
  gas2 g (corrected2 G4 mean (integrate_2d m sc z g) P) (fun u _ _ => density (mom b) u) = gas2 g (U g) (fun u _ _ => density (mom b) u).
Proof.
  intros m sc z g G4 mean P ns b Hlr L1 L2 Hg Hs HS Hc Hp WP.
  assert (Hu : unsourced2 sc (mom b)) by (destruct b; cbn; auto).
  pose proof (C40_periodic_2d m sc z g (mom b) ns Hlr L1 L2 Hu HS ltac:(destruct b; discriminate) Hc Hp) as C.
  pose proof (periodic_wraps sc g Hp L1 L2 ltac:(congruence)) as WQ.
  change (gas2 g (U g) (fun u _ _ => density (mom b) u)) with (total2 (fun u _ _ => density (mom b) u) g). rewrite <- C. clear C.
  set (h := integrate_2d m sc z g).
  set (T := fun a j i => (stress3 G4 mean (dx1 g) (dx2 g) 1 a b (flat P) 0 j i - stress3 G4 mean (dx1 g) (dx2 g) 1 a b (flat (Phi g)) 0 j i)).
  assert (CM : forall j i, (js h <= j <= je h)%Z -> (is h <= i <= ie h)%Z ->
    density (mom b) (U (withU h (corrected2 G4 mean h P)) j i) = density (mom b) (U h j i) - dt g / 2 / dx1 g * (T D1 j (i + 1)%Z - T D1 j i) - dt g / 2 / dx2 g * (T D2 (j + 1)%Z i - T D2 j i)).
  { intros j i Hj Hi. cbn [withU U]. rewrite (corr_mom G4 mean h P b 0) by (split; auto).
    unfold T, div_stress, h. geo2. cbn [sh]. rewrite !(st_k _ _ _ _ _ _ _ (0 + 1)%Z 0%Z). unfold Rdiv. ring. }
  pose proof (tele_total (fun u _ _ => density (mom b) u) (T D1) (T D2) h (withU h (corrected2 G4 mean h P)) (dt g / 2 / dx1 g) (dt g / 2 / dx2 g)
    eq_refl eq_refl eq_refl eq_refl ltac:(unfold h; geo2; lia) ltac:(unfold h; geo2; lia) CM) as TT.
  rewrite !sumZ_null in TT.
  - transitivity (total2 (fun u _ _ => density (mom b) u) (withU h (corrected2 G4 mean h P))).
    + unfold total2, gas2, sum2. cbn [withU U is ie js je]. unfold h. geo2. reflexivity.
    + apply Rminus_diag_uniq. rewrite TT. ring.
  - unfold h. geo2. intros i Hi. unfold T.
    rewrite (proj2 (stress_wraps G4 mean (dx1 g) (dx2 g) _ _ _ _ P b 0 (js g) i WP ltac:(lia) Hi)).
    rewrite (proj2 (stress_wraps G4 mean (dx1 g) (dx2 g) _ _ _ _ (Phi g) b 0 (js g) i WQ ltac:(lia) Hi)). ring.
  - unfold h. geo2. intros j Hj. unfold T.
    rewrite (proj1 (stress_wraps G4 mean (dx1 g) (dx2 g) _ _ _ _ P b 0 j (is g) WP Hj ltac:(lia))).
    rewrite (proj1 (stress_wraps G4 mean (dx1 g) (dx2 g) _ _ _ _ (Phi g) b 0 j (is g) WQ Hj ltac:(lia))). ring.
Qed.
Print Assumptions C93_momentum_2d.

(** Energy.  The potential at the cell is missing from the correction along x2. *)
Lemma corr_energy : forall G4 mean h P j i, active2 h j i -> let Q := Phi h in
  cE (corrected2 G4 mean h P j i) = cE (U h j i)
   - dt h / dx1 h / 2 * (wk (x1Mass h j i) (x1Mass h j (i + 1)%Z) (P j i) (phi1l2 P j i) (phi1r2 P j i) - wk (x1Mass h j i) (x1Mass h j (i + 1)%Z) (Q j i) (phi1l2 Q j i) (phi1r2 Q j i))
   - dt h / dx2 h / 2 * (wk (x2Mass h j i) (x2Mass h (j + 1)%Z i) (P j i) (phi2l2 P j i) (phi2r2 P j i) - wk (x2Mass h j i) (x2Mass h (j + 1)%Z i) (Q j i) (phi2l2 Q j i) (phi2r2 Q j i))
   - dt h / dx2 h / 2 * ((P j i - Q j i) * (x2Mass h (j + 1)%Z i - x2Mass h j i)).
Proof.
  intros G4 mean h P j i H Q. unfold Q; clear Q. unfold corrected2, selfg_fc_2d, selfg_fc_2d_1. rewrite !loop2_in by bla2. cbv zeta.
  cbn [set_E set_M1 set_M2 set_M3 cE]. unfold wk, half, Rdiv. set (v1 := / dx1 h). set (v2 := / dx2 h).
  generalize (phi1l2 P j i) (phi1r2 P j i) (phi2l2 P j i) (phi2r2 P j i) (phi1l2 (Phi h) j i) (phi1r2 (Phi h) j i) (phi2l2 (Phi h) j i) (phi2r2 (Phi h) j i). intros. ring.
Qed.
(** With periodic boundaries, step and correction together change the sum of the energy of the gas and of its gravitational energy
    (half of density times potential) by exactly the sum of the products of the change of the potential and of half of the mass that
    entered the cell through its x2-faces: in two dimensions it is not conserved. *)
Theorem C93_energy_2d_drift : forall m sc z g G4 mean P ns, nearby (s_lr sc) -> (is g <= ie g)%Z -> (js g <= je g)%Z ->
  s_grav sc = None -> s_cool sc = None -> s_selfg sc = Some (G4, mean) -> G4 <> 0 -> scalars2 g ns -> (s_mhd sc = true -> centred2 g) -> periodic2 sc g ->
  let h := integrate_2d m sc z g in let F2 := flx2 m sc z g in
  solves2 G4 (dx1 g) (dx2 g) (js g) (je g) (is g) (ie g) (fun j i => cd (U g j i)) (Phi g) ->
  solves2 G4 (dx1 g) (dx2 g) (js g) (je g) (is g) (ie g) (fun j i => cd (U h j i)) P ->
  gas2 g (corrected2 G4 mean h P) (fun u j i => cE u + cd u * P j i / 2) = gas2 g (U g) (fun u j i => cE u + cd u * Phi g j i / 2)
    - / 2 * (dt g / dx2 g) * sum2 (js g) (je g) (is g) (ie g) (fun j i => (P j i - Phi g j i) * (ud (F2 (j + 1)%Z i) - ud (F2 j i))).
Proof.
  intros m sc z g G4 mean P ns Hlr L1 L2 Hg Hcool Hs G HS Hc Hp h F2 SO SN.
  pose proof (green2 G4 (dx1 g) (dx2 g) _ _ _ _ _ _ _ _ L2 L1 G SO SN) as GR. cbv beta in GR.
  destruct SO as [[WO1 WO2] _], SN as [[WN1 WN2] _].
  set (F1 := flx1 m sc z g).
  set (b := fun j i => (Phi g j i + P j i) / 2).
  set (X := fun j i => ue (F1 j i) + ud (F1 j i) * ((b j (i - 1)%Z + b j i) / 2)).
  set (Y := fun j i => ue (F2 j i) + ud (F2 j i) * ((b (j - 1)%Z i + b j i) / 2)).
  set (L := fun j i => (P j i - Phi g j i) * (ud (F2 (j + 1)%Z i) - ud (F2 j i))).
  assert (HA : forall j i, active2 g j i -> active2 h j i) by (intros; unfold active2, h in *; geo2; auto).
  assert (C : forall j i, (js g <= j <= je g)%Z -> (is g <= i <= ie g)%Z ->
    cE (corrected2 G4 mean h P j i) + b j i * cd (corrected2 G4 mean h P j i) + / 2 * (dt g / dx2 g) * L j i = cE (U g j i) + b j i * cd (U g j i)
    - dt g / dx1 g * (X j (i + 1)%Z - X j i) - dt g / dx2 g * (Y (j + 1)%Z i - Y j i)).
  { intros j i Hj Hi. assert (H : active2 g j i) by (split; auto). destruct (C93_touches_2d G4 mean h P j i) as (_ & -> & _). rewrite corr_energy by auto. cbv zeta. unfold h.
    rewrite (step_mass1 m sc z g (G4, mean) j i Hs), (step_mass1 m sc z g (G4, mean) j (i + 1)%Z Hs), (step_mass2 m sc z g (G4, mean) j i Hs),
      (step_mass2 m sc z g (G4, mean) (j + 1)%Z i Hs) by lia.
    rewrite (step_energy m sc z g j i (G4, mean) Hg Hcool Hs H), (step_density m sc z g j i ns HS Hc H). geo2.
    fold F1 F2. unfold X, Y, L, b, wk, phi1l2, phi1r2, phi2l2, phi2r2, half.
    replace (i + 1 - 1)%Z with i by lia. replace (j + 1 - 1)%Z with j by lia. clearbody F1 F2. clear.
    unfold Rdiv. set (v1 := / dx1 g). set (v2 := / dx2 g). field. }
  set (q := fun (u : cons) j i => cE u + b j i * cd u).
  assert (SX : sumZ (js g) (je g) (fun j => X j (ie g + 1)%Z - X j (is g)) = 0).
  { apply sumZ_null. intros j Hj. unfold X. assert (FP : F1 j (ie g + 1)%Z = F1 j (is g)).
    { unfold F1. apply (flx1_local m sc z z g g j (is g) j (ie g + 1)%Z Hlr); [apply periodic_near1; auto; lia|bla2|bla2]. }
    rewrite FP. replace (ie g + 1 - 1)%Z with (ie g) by lia. unfold b.
    destruct (WO1 j ltac:(lia)) as [-> ->]. destruct (WN1 j ltac:(lia)) as [-> ->]. ring. }
  assert (SY : sumZ (is g) (ie g) (fun i => Y (je g + 1)%Z i - Y (js g) i) = 0).
  { apply sumZ_null. intros i Hi. unfold Y. assert (FP : F2 (je g + 1)%Z i = F2 (js g) i).
    { unfold F2. apply (flx2_local m sc z z g g (js g) i (je g + 1)%Z i Hlr); [apply periodic_near2; auto; lia|bla2|bla2]. }
    rewrite FP. replace (je g + 1 - 1)%Z with (je g) by lia. unfold b.
    destruct (WO2 i ltac:(lia)) as [-> ->]. destruct (WN2 i ltac:(lia)) as [-> ->]. ring. }
  (* a Grid whose energies include the missing term *)
  set (V := fun j i => set_E (corrected2 G4 mean h P j i) (cE (corrected2 G4 mean h P j i) + / 2 * (dt g / dx2 g) * L j i)).
  assert (CV : forall j i, (js g <= j <= je g)%Z -> (is g <= i <= ie g)%Z ->
    q (U (withU g V) j i) j i = q (U g j i) j i - dt g / dx1 g * (X j (i + 1)%Z - X j i) - dt g / dx2 g * (Y (j + 1)%Z i - Y j i)).
  { intros j i Hj Hi. unfold q, V. cbn [withU U set_E cE cd]. rewrite <- (C j i Hj Hi). ring. }
  pose proof (tele_total q X Y g (withU g V) (dt g / dx1 g) (dt g / dx2 g) eq_refl eq_refl eq_refl eq_refl ltac:(lia) ltac:(lia) CV) as TT.
  rewrite SX, SY in TT. clear SX SY C CV.
  assert (A0 : total2 q (withU g V) = gas2 g (corrected2 G4 mean h P) q + / 2 * (dt g / dx2 g) * sum2 (js g) (je g) (is g) (ie g) L).
  { unfold total2. cbn [withU U is ie js je]. fold (sum2 (js g) (je g) (is g) (ie g) (fun j i => q (V j i) j i)).
    unfold gas2. rewrite <- sum2_scal, <- sum2_plus. apply sum2_ext. intros j i _ _. unfold q, V. cbn [set_E cE cd]. ring. }
  rewrite A0 in TT. clear A0. change (total2 q g) with (gas2 g (U g) q) in TT.
  assert (A1 : gas2 g (corrected2 G4 mean h P) (fun u j i => cE u + cd u * P j i / 2) = gas2 g (corrected2 G4 mean h P) q
     - / 2 * sum2 (js g) (je g) (is g) (ie g) (fun j i => cd (U h j i) * Phi g j i)).
  { unfold gas2. rewrite <- sum2_scal, <- sum2_minus. apply sum2_ext. intros j i Hj Hi. destruct (C93_touches_2d G4 mean h P j i) as (_ & Ed & _). unfold q, b. rewrite Ed. field. }
  assert (A2 : gas2 g (U g) (fun u j i => cE u + cd u * Phi g j i / 2) = gas2 g (U g) q
     - / 2 * sum2 (js g) (je g) (is g) (ie g) (fun j i => cd (U g j i) * P j i)).
  { unfold gas2. rewrite <- sum2_scal, <- sum2_minus. apply sum2_ext. intros j i Hj Hi. unfold q, b. field. }
  rewrite A1, A2, GR. unfold Rdiv in *. lra.
Qed.
Print Assumptions C93_energy_2d_drift.
