(** * Resistivity: the electromotive forces depend only on the data around an edge *)
From Coq Require Import Reals ZArith List Bool Lia Lra Psatz.
From Verif Require Import GasModel ConvProps IntegModel IntegSpec IntegFacts Ctu3Model Integ3Spec Integ3Props CondModel DiffSpec CondProps OhmModel OhmProps.
Open Scope R_scope.

(** F around (k,j,i) and F' around (k',j',i') agree for offsets in the given ranges. *)
Definition ag (k j i k' j' i' : Z) (F F' : Z -> Z -> Z -> R) (ka kb ja jb ia ib : Z) : Prop :=
  forall dk dj di, (ka <= dk <= kb)%Z -> (ja <= dj <= jb)%Z -> (ia <= di <= ib)%Z -> F' (k' + dk)%Z (j' + dj)%Z (i' + di)%Z = F (k + dk)%Z (j + dj)%Z (i + di)%Z.
Lemma ag_use : forall k j i k' j' i' F F' ka kb ja jb ia ib, ag k j i k' j' i' F F' ka kb ja jb ia ib -> forall p q r p' q' r',
  (p' - k' = p - k)%Z -> (q' - j' = q - j)%Z -> (r' - i' = r - i)%Z -> (ka <= p - k <= kb)%Z -> (ja <= q - j <= jb)%Z -> (ia <= r - i <= ib)%Z -> F' p' q' r' = F p q r.
Proof.
  intros k j i k' j' i' F F' ka kb ja jb ia ib A p q r p' q' r' H1 H2 H3 H4 H5 H6. specialize (A _ _ _ H4 H5 H6).
  replace p' with (k' + (p - k))%Z by lia. replace q' with (j' + (q - j))%Z by lia. replace r' with (i' + (r - i))%Z by lia. rewrite A. f_equal; lia.
Qed.
Ltac acong := lazymatch goal with
  | |- ?x = ?x => reflexivity
  | |- ?F' ?a ?b ?d = ?F ?a' ?b' ?d' =>
      first [ match goal with H : ag _ _ _ _ _ _ F F' _ _ _ _ _ _ |- _ => eapply (ag_use _ _ _ _ _ _ _ _ _ _ _ _ _ _ H); lia end
            | first [assumption | symmetry; assumption | f_equal; acong] ]
  | |- _ => first [assumption | symmetry; assumption | f_equal; acong]
  end.
Ltac inloop := first [rewrite !loop3_two by lia | rewrite !loop3_in by lia].
Ltac layer := let dk := fresh "dk" in let dj := fresh "dj" in let di := fresh "di" in let Hk := fresh "Hk" in let Hj := fresh "Hj" in let Hi := fresh "Hi" in
  intros dk dj di Hk Hj Hi.

Section Dim3.
Variables (c : dcfg) (h : R) (z z' : rscratch) (e e' : etas) (g g' : grid3) (k j i k' j' i' : Z).
Hypothesis (Tw : two c = true) (Th : three c = true).
Hypothesis (Ci : (is g <= i <= ie g + 1)%Z) (Cj : (js g <= j <= je g + 1)%Z) (Ck : (ks g <= k <= ke g + 1)%Z).
Hypothesis (Ci' : (is g' <= i' <= ie g' + 1)%Z) (Cj' : (js g' <= j' <= je g' + 1)%Z) (Ck' : (ks g' <= k' <= ke g' + 1)%Z).
Hypothesis (X1 : dx1 g' = dx1 g) (X2 : dx2 g' = dx2 g) (X3 : dx3 g' = dx3 g).
Notation AG F F' a b c0 d e0 f0 := (ag k j i k' j' i' F F' a b c0 d e0 f0).
Hypothesis (L3_b1 : AG (b1c g) (b1c g') (-4) 3 (-4) 3 (-4) 3).
Hypothesis (L3_b2 : AG (b2c g) (b2c g') (-4) 3 (-4) 3 (-4) 3).
Hypothesis (L3_b3 : AG (b3c g) (b3c g') (-4) 3 (-4) 3 (-4) 3).
Hypothesis (L3_B1 : AG (B1i g) (B1i g') (-4) 3 (-4) 3 (-3) 3).
Hypothesis (L3_B2 : AG (B2i g) (B2i g') (-4) 3 (-3) 3 (-4) 3).
Hypothesis (L3_B3 : AG (B3i g) (B3i g') (-3) 3 (-4) 3 (-4) 3).
Hypothesis (L3_O : AG (e_O e) (e_O e') (-4) 3 (-4) 3 (-4) 3).
Hypothesis (L3_H : AG (e_H e) (e_H e') (-4) 3 (-4) 3 (-4) 3).
Hypothesis (L3_A : AG (e_A e) (e_A e') (-4) 3 (-4) 3 (-4) 3).
Lemma L3_J1 : AG (J1 c z g) (J1 c z' g') (-3) 3 (-3) 3 (-4) 3.
Proof. layer. unfold J1; rewrite ?Tw, ?Th; cbv beta zeta; inloop; unfold cur1, cur2, cur3, d1, d2, t1, t2, t3, s21, s31, s12, s32, s13, s23, av1, av2, av3, av12, av13, av23, q1, q2, q3; cbv beta; acong. Qed.
Lemma L3_J2 : AG (J2 c z g) (J2 c z' g') (-3) 3 (-4) 3 (-3) 3.
Proof. layer. unfold J2; rewrite ?Tw, ?Th; cbv beta zeta; inloop; unfold cur1, cur2, cur3, d1, d2, t1, t2, t3, s21, s31, s12, s32, s13, s23, av1, av2, av3, av12, av13, av23, q1, q2, q3; cbv beta; acong. Qed.
Lemma L3_J3 : AG (J3 c z g) (J3 c z' g') (-4) 3 (-3) 3 (-3) 3.
Proof. layer. unfold J3; rewrite ?Tw, ?Th; cbv beta zeta; inloop; unfold cur1, cur2, cur3, d1, d2, t1, t2, t3, s21, s31, s12, s32, s13, s23, av1, av2, av3, av12, av13, av23, q1, q2, q3; cbv beta; acong. Qed.
Lemma L3_ez : forall o o', AG (ez c g o) (ez c g' o') (-4) 3 (-4) 3 (-4) 3.
Proof. intros o o'. layer. unfold ez, rkl, rku, rjl, rju. rewrite Tw, Th. rewrite !loop3_in by lia. reflexivity. Qed.
Section HallOn.
Hypothesis (Ho : hall c = true).
Lemma L3_hz : forall o o', AG (hz c g o) (hz c g' o') (-4) 3 (-4) 3 (-4) 3.
Proof. intros o o'. layer. unfold hz, rkl, rku, rjl, rju. rewrite Ho, Tw, Th. rewrite !loop3_in by lia. reflexivity. Qed.
Lemma L3_bz1 : AG (bz c g (B1i g) (z_b1 z)) (bz c g' (B1i g') (z_b1 z')) (-4) 3 (-4) 3 (-3) 3.
Proof. layer. unfold bz, rkl, rku, rjl, rju. rewrite Ho, Tw, Th. rewrite !loop3_in by lia. acong. Qed.
Lemma L3_bz2 : AG (bz c g (B2i g) (z_b2 z)) (bz c g' (B2i g') (z_b2 z')) (-4) 3 (-3) 3 (-4) 3.
Proof. layer. unfold bz, rkl, rku, rjl, rju. rewrite Ho, Tw, Th. rewrite !loop3_in by lia. acong. Qed.
Lemma L3_bz3 : AG (bz c g (B3i g) (z_b3 z)) (bz c g' (B3i g') (z_b3 z')) (-3) 3 (-4) 3 (-4) 3.
Proof. layer. unfold bz, rkl, rku, rjl, rju. rewrite Ho, Tw, Th. rewrite !loop3_in by lia. acong. Qed.
Lemma L3_eH : AG (eH c e g) (eH c e' g') (-4) 3 (-4) 3 (-4) 3.
Proof. layer. unfold eH, rkl, rku, rjl, rju. rewrite Tw, Th. rewrite !loop3_in by lia. acong. Qed.
Lemma L3_h31 : AG (h3_1 c z e g) (h3_1 c z' e' g') (-3) 3 (-3) 3 (-3) 2.
Proof. pose proof L3_J2; pose proof L3_J3; pose proof L3_eH; pose proof L3_bz1; pose proof L3_bz2; pose proof L3_bz3; pose proof (L3_hz (z_h2 z) (z_h2 z')). layer. unfold h3_1; rewrite ?Tw, ?Th; cbv beta zeta; inloop; unfold cur1, cur2, cur3, d1, d2, t1, t2, t3, s21, s31, s12, s32, s13, s23, av1, av2, av3, av12, av13, av23, q1, q2, q3; cbv beta; acong. Qed.
Lemma L3_b32 : AG (b3_2 c h z e g) (b3_2 c h z' e' g') (-3) 2 (-3) 2 (-3) 2.
Proof. pose proof L3_J2; pose proof L3_J3; pose proof L3_eH; pose proof L3_bz1; pose proof L3_bz2; pose proof L3_bz3; pose proof (L3_hz (z_h2 z) (z_h2 z')). pose proof L3_h31. layer. unfold b3_2; rewrite ?Tw, ?Th; cbv beta zeta; inloop; unfold cur1, cur2, cur3, d1, d2, t1, t2, t3, s21, s31, s12, s32, s13, s23, av1, av2, av3, av12, av13, av23, q1, q2, q3; cbv beta; acong. Qed.
Lemma L3_b33 : AG (b3_3 c h z e g) (b3_3 c h z' e' g') (-3) 2 (-3) 2 (-3) 2.
Proof. pose proof L3_J2; pose proof L3_J3; pose proof L3_eH; pose proof L3_bz1; pose proof L3_bz2; pose proof L3_bz3; pose proof (L3_hz (z_h2 z) (z_h2 z')). pose proof L3_h31. layer. unfold b3_3; rewrite ?Tw, ?Th; cbv beta zeta; inloop; unfold cur1, cur2, cur3, d1, d2, t1, t2, t3, s21, s31, s12, s32, s13, s23, av1, av2, av3, av12, av13, av23, q1, q2, q3; cbv beta; acong. Qed.
Lemma L3_b31 : AG (b3_1 c z g) (b3_1 c z' g') (-4) 3 (-4) 3 (-3) 3.
Proof. exact L3_bz1. Qed.
Lemma L3_j31 : AG (j3_1 c h z e g) (j3_1 c h z' e' g') (-2) 2 (-2) 2 (-3) 2.
Proof. pose proof L3_J2; pose proof L3_J3; pose proof L3_eH; pose proof L3_bz1; pose proof L3_bz2; pose proof L3_bz3; pose proof (L3_hz (z_h2 z) (z_h2 z')). pose proof L3_b32; pose proof L3_b33. layer. unfold j3_1; rewrite ?Tw, ?Th; cbv beta zeta; inloop; unfold cur1, cur2, cur3, d1, d2, t1, t2, t3, s21, s31, s12, s32, s13, s23, av1, av2, av3, av12, av13, av23, q1, q2, q3; cbv beta; acong. Qed.
Lemma L3_j32 : AG (j3_2 c h z e g) (j3_2 c h z' e' g') (-2) 2 (-3) 2 (-2) 2.
Proof. pose proof L3_J2; pose proof L3_J3; pose proof L3_eH; pose proof L3_bz1; pose proof L3_bz2; pose proof L3_bz3; pose proof (L3_hz (z_h2 z) (z_h2 z')). pose proof L3_b31; pose proof L3_b33. layer. unfold j3_2; rewrite ?Tw, ?Th; cbv beta zeta; inloop; unfold cur1, cur2, cur3, d1, d2, t1, t2, t3, s21, s31, s12, s32, s13, s23, av1, av2, av3, av12, av13, av23, q1, q2, q3; cbv beta; acong. Qed.
Lemma L3_j33 : AG (j3_3 c h z e g) (j3_3 c h z' e' g') (-3) 2 (-2) 2 (-2) 2.
Proof. pose proof L3_J2; pose proof L3_J3; pose proof L3_eH; pose proof L3_bz1; pose proof L3_bz2; pose proof L3_bz3; pose proof (L3_hz (z_h2 z) (z_h2 z')). pose proof L3_b31; pose proof L3_b32. layer. unfold j3_3; rewrite ?Tw, ?Th; cbv beta zeta; inloop; unfold cur1, cur2, cur3, d1, d2, t1, t2, t3, s21, s31, s12, s32, s13, s23, av1, av2, av3, av12, av13, av23, q1, q2, q3; cbv beta; acong. Qed.
Lemma L3_h32 : AG (h3_2 c h z e g) (h3_2 c h z' e' g') (-2) 2 (-2) 1 (-2) 2.
Proof. pose proof L3_J2; pose proof L3_J3; pose proof L3_eH; pose proof L3_bz1; pose proof L3_bz2; pose proof L3_bz3; pose proof (L3_hz (z_h2 z) (z_h2 z')). pose proof L3_b31; pose proof L3_b33; pose proof L3_j31; pose proof L3_j33. layer. unfold h3_2; rewrite ?Tw, ?Th; cbv beta zeta; inloop; unfold cur1, cur2, cur3, d1, d2, t1, t2, t3, s21, s31, s12, s32, s13, s23, av1, av2, av3, av12, av13, av23, q1, q2, q3; cbv beta; acong. Qed.
Lemma L3_b31' : AG (b3_1' c h z e g) (b3_1' c h z' e' g') (-2) 1 (-2) 1 (-2) 1.
Proof. pose proof L3_J2; pose proof L3_J3; pose proof L3_eH; pose proof L3_bz1; pose proof L3_bz2; pose proof L3_bz3; pose proof (L3_hz (z_h2 z) (z_h2 z')). pose proof L3_b31; pose proof L3_h32. layer. unfold b3_1'; rewrite ?Tw, ?Th; cbv beta zeta; inloop; unfold cur1, cur2, cur3, d1, d2, t1, t2, t3, s21, s31, s12, s32, s13, s23, av1, av2, av3, av12, av13, av23, q1, q2, q3; cbv beta; acong. Qed.
Lemma L3_b33' : AG (b3_3' c h z e g) (b3_3' c h z' e' g') (-2) 1 (-2) 1 (-2) 1.
Proof. pose proof L3_J2; pose proof L3_J3; pose proof L3_eH; pose proof L3_bz1; pose proof L3_bz2; pose proof L3_bz3; pose proof (L3_hz (z_h2 z) (z_h2 z')). pose proof L3_b33; pose proof L3_h32. layer. unfold b3_3'; rewrite ?Tw, ?Th; cbv beta zeta; inloop; unfold cur1, cur2, cur3, d1, d2, t1, t2, t3, s21, s31, s12, s32, s13, s23, av1, av2, av3, av12, av13, av23, q1, q2, q3; cbv beta; acong. Qed.
Lemma L3_j31' : AG (j3_1' c h z e g) (j3_1' c h z' e' g') (-1) 1 (-1) 1 (-2) 1.
Proof. pose proof L3_J2; pose proof L3_J3; pose proof L3_eH; pose proof L3_bz1; pose proof L3_bz2; pose proof L3_bz3; pose proof (L3_hz (z_h2 z) (z_h2 z')). pose proof L3_b32; pose proof L3_b33'. layer. unfold j3_1'; rewrite ?Tw, ?Th; cbv beta zeta; inloop; unfold cur1, cur2, cur3, d1, d2, t1, t2, t3, s21, s31, s12, s32, s13, s23, av1, av2, av3, av12, av13, av23, q1, q2, q3; cbv beta; acong. Qed.
Lemma L3_j32' : AG (j3_2' c h z e g) (j3_2' c h z' e' g') (-1) 1 (-2) 1 (-1) 1.
Proof. pose proof L3_J2; pose proof L3_J3; pose proof L3_eH; pose proof L3_bz1; pose proof L3_bz2; pose proof L3_bz3; pose proof (L3_hz (z_h2 z) (z_h2 z')). pose proof L3_b31'; pose proof L3_b33'. layer. unfold j3_2'; rewrite ?Tw, ?Th; cbv beta zeta; inloop; unfold cur1, cur2, cur3, d1, d2, t1, t2, t3, s21, s31, s12, s32, s13, s23, av1, av2, av3, av12, av13, av23, q1, q2, q3; cbv beta; acong. Qed.
Lemma L3_h33 : AG (h3_3 c h z e g) (h3_3 c h z' e' g') (-1) 0 (-1) 1 (-1) 1.
Proof. pose proof L3_J2; pose proof L3_J3; pose proof L3_eH; pose proof L3_bz1; pose proof L3_bz2; pose proof L3_bz3; pose proof (L3_hz (z_h2 z) (z_h2 z')). pose proof L3_b32; pose proof L3_b31'; pose proof L3_j31'; pose proof L3_j32'. layer. unfold h3_3; rewrite ?Tw, ?Th; cbv beta zeta; inloop; unfold cur1, cur2, cur3, d1, d2, t1, t2, t3, s21, s31, s12, s32, s13, s23, av1, av2, av3, av12, av13, av23, q1, q2, q3; cbv beta; acong. Qed.
End HallOn.
Lemma L3_e1 : emf1 c z' e' g' k' j' i' = emf1 c z e g k j i.
Proof.
  pose proof L3_J1 as PJ1; pose proof L3_J2 as PJ2; pose proof L3_J3 as PJ3. pose proof (L3_ez (z_e1 z) (z_e1 z')) as Z0.
  assert (Z1 : AG (if ohm c then O1 c z e g (ez c g (z_e1 z)) else ez c g (z_e1 z)) (if ohm c then O1 c z' e' g' (ez c g' (z_e1 z')) else ez c g' (z_e1 z')) 0 0 0 0 0 0).
  { layer. destruct (ohm c); [|eapply (ag_use _ _ _ _ _ _ _ _ _ _ _ _ _ _ Z0); lia]. unfold O1. rewrite Tw, ?Th. rewrite !loop3_in by lia. unfold av1, av2, av12, av13, av23. acong. }
  unfold emf1, step2. cbv zeta. set (Y := if ohm c then O1 c z e g (ez c g (z_e1 z)) else ez c g (z_e1 z)) in *. set (Y' := if ohm c then O1 c z' e' g' (ez c g' (z_e1 z')) else ez c g' (z_e1 z')) in *. clearbody Y Y'.
  assert (Z2 : AG (if hall c then H1 c z e g Y else Y) (if hall c then H1 c z' e' g' Y' else Y') 0 0 0 0 0 0).
  { layer. destruct (hall c) eqn:Ho; [|eapply (ag_use _ _ _ _ _ _ _ _ _ _ _ _ _ _ Z1); lia]. unfold H1. rewrite Tw, ?Th. pose proof (L3_h31 Ho). rewrite !loop3_in by lia. acong. }
  set (V := if hall c then H1 c z e g Y else Y) in *. set (V' := if hall c then H1 c z' e' g' Y' else Y') in *. clearbody V V'.

  destruct (ambi c); [|eapply (ag_use _ _ _ _ _ _ _ _ _ _ _ _ _ _ Z2); lia]. unfold A1. rewrite Tw, ?Th. rewrite !loop3_in by lia. unfold ad1, ad3_1, ad; cbv zeta; unfold s21, s31, s12, s32, s13, s23, av1, av2, av3, av12, av13, av23. acong.
Qed.
Lemma L3_e2 : emf2 c h z' e' g' k' j' i' = emf2 c h z e g k j i.
Proof.
  pose proof L3_J1 as PJ1; pose proof L3_J2 as PJ2; pose proof L3_J3 as PJ3. pose proof (L3_ez (z_e2 z) (z_e2 z')) as Z0.
  assert (Z1 : AG (if ohm c then O2 c z e g (ez c g (z_e2 z)) else ez c g (z_e2 z)) (if ohm c then O2 c z' e' g' (ez c g' (z_e2 z')) else ez c g' (z_e2 z')) 0 0 0 0 0 0).
  { layer. destruct (ohm c); [|eapply (ag_use _ _ _ _ _ _ _ _ _ _ _ _ _ _ Z0); lia]. unfold O2. rewrite Tw, ?Th. rewrite !loop3_in by lia. unfold av1, av2, av12, av13, av23. acong. }
  unfold emf2, step2. cbv zeta. set (Y := if ohm c then O2 c z e g (ez c g (z_e2 z)) else ez c g (z_e2 z)) in *. set (Y' := if ohm c then O2 c z' e' g' (ez c g' (z_e2 z')) else ez c g' (z_e2 z')) in *. clearbody Y Y'.
  assert (Z2 : AG (if hall c then H2 c h z e g Y else Y) (if hall c then H2 c h z' e' g' Y' else Y') 0 0 0 0 0 0).
  { layer. destruct (hall c) eqn:Ho; [|eapply (ag_use _ _ _ _ _ _ _ _ _ _ _ _ _ _ Z1); lia]. unfold H2. rewrite Tw, ?Th. pose proof (L3_h32 Ho). rewrite !loop3_in by lia. acong. }
  set (V := if hall c then H2 c h z e g Y else Y) in *. set (V' := if hall c then H2 c h z' e' g' Y' else Y') in *. clearbody V V'.

  destruct (ambi c); [|eapply (ag_use _ _ _ _ _ _ _ _ _ _ _ _ _ _ Z2); lia]. unfold A2. rewrite Tw, ?Th. rewrite !loop3_in by lia. unfold ad1, ad3_2, ad; cbv zeta; unfold s21, s31, s12, s32, s13, s23, av1, av2, av3, av12, av13, av23. acong.
Qed.
Lemma L3_e3 : emf3 c h z' e' g' k' j' i' = emf3 c h z e g k j i.
Proof.
  pose proof L3_J1 as PJ1; pose proof L3_J2 as PJ2; pose proof L3_J3 as PJ3. pose proof (L3_ez (z_e3 z) (z_e3 z')) as Z0.
  assert (Z1 : AG (if ohm c then O3 c z e g (ez c g (z_e3 z)) else ez c g (z_e3 z)) (if ohm c then O3 c z' e' g' (ez c g' (z_e3 z')) else ez c g' (z_e3 z')) 0 0 0 0 0 0).
  { layer. destruct (ohm c); [|eapply (ag_use _ _ _ _ _ _ _ _ _ _ _ _ _ _ Z0); lia]. unfold O3. rewrite Tw, ?Th. rewrite !loop3_in by lia. unfold av1, av2, av12, av13, av23. acong. }
  unfold emf3, step2. cbv zeta. set (Y := if ohm c then O3 c z e g (ez c g (z_e3 z)) else ez c g (z_e3 z)) in *. set (Y' := if ohm c then O3 c z' e' g' (ez c g' (z_e3 z')) else ez c g' (z_e3 z')) in *. clearbody Y Y'.
  assert (Z2 : AG (if hall c then H3 c h z e g Y else Y) (if hall c then H3 c h z' e' g' Y' else Y') 0 0 0 0 0 0).
  { layer. destruct (hall c) eqn:Ho; [|eapply (ag_use _ _ _ _ _ _ _ _ _ _ _ _ _ _ Z1); lia]. unfold H3. rewrite Tw, ?Th. pose proof (L3_h33 Ho). rewrite !loop3_in by lia. acong. }
  set (V := if hall c then H3 c h z e g Y else Y) in *. set (V' := if hall c then H3 c h z' e' g' Y' else Y') in *. clearbody V V'.

  destruct (ambi c); [|eapply (ag_use _ _ _ _ _ _ _ _ _ _ _ _ _ _ Z2); lia]. unfold A3. rewrite Tw, ?Th. rewrite !loop3_in by lia. unfold ad1, ad3_3, ad; cbv zeta; unfold s21, s31, s12, s32, s13, s23, av1, av2, av3, av12, av13, av23. acong.
Qed.
End Dim3.

Section Dim2.
Variables (c : dcfg) (h : R) (z z' : rscratch) (e e' : etas) (g g' : grid3) (k j i k' j' i' : Z).
Hypothesis (Tw : two c = true) (Th : three c = false).
Hypothesis (Ci : (is g <= i <= ie g + 1)%Z) (Cj : (js g <= j <= je g + 1)%Z) (Ck : k = ks g) (K1 : ks g = ke g).
Hypothesis (Ci' : (is g' <= i' <= ie g' + 1)%Z) (Cj' : (js g' <= j' <= je g' + 1)%Z) (Ck' : k' = ks g') (K1' : ks g' = ke g').
Hypothesis (X1 : dx1 g' = dx1 g) (X2 : dx2 g' = dx2 g) (X3 : dx3 g' = dx3 g).
Notation AG F F' a b c0 d e0 f0 := (ag k j i k' j' i' F F' a b c0 d e0 f0).
Hypothesis (L2_b1 : AG (b1c g) (b1c g') 0 0 (-4) 3 (-4) 3).
Hypothesis (L2_b2 : AG (b2c g) (b2c g') 0 0 (-4) 3 (-4) 3).
Hypothesis (L2_b3 : AG (b3c g) (b3c g') 0 0 (-4) 3 (-4) 3).
Hypothesis (L2_B1 : AG (B1i g) (B1i g') 0 0 (-4) 3 (-3) 3).
Hypothesis (L2_B2 : AG (B2i g) (B2i g') 0 0 (-3) 3 (-4) 3).
Hypothesis (L2_B3 : AG (B3i g) (B3i g') 0 0 (-4) 3 (-4) 3).
Hypothesis (L2_O : AG (e_O e) (e_O e') 0 0 (-4) 3 (-4) 3).
Hypothesis (L2_H : AG (e_H e) (e_H e') 0 0 (-4) 3 (-4) 3).
Hypothesis (L2_A : AG (e_A e) (e_A e') 0 0 (-4) 3 (-4) 3).
Lemma L2_J1 : AG (J1 c z g) (J1 c z' g') 0 0 (-3) 3 (-4) 3.
Proof. layer. unfold J1; rewrite ?Tw, ?Th; cbv beta zeta; inloop; unfold cur1, cur2, cur3, d1, d2, t1, t2, t3, s21, s31, s12, s32, s13, s23, av1, av2, av3, av12, av13, av23, q1, q2, q3; cbv beta; acong. Qed.
Lemma L2_J2 : AG (J2 c z g) (J2 c z' g') 0 0 (-4) 3 (-3) 3.
Proof. layer. unfold J2; rewrite ?Tw, ?Th; cbv beta zeta; inloop; unfold cur1, cur2, cur3, d1, d2, t1, t2, t3, s21, s31, s12, s32, s13, s23, av1, av2, av3, av12, av13, av23, q1, q2, q3; cbv beta; acong. Qed.
Lemma L2_J3 : AG (J3 c z g) (J3 c z' g') 0 0 (-3) 3 (-3) 3.
Proof. layer. unfold J3; rewrite ?Tw, ?Th; cbv beta zeta; inloop; unfold cur1, cur2, cur3, d1, d2, t1, t2, t3, s21, s31, s12, s32, s13, s23, av1, av2, av3, av12, av13, av23, q1, q2, q3; cbv beta; acong. Qed.
Lemma L2_ez : forall o o', AG (ez c g o) (ez c g' o') 0 0 (-4) 3 (-4) 3.
Proof. intros o o'. layer. unfold ez, rkl, rku, rjl, rju. rewrite Tw, Th. rewrite !loop3_in by lia. reflexivity. Qed.
Section HallOn.
Hypothesis (Ho : hall c = true).
Lemma L2_hz : forall o o', AG (hz c g o) (hz c g' o') 0 0 (-4) 3 (-4) 3.
Proof. intros o o'. layer. unfold hz, rkl, rku, rjl, rju. rewrite Ho, Tw, Th. rewrite !loop3_in by lia. reflexivity. Qed.
Lemma L2_bz1 : AG (bz c g (B1i g) (z_b1 z)) (bz c g' (B1i g') (z_b1 z')) 0 0 (-4) 3 (-3) 3.
Proof. layer. unfold bz, rkl, rku, rjl, rju. rewrite Ho, Tw, Th. rewrite !loop3_in by lia. acong. Qed.
Lemma L2_bz2 : AG (bz c g (B2i g) (z_b2 z)) (bz c g' (B2i g') (z_b2 z')) 0 0 (-3) 3 (-4) 3.
Proof. layer. unfold bz, rkl, rku, rjl, rju. rewrite Ho, Tw, Th. rewrite !loop3_in by lia. acong. Qed.
Lemma L2_bz3 : AG (bz c g (B3i g) (z_b3 z)) (bz c g' (B3i g') (z_b3 z')) 0 0 (-4) 3 (-4) 3.
Proof. layer. unfold bz, rkl, rku, rjl, rju. rewrite Ho, Tw, Th. rewrite !loop3_in by lia. acong. Qed.
Lemma L2_eH : AG (eH c e g) (eH c e' g') 0 0 (-4) 3 (-4) 3.
Proof. layer. unfold eH, rkl, rku, rjl, rju. rewrite Tw, Th. rewrite !loop3_in by lia. acong. Qed.
Lemma L2_h21 : AG (h2_1 c z e g) (h2_1 c z' e' g') 0 0 (-3) 3 (-3) 2.
Proof. pose proof L2_J2; pose proof L2_J3; pose proof L2_eH; pose proof L2_bz1; pose proof L2_bz2; pose proof L2_bz3; pose proof (L2_hz (z_h2 z) (z_h2 z')). layer. unfold h2_1; rewrite ?Tw, ?Th; cbv beta zeta; inloop; unfold cur1, cur2, cur3, d1, d2, t1, t2, t3, s21, s31, s12, s32, s13, s23, av1, av2, av3, av12, av13, av23, q1, q2, q3; cbv beta; acong. Qed.
Lemma L2_b23 : AG (b2_3 c h z e g) (b2_3 c h z' e' g') 0 0 (-3) 2 (-3) 2.
Proof. pose proof L2_J2; pose proof L2_J3; pose proof L2_eH; pose proof L2_bz1; pose proof L2_bz2; pose proof L2_bz3; pose proof (L2_hz (z_h2 z) (z_h2 z')). pose proof L2_h21. layer. unfold b2_3; rewrite ?Tw, ?Th; cbv beta zeta; inloop; unfold cur1, cur2, cur3, d1, d2, t1, t2, t3, s21, s31, s12, s32, s13, s23, av1, av2, av3, av12, av13, av23, q1, q2, q3; cbv beta; acong. Qed.
Lemma L2_j21 : AG (j2_1 c h z e g) (j2_1 c h z' e' g') 0 0 (-2) 2 (-3) 2.
Proof. pose proof L2_J2; pose proof L2_J3; pose proof L2_eH; pose proof L2_bz1; pose proof L2_bz2; pose proof L2_bz3; pose proof (L2_hz (z_h2 z) (z_h2 z')). pose proof L2_b23. layer. unfold j2_1; rewrite ?Tw, ?Th; cbv beta zeta; inloop; unfold cur1, cur2, cur3, d1, d2, t1, t2, t3, s21, s31, s12, s32, s13, s23, av1, av2, av3, av12, av13, av23, q1, q2, q3; cbv beta; acong. Qed.
Lemma L2_j22 : AG (j2_2 c h z e g) (j2_2 c h z' e' g') 0 0 (-3) 2 (-2) 2.
Proof. pose proof L2_J2; pose proof L2_J3; pose proof L2_eH; pose proof L2_bz1; pose proof L2_bz2; pose proof L2_bz3; pose proof (L2_hz (z_h2 z) (z_h2 z')). pose proof L2_b23. layer. unfold j2_2; rewrite ?Tw, ?Th; cbv beta zeta; inloop; unfold cur1, cur2, cur3, d1, d2, t1, t2, t3, s21, s31, s12, s32, s13, s23, av1, av2, av3, av12, av13, av23, q1, q2, q3; cbv beta; acong. Qed.
Lemma L2_j23 : AG (j2_3 c z g) (j2_3 c z' g') 0 0 (-2) 2 (-2) 2.
Proof. pose proof L2_J2; pose proof L2_J3; pose proof L2_eH; pose proof L2_bz1; pose proof L2_bz2; pose proof L2_bz3; pose proof (L2_hz (z_h2 z) (z_h2 z')). layer. unfold j2_3; rewrite ?Tw, ?Th; cbv beta zeta; inloop; unfold cur1, cur2, cur3, d1, d2, t1, t2, t3, s21, s31, s12, s32, s13, s23, av1, av2, av3, av12, av13, av23, q1, q2, q3; cbv beta; acong. Qed.
Lemma L2_h22 : AG (h2_2 c h z e g) (h2_2 c h z' e' g') 0 0 (-2) 1 (-2) 2.
Proof. pose proof L2_J2; pose proof L2_J3; pose proof L2_eH; pose proof L2_bz1; pose proof L2_bz2; pose proof L2_bz3; pose proof (L2_hz (z_h2 z) (z_h2 z')). pose proof L2_b23; pose proof L2_j21; pose proof L2_j23. layer. unfold h2_2; rewrite ?Tw, ?Th; cbv beta zeta; inloop; unfold cur1, cur2, cur3, d1, d2, t1, t2, t3, s21, s31, s12, s32, s13, s23, av1, av2, av3, av12, av13, av23, q1, q2, q3; cbv beta; acong. Qed.
Lemma L2_b23' : AG (b2_3' c h z e g) (b2_3' c h z' e' g') 0 0 (-2) 1 (-2) 1.
Proof. pose proof L2_J2; pose proof L2_J3; pose proof L2_eH; pose proof L2_bz1; pose proof L2_bz2; pose proof L2_bz3; pose proof (L2_hz (z_h2 z) (z_h2 z')). pose proof L2_b23; pose proof L2_h22. layer. unfold b2_3'; rewrite ?Tw, ?Th; cbv beta zeta; inloop; unfold cur1, cur2, cur3, d1, d2, t1, t2, t3, s21, s31, s12, s32, s13, s23, av1, av2, av3, av12, av13, av23, q1, q2, q3; cbv beta; acong. Qed.
Lemma L2_j21' : AG (j2_1' c h z e g) (j2_1' c h z' e' g') 0 0 (-1) 1 (-2) 1.
Proof. pose proof L2_J2; pose proof L2_J3; pose proof L2_eH; pose proof L2_bz1; pose proof L2_bz2; pose proof L2_bz3; pose proof (L2_hz (z_h2 z) (z_h2 z')). pose proof L2_b23'. layer. unfold j2_1'; rewrite ?Tw, ?Th; cbv beta zeta; inloop; unfold cur1, cur2, cur3, d1, d2, t1, t2, t3, s21, s31, s12, s32, s13, s23, av1, av2, av3, av12, av13, av23, q1, q2, q3; cbv beta; acong. Qed.
Lemma L2_j22' : AG (j2_2' c h z e g) (j2_2' c h z' e' g') 0 0 (-2) 1 (-1) 1.
Proof. pose proof L2_J2; pose proof L2_J3; pose proof L2_eH; pose proof L2_bz1; pose proof L2_bz2; pose proof L2_bz3; pose proof (L2_hz (z_h2 z) (z_h2 z')). pose proof L2_b23'. layer. unfold j2_2'; rewrite ?Tw, ?Th; cbv beta zeta; inloop; unfold cur1, cur2, cur3, d1, d2, t1, t2, t3, s21, s31, s12, s32, s13, s23, av1, av2, av3, av12, av13, av23, q1, q2, q3; cbv beta; acong. Qed.
Lemma L2_h23 : AG (h2_3 c h z e g) (h2_3 c h z' e' g') 0 0 (-1) 1 (-1) 1.
Proof. pose proof L2_J2; pose proof L2_J3; pose proof L2_eH; pose proof L2_bz1; pose proof L2_bz2; pose proof L2_bz3; pose proof (L2_hz (z_h2 z) (z_h2 z')). pose proof L2_j21'; pose proof L2_j22'. layer. unfold h2_3; rewrite ?Tw, ?Th; cbv beta zeta; inloop; unfold cur1, cur2, cur3, d1, d2, t1, t2, t3, s21, s31, s12, s32, s13, s23, av1, av2, av3, av12, av13, av23, q1, q2, q3; cbv beta; acong. Qed.
End HallOn.
Lemma L2_e1 : emf1 c z' e' g' k' j' i' = emf1 c z e g k j i.
Proof.
  pose proof L2_J1 as PJ1; pose proof L2_J2 as PJ2; pose proof L2_J3 as PJ3. pose proof (L2_ez (z_e1 z) (z_e1 z')) as Z0.
  assert (Z1 : AG (if ohm c then O1 c z e g (ez c g (z_e1 z)) else ez c g (z_e1 z)) (if ohm c then O1 c z' e' g' (ez c g' (z_e1 z')) else ez c g' (z_e1 z')) 0 0 0 0 0 0).
  { layer. destruct (ohm c); [|eapply (ag_use _ _ _ _ _ _ _ _ _ _ _ _ _ _ Z0); lia]. unfold O1. rewrite Tw, ?Th. rewrite !loop3_in by lia. unfold av1, av2, av12, av13, av23. acong. }
  unfold emf1, step2. cbv zeta. set (Y := if ohm c then O1 c z e g (ez c g (z_e1 z)) else ez c g (z_e1 z)) in *. set (Y' := if ohm c then O1 c z' e' g' (ez c g' (z_e1 z')) else ez c g' (z_e1 z')) in *. clearbody Y Y'.
  assert (Z2 : AG (if hall c then H1 c z e g Y else Y) (if hall c then H1 c z' e' g' Y' else Y') 0 0 0 0 0 0).
  { layer. destruct (hall c) eqn:Ho; [|eapply (ag_use _ _ _ _ _ _ _ _ _ _ _ _ _ _ Z1); lia]. unfold H1. rewrite Tw, ?Th. pose proof (L2_h21 Ho). rewrite !loop3_in by lia. acong. }
  set (V := if hall c then H1 c z e g Y else Y) in *. set (V' := if hall c then H1 c z' e' g' Y' else Y') in *. clearbody V V'.

  destruct (ambi c); [|eapply (ag_use _ _ _ _ _ _ _ _ _ _ _ _ _ _ Z2); lia]. unfold A1. rewrite Tw, ?Th. rewrite !loop3_in by lia. unfold ad1, ad2_1, ad; cbv zeta; unfold s21, s31, s12, s32, s13, s23, av1, av2, av3, av12, av13, av23. acong.
Qed.
Lemma L2_e2 : emf2 c h z' e' g' k' j' i' = emf2 c h z e g k j i.
Proof.
  pose proof L2_J1 as PJ1; pose proof L2_J2 as PJ2; pose proof L2_J3 as PJ3. pose proof (L2_ez (z_e2 z) (z_e2 z')) as Z0.
  assert (Z1 : AG (if ohm c then O2 c z e g (ez c g (z_e2 z)) else ez c g (z_e2 z)) (if ohm c then O2 c z' e' g' (ez c g' (z_e2 z')) else ez c g' (z_e2 z')) 0 0 0 0 0 0).
  { layer. destruct (ohm c); [|eapply (ag_use _ _ _ _ _ _ _ _ _ _ _ _ _ _ Z0); lia]. unfold O2. rewrite Tw, ?Th. rewrite !loop3_in by lia. unfold av1, av2, av12, av13, av23. acong. }
  unfold emf2, step2. cbv zeta. set (Y := if ohm c then O2 c z e g (ez c g (z_e2 z)) else ez c g (z_e2 z)) in *. set (Y' := if ohm c then O2 c z' e' g' (ez c g' (z_e2 z')) else ez c g' (z_e2 z')) in *. clearbody Y Y'.
  assert (Z2 : AG (if hall c then H2 c h z e g Y else Y) (if hall c then H2 c h z' e' g' Y' else Y') 0 0 0 0 0 0).
  { layer. destruct (hall c) eqn:Ho; [|eapply (ag_use _ _ _ _ _ _ _ _ _ _ _ _ _ _ Z1); lia]. unfold H2. rewrite Tw, ?Th. pose proof (L2_h22 Ho). rewrite !loop3_in by lia. acong. }
  set (V := if hall c then H2 c h z e g Y else Y) in *. set (V' := if hall c then H2 c h z' e' g' Y' else Y') in *. clearbody V V'.

  destruct (ambi c); [|eapply (ag_use _ _ _ _ _ _ _ _ _ _ _ _ _ _ Z2); lia]. unfold A2. rewrite Tw, ?Th. rewrite !loop3_in by lia. unfold ad1, ad2_2, ad; cbv zeta; unfold s21, s31, s12, s32, s13, s23, av1, av2, av3, av12, av13, av23. acong.
Qed.
Lemma L2_e3 : emf3 c h z' e' g' k' j' i' = emf3 c h z e g k j i.
Proof.
  pose proof L2_J1 as PJ1; pose proof L2_J2 as PJ2; pose proof L2_J3 as PJ3. pose proof (L2_ez (z_e3 z) (z_e3 z')) as Z0.
  assert (Z1 : AG (if ohm c then O3 c z e g (ez c g (z_e3 z)) else ez c g (z_e3 z)) (if ohm c then O3 c z' e' g' (ez c g' (z_e3 z')) else ez c g' (z_e3 z')) 0 0 0 0 0 0).
  { layer. destruct (ohm c); [|eapply (ag_use _ _ _ _ _ _ _ _ _ _ _ _ _ _ Z0); lia]. unfold O3. rewrite Tw, ?Th. rewrite !loop3_in by lia. unfold av1, av2, av12, av13, av23. acong. }
  unfold emf3, step2. cbv zeta. set (Y := if ohm c then O3 c z e g (ez c g (z_e3 z)) else ez c g (z_e3 z)) in *. set (Y' := if ohm c then O3 c z' e' g' (ez c g' (z_e3 z')) else ez c g' (z_e3 z')) in *. clearbody Y Y'.
  assert (Z2 : AG (if hall c then H3 c h z e g Y else Y) (if hall c then H3 c h z' e' g' Y' else Y') 0 0 0 0 0 0).
  { layer. destruct (hall c) eqn:Ho; [|eapply (ag_use _ _ _ _ _ _ _ _ _ _ _ _ _ _ Z1); lia]. unfold H3. rewrite Tw, ?Th. pose proof (L2_h23 Ho). rewrite !loop3_in by lia. acong. }
  set (V := if hall c then H3 c h z e g Y else Y) in *. set (V' := if hall c then H3 c h z' e' g' Y' else Y') in *. clearbody V V'.

  destruct (ambi c); [|eapply (ag_use _ _ _ _ _ _ _ _ _ _ _ _ _ _ Z2); lia]. unfold A3. rewrite Tw, ?Th. rewrite !loop3_in by lia. unfold ad1, ad2_3, ad; cbv zeta; unfold s21, s31, s12, s32, s13, s23, av1, av2, av3, av12, av13, av23. acong.
Qed.
End Dim2.

Section Dim1.
Variables (c : dcfg) (h : R) (z z' : rscratch) (e e' : etas) (g g' : grid3) (k j i k' j' i' : Z).
Hypothesis (Tw : two c = false) (Th : three c = false).
Hypothesis (Ci : (is g <= i <= ie g + 1)%Z) (Cj : j = js g) (J1e : js g = je g) (Ck : k = ks g) (K1 : ks g = ke g).
Hypothesis (Ci' : (is g' <= i' <= ie g' + 1)%Z) (Cj' : j' = js g') (J1e' : js g' = je g') (Ck' : k' = ks g') (K1' : ks g' = ke g').
Hypothesis (X1 : dx1 g' = dx1 g) (X2 : dx2 g' = dx2 g) (X3 : dx3 g' = dx3 g).
Notation AG F F' a b c0 d e0 f0 := (ag k j i k' j' i' F F' a b c0 d e0 f0).
Hypothesis (L1_b1 : AG (b1c g) (b1c g') 0 0 0 0 (-4) 3).
Hypothesis (L1_b2 : AG (b2c g) (b2c g') 0 0 0 0 (-4) 3).
Hypothesis (L1_b3 : AG (b3c g) (b3c g') 0 0 0 0 (-4) 3).
Hypothesis (L1_B1 : AG (B1i g) (B1i g') 0 0 0 0 (-3) 3).
Hypothesis (L1_B2 : AG (B2i g) (B2i g') 0 0 0 0 (-4) 3).
Hypothesis (L1_B3 : AG (B3i g) (B3i g') 0 0 0 0 (-4) 3).
Hypothesis (L1_O : AG (e_O e) (e_O e') 0 0 0 0 (-4) 3).
Hypothesis (L1_H : AG (e_H e) (e_H e') 0 0 0 0 (-4) 3).
Hypothesis (L1_A : AG (e_A e) (e_A e') 0 0 0 0 (-4) 3).
Lemma L1_J2 : AG (J2 c z g) (J2 c z' g') 0 0 0 0 (-3) 3.
Proof. layer. unfold J2; rewrite ?Tw, ?Th; cbv beta zeta; inloop; unfold cur1, cur2, cur3, d1, d2, t1, t2, t3, s21, s31, s12, s32, s13, s23, av1, av2, av3, av12, av13, av23, q1, q2, q3; cbv beta; acong. Qed.
Lemma L1_J3 : AG (J3 c z g) (J3 c z' g') 0 0 0 0 (-3) 3.
Proof. layer. unfold J3; rewrite ?Tw, ?Th; cbv beta zeta; inloop; unfold cur1, cur2, cur3, d1, d2, t1, t2, t3, s21, s31, s12, s32, s13, s23, av1, av2, av3, av12, av13, av23, q1, q2, q3; cbv beta; acong. Qed.
Lemma L1_ez : forall o o', AG (ez c g o) (ez c g' o') 0 0 0 0 (-4) 3.
Proof. intros o o'. layer. unfold ez, rkl, rku, rjl, rju. rewrite Tw, Th. rewrite !loop3_in by lia. reflexivity. Qed.
Section HallOn.
Hypothesis (Ho : hall c = true).
Lemma L1_hz : forall o o', AG (hz c g o) (hz c g' o') 0 0 0 0 (-4) 3.
Proof. intros o o'. layer. unfold hz, rkl, rku, rjl, rju. rewrite Ho, Tw, Th. rewrite !loop3_in by lia. reflexivity. Qed.
Lemma L1_bz1 : AG (bz c g (B1i g) (z_b1 z)) (bz c g' (B1i g') (z_b1 z')) 0 0 0 0 (-3) 3.
Proof. layer. unfold bz, rkl, rku, rjl, rju. rewrite Ho, Tw, Th. rewrite !loop3_in by lia. acong. Qed.
Lemma L1_bz2 : AG (bz c g (B2i g) (z_b2 z)) (bz c g' (B2i g') (z_b2 z')) 0 0 0 0 (-4) 3.
Proof. layer. unfold bz, rkl, rku, rjl, rju. rewrite Ho, Tw, Th. rewrite !loop3_in by lia. acong. Qed.
Lemma L1_bz3 : AG (bz c g (B3i g) (z_b3 z)) (bz c g' (B3i g') (z_b3 z')) 0 0 0 0 (-4) 3.
Proof. layer. unfold bz, rkl, rku, rjl, rju. rewrite Ho, Tw, Th. rewrite !loop3_in by lia. acong. Qed.
Lemma L1_eH : AG (eH c e g) (eH c e' g') 0 0 0 0 (-4) 3.
Proof. layer. unfold eH, rkl, rku, rjl, rju. rewrite Tw, Th. rewrite !loop3_in by lia. acong. Qed.
Lemma L1_h12 : AG (h1_2 c z e g) (h1_2 c z' e' g') 0 0 0 0 (-2) 2.
Proof. pose proof L1_J2; pose proof L1_J3; pose proof L1_eH; pose proof L1_bz1; pose proof L1_bz2; pose proof L1_bz3; pose proof (L1_hz (z_h2 z) (z_h2 z')). layer. unfold h1_2; rewrite ?Tw, ?Th; cbv beta zeta; inloop; unfold cur1, cur2, cur3, d1, d2, t1, t2, t3, s21, s31, s12, s32, s13, s23, av1, av2, av3, av12, av13, av23, q1, q2, q3; cbv beta; acong. Qed.
Lemma L1_c13 : AG (c1_3 c h z e g) (c1_3 c h z' e' g') 0 0 0 0 (-2) 1.
Proof. pose proof L1_J2; pose proof L1_J3; pose proof L1_eH; pose proof L1_bz1; pose proof L1_bz2; pose proof L1_bz3; pose proof (L1_hz (z_h2 z) (z_h2 z')). pose proof L1_h12. layer. unfold c1_3; rewrite ?Tw, ?Th; cbv beta zeta; inloop; unfold cur1, cur2, cur3, d1, d2, t1, t2, t3, s21, s31, s12, s32, s13, s23, av1, av2, av3, av12, av13, av23, q1, q2, q3; cbv beta; acong. Qed.
Lemma L1_j12 : AG (j1_2 c h z e g) (j1_2 c h z' e' g') 0 0 0 0 (-1) 1.
Proof. pose proof L1_J2; pose proof L1_J3; pose proof L1_eH; pose proof L1_bz1; pose proof L1_bz2; pose proof L1_bz3; pose proof (L1_hz (z_h2 z) (z_h2 z')). pose proof L1_c13. layer. unfold j1_2; rewrite ?Tw, ?Th; cbv beta zeta; inloop; unfold cur1, cur2, cur3, d1, d2, t1, t2, t3, s21, s31, s12, s32, s13, s23, av1, av2, av3, av12, av13, av23, q1, q2, q3; cbv beta; acong. Qed.
Lemma L1_h13 : AG (h1_3 c h z e g) (h1_3 c h z' e' g') 0 0 0 0 (-1) 1.
Proof. pose proof L1_J2; pose proof L1_J3; pose proof L1_eH; pose proof L1_bz1; pose proof L1_bz2; pose proof L1_bz3; pose proof (L1_hz (z_h2 z) (z_h2 z')). pose proof L1_j12. layer. unfold h1_3; rewrite ?Tw, ?Th; cbv beta zeta; inloop; unfold cur1, cur2, cur3, d1, d2, t1, t2, t3, s21, s31, s12, s32, s13, s23, av1, av2, av3, av12, av13, av23, q1, q2, q3; cbv beta; acong. Qed.
End HallOn.
Lemma L1_e1 : emf1 c z' e' g' k' j' i' = emf1 c z e g k j i.
Proof.
  pose proof L1_J2 as PJ2; pose proof L1_J3 as PJ3. pose proof (L1_ez (z_e1 z) (z_e1 z')) as Z0.
  assert (Z1 : AG (if ohm c then O1 c z e g (ez c g (z_e1 z)) else ez c g (z_e1 z)) (if ohm c then O1 c z' e' g' (ez c g' (z_e1 z')) else ez c g' (z_e1 z')) 0 0 0 0 0 0).
  { layer. destruct (ohm c); [|eapply (ag_use _ _ _ _ _ _ _ _ _ _ _ _ _ _ Z0); lia]. unfold O1. rewrite Tw, ?Th.  unfold av1, av2, av12, av13, av23. acong. }
  unfold emf1, step2. cbv zeta. set (Y := if ohm c then O1 c z e g (ez c g (z_e1 z)) else ez c g (z_e1 z)) in *. set (Y' := if ohm c then O1 c z' e' g' (ez c g' (z_e1 z')) else ez c g' (z_e1 z')) in *. clearbody Y Y'.
  assert (Z2 : AG (if hall c then H1 c z e g Y else Y) (if hall c then H1 c z' e' g' Y' else Y') 0 0 0 0 0 0).
  { layer. destruct (hall c) eqn:Ho; [|eapply (ag_use _ _ _ _ _ _ _ _ _ _ _ _ _ _ Z1); lia]. unfold H1. rewrite Tw, ?Th. acong. }
  set (V := if hall c then H1 c z e g Y else Y) in *. set (V' := if hall c then H1 c z' e' g' Y' else Y') in *. clearbody V V'.

  destruct (ambi c); [|eapply (ag_use _ _ _ _ _ _ _ _ _ _ _ _ _ _ Z2); lia]. unfold A1. rewrite Tw, ?Th. unfold ad1, ad2_1, ad; cbv zeta; unfold s21, s31, s12, s32, s13, s23, av1, av2, av3, av12, av13, av23. acong.
Qed.
Lemma L1_e2 : emf2 c h z' e' g' k' j' i' = emf2 c h z e g k j i.
Proof.
  pose proof L1_J2 as PJ2; pose proof L1_J3 as PJ3. pose proof (L1_ez (z_e2 z) (z_e2 z')) as Z0.
  assert (Z1 : AG (if ohm c then O2 c z e g (ez c g (z_e2 z)) else ez c g (z_e2 z)) (if ohm c then O2 c z' e' g' (ez c g' (z_e2 z')) else ez c g' (z_e2 z')) 0 0 0 0 0 0).
  { layer. destruct (ohm c); [|eapply (ag_use _ _ _ _ _ _ _ _ _ _ _ _ _ _ Z0); lia]. unfold O2. rewrite Tw, ?Th. rewrite !loop3_in by lia. unfold av1, av2, av12, av13, av23. acong. }
  unfold emf2, step2. cbv zeta. set (Y := if ohm c then O2 c z e g (ez c g (z_e2 z)) else ez c g (z_e2 z)) in *. set (Y' := if ohm c then O2 c z' e' g' (ez c g' (z_e2 z')) else ez c g' (z_e2 z')) in *. clearbody Y Y'.
  assert (Z2 : AG (if hall c then H2 c h z e g Y else Y) (if hall c then H2 c h z' e' g' Y' else Y') 0 0 0 0 0 0).
  { layer. destruct (hall c) eqn:Ho; [|eapply (ag_use _ _ _ _ _ _ _ _ _ _ _ _ _ _ Z1); lia]. unfold H2. rewrite Tw, ?Th. pose proof (L1_h12 Ho). rewrite !loop3_in by lia. acong. }
  set (V := if hall c then H2 c h z e g Y else Y) in *. set (V' := if hall c then H2 c h z' e' g' Y' else Y') in *. clearbody V V'.

  destruct (ambi c); [|eapply (ag_use _ _ _ _ _ _ _ _ _ _ _ _ _ _ Z2); lia]. unfold A2. rewrite Tw, ?Th. rewrite !loop3_in by lia. unfold ad1, ad2_2, ad; cbv zeta; unfold s21, s31, s12, s32, s13, s23, av1, av2, av3, av12, av13, av23. acong.
Qed.
Lemma L1_e3 : emf3 c h z' e' g' k' j' i' = emf3 c h z e g k j i.
Proof.
  pose proof L1_J2 as PJ2; pose proof L1_J3 as PJ3. pose proof (L1_ez (z_e3 z) (z_e3 z')) as Z0.
  assert (Z1 : AG (if ohm c then O3 c z e g (ez c g (z_e3 z)) else ez c g (z_e3 z)) (if ohm c then O3 c z' e' g' (ez c g' (z_e3 z')) else ez c g' (z_e3 z')) 0 0 0 0 0 0).
  { layer. destruct (ohm c); [|eapply (ag_use _ _ _ _ _ _ _ _ _ _ _ _ _ _ Z0); lia]. unfold O3. rewrite Tw, ?Th. rewrite !loop3_in by lia. unfold av1, av2, av12, av13, av23. acong. }
  unfold emf3, step2. cbv zeta. set (Y := if ohm c then O3 c z e g (ez c g (z_e3 z)) else ez c g (z_e3 z)) in *. set (Y' := if ohm c then O3 c z' e' g' (ez c g' (z_e3 z')) else ez c g' (z_e3 z')) in *. clearbody Y Y'.
  assert (Z2 : AG (if hall c then H3 c h z e g Y else Y) (if hall c then H3 c h z' e' g' Y' else Y') 0 0 0 0 0 0).
  { layer. destruct (hall c) eqn:Ho; [|eapply (ag_use _ _ _ _ _ _ _ _ _ _ _ _ _ _ Z1); lia]. unfold H3. rewrite Tw, ?Th. pose proof (L1_h13 Ho). rewrite !loop3_in by lia. acong. }
  set (V := if hall c then H3 c h z e g Y else Y) in *. set (V' := if hall c then H3 c h z' e' g' Y' else Y') in *. clearbody V V'.

  destruct (ambi c); [|eapply (ag_use _ _ _ _ _ _ _ _ _ _ _ _ _ _ Z2); lia]. unfold A3. rewrite Tw, ?Th. rewrite !loop3_in by lia. unfold ad1, ad2_3, ad; cbv zeta; unfold s21, s31, s12, s32, s13, s23, av1, av2, av3, av12, av13, av23. acong.
Qed.
End Dim1.
