(** * Resistivity: Ohm's law in fields that are linear functions of position *)
From Coq Require Import Reals ZArith List Bool Lia Lra Psatz.
From Verif Require Import GasModel ConvProps IntegModel IntegSpec IntegFacts Ctu3Model Integ3Spec Integ3Props CondModel DiffSpec CondProps OhmModel OhmSpec OhmProps OhmLocal OhmCons CondRate.
Open Scope R_scope.

(** F has the values w around (k,j,i). *)
Definition vl (k j i : Z) (F : Z -> Z -> Z -> R) (w : Z -> Z -> Z -> R) (ka kb ja jb ia ib : Z) : Prop :=
  forall p q r, (ka <= p - k <= kb)%Z -> (ja <= q - j <= jb)%Z -> (ia <= r - i <= ib)%Z -> F p q r = w p q r.
Ltac vcong := repeat match goal with H : vl _ _ _ ?F _ _ _ _ _ _ _ |- context [?F ?p ?q ?r] => rewrite (H p q r) by lia; cbv beta end.
Ltac vlay := let p := fresh "p" in let q := fresh "q" in let r := fresh "r" in let Hk := fresh "Hk" in let Hj := fresh "Hj" in let Hi := fresh "Hi" in intros p q r Hk Hj Hi.
Ltac izr := rewrite ?minus_IZR, ?plus_IZR.

Section Exact3.
Variables (c : dcfg) (h : R) (z : rscratch) (e : etas) (g : grid3) (k j i : Z) (p1 p2 p3 : affine) (o Q a : R).
Hypothesis (Tw : two c = true) (Th : three c = true).
Hypothesis (Ci : (is g <= i <= ie g + 1)%Z) (Cj : (js g <= j <= je g + 1)%Z) (Ck : (ks g <= k <= ke g + 1)%Z).
Hypothesis (X1 : dx1 g <> 0) (X2 : dx2 g <> 0) (X3 : dx3 g <> 0).
Notation AG F v a b c0 d e0 f0 := (vl k j i F v a b c0 d e0 f0).
Hypothesis (W3_b1 : AG (b1c g) (fun p q r : Z => (lev p1 (IZR r * dx1 g) (IZR q * dx2 g) (IZR p * dx3 g))) (-4) 3 (-4) 3 (-4) 3).
Hypothesis (W3_b2 : AG (b2c g) (fun p q r : Z => (lev p2 (IZR r * dx1 g) (IZR q * dx2 g) (IZR p * dx3 g))) (-4) 3 (-4) 3 (-4) 3).
Hypothesis (W3_b3 : AG (b3c g) (fun p q r : Z => (lev p3 (IZR r * dx1 g) (IZR q * dx2 g) (IZR p * dx3 g))) (-4) 3 (-4) 3 (-4) 3).
Hypothesis (W3_B1 : AG (B1i g) (fun p q r : Z => (lev p1 ((IZR r - / 2) * dx1 g) (IZR q * dx2 g) (IZR p * dx3 g))) (-4) 3 (-4) 3 (-3) 3).
Hypothesis (W3_B2 : AG (B2i g) (fun p q r : Z => (lev p2 (IZR r * dx1 g) ((IZR q - / 2) * dx2 g) (IZR p * dx3 g))) (-4) 3 (-3) 3 (-4) 3).
Hypothesis (W3_B3 : AG (B3i g) (fun p q r : Z => (lev p3 (IZR r * dx1 g) (IZR q * dx2 g) ((IZR p - / 2) * dx3 g))) (-3) 3 (-4) 3 (-4) 3).
Hypothesis (W3_eO : AG (e_O e) (fun _ _ _ => o) (-4) 3 (-4) 3 (-4) 3) (W3_eA : AG (e_A e) (fun _ _ _ => a) (-4) 3 (-4) 3 (-4) 3) (W3_eH : AG (eH c e g) (fun _ _ _ => Q) (-4) 3 (-4) 3 (-4) 3).
Let j1 := l_2 p3 - l_3 p2. Let j2 := l_3 p1 - l_1 p3. Let j3 := l_1 p2 - l_2 p1.
Lemma W3_J1 : AG (J1 c z g) (fun p q r : Z => j1) (-3) 3 (-3) 3 (-4) 3.
Proof. vlay. unfold J1; rewrite ?Tw, ?Th; cbv beta zeta; inloop; unfold cur1, cur2, cur3, d1, d2, t1, t2, t3, s21, s31, s12, s32, s13, s23, av1, av2, av3, av12, av13, av23, q1, q2, q3; cbv beta; vcong; unfold j1, j2, j3, lev, half; izr; field; auto. Qed.
Lemma W3_J2 : AG (J2 c z g) (fun p q r : Z => j2) (-3) 3 (-4) 3 (-3) 3.
Proof. vlay. unfold J2; rewrite ?Tw, ?Th; cbv beta zeta; inloop; unfold cur1, cur2, cur3, d1, d2, t1, t2, t3, s21, s31, s12, s32, s13, s23, av1, av2, av3, av12, av13, av23, q1, q2, q3; cbv beta; vcong; unfold j1, j2, j3, lev, half; izr; field; auto. Qed.
Lemma W3_J3 : AG (J3 c z g) (fun p q r : Z => j3) (-4) 3 (-3) 3 (-3) 3.
Proof. vlay. unfold J3; rewrite ?Tw, ?Th; cbv beta zeta; inloop; unfold cur1, cur2, cur3, d1, d2, t1, t2, t3, s21, s31, s12, s32, s13, s23, av1, av2, av3, av12, av13, av23, q1, q2, q3; cbv beta; vcong; unfold j1, j2, j3, lev, half; izr; field; auto. Qed.
Lemma W3_ez : forall o, AG (ez c g o) (fun _ _ _ => 0) (-4) 3 (-4) 3 (-4) 3.
Proof. intros o0. vlay. unfold ez, rkl, rku, rjl, rju. rewrite Tw, Th. rewrite !loop3_in by lia. reflexivity. Qed.
Let b23 := - h * Q * (j2 * l_3 p3 - j3 * l_3 p2). Let b33 := h * Q * (j2 * l_2 p3 - j3 * l_2 p2).
Let b13 := h * Q * (j3 * l_3 p1 - j1 * l_3 p3). Let b33' := b33 - h * Q * (j3 * l_1 p1 - j1 * l_1 p3).
Section HallOn.
Hypothesis (Ho : hall c = true).
Lemma W3_hz : forall o, AG (hz c g o) (fun _ _ _ => 0) (-4) 3 (-4) 3 (-4) 3.
Proof. intros o0. vlay. unfold hz, rkl, rku, rjl, rju. rewrite Ho, Tw, Th. rewrite !loop3_in by lia. reflexivity. Qed.
Lemma W3_bz1 : AG (bz c g (B1i g) (z_b1 z)) (fun p q r : Z => (lev p1 ((IZR r - / 2) * dx1 g) (IZR q * dx2 g) (IZR p * dx3 g))) (-4) 3 (-4) 3 (-3) 3.
Proof. vlay. unfold bz, rkl, rku, rjl, rju. rewrite Ho, Tw, Th. rewrite !loop3_in by lia. vcong. reflexivity. Qed.
Lemma W3_bz2 : AG (bz c g (B2i g) (z_b2 z)) (fun p q r : Z => (lev p2 (IZR r * dx1 g) ((IZR q - / 2) * dx2 g) (IZR p * dx3 g))) (-4) 3 (-3) 3 (-4) 3.
Proof. vlay. unfold bz, rkl, rku, rjl, rju. rewrite Ho, Tw, Th. rewrite !loop3_in by lia. vcong. reflexivity. Qed.
Lemma W3_bz3 : AG (bz c g (B3i g) (z_b3 z)) (fun p q r : Z => (lev p3 (IZR r * dx1 g) (IZR q * dx2 g) ((IZR p - / 2) * dx3 g))) (-3) 3 (-4) 3 (-4) 3.
Proof. vlay. unfold bz, rkl, rku, rjl, rju. rewrite Ho, Tw, Th. rewrite !loop3_in by lia. vcong. reflexivity. Qed.
Lemma W3_h31 : AG (h3_1 c z e g) (fun p q r : Z => Q * (j2 * (lev p3 (IZR r * dx1 g) ((IZR q - / 2) * dx2 g) ((IZR p - / 2) * dx3 g)) - j3 * (lev p2 (IZR r * dx1 g) ((IZR q - / 2) * dx2 g) ((IZR p - / 2) * dx3 g)))) (-3) 3 (-3) 3 (-3) 2.
Proof. pose proof W3_J1; pose proof W3_J2; pose proof W3_J3; pose proof W3_bz1; pose proof W3_bz2; pose proof W3_bz3; pose proof (W3_hz (z_h2 z)). vlay. unfold h3_1; rewrite ?Tw, ?Th; cbv beta zeta; inloop; unfold cur1, cur2, cur3, d1, d2, t1, t2, t3, s21, s31, s12, s32, s13, s23, av1, av2, av3, av12, av13, av23, q1, q2, q3; cbv beta; vcong; unfold b33', b13, b23, b33, j1, j2, j3, lev, half; izr; field; auto. Qed.
Lemma W3_b32 : AG (b3_2 c h z e g) (fun p q r : Z => (lev p2 (IZR r * dx1 g) ((IZR q - / 2) * dx2 g) (IZR p * dx3 g)) + b23) (-3) 2 (-3) 2 (-3) 2.
Proof. pose proof W3_J1; pose proof W3_J2; pose proof W3_J3; pose proof W3_bz1; pose proof W3_bz2; pose proof W3_bz3; pose proof (W3_hz (z_h2 z)). pose proof W3_h31. vlay. unfold b3_2; rewrite ?Tw, ?Th; cbv beta zeta; inloop; unfold cur1, cur2, cur3, d1, d2, t1, t2, t3, s21, s31, s12, s32, s13, s23, av1, av2, av3, av12, av13, av23, q1, q2, q3; cbv beta; vcong; unfold b33', b13, b23, b33, j1, j2, j3, lev, half; izr; field; auto. Qed.
Lemma W3_b33 : AG (b3_3 c h z e g) (fun p q r : Z => (lev p3 (IZR r * dx1 g) (IZR q * dx2 g) ((IZR p - / 2) * dx3 g)) + b33) (-3) 2 (-3) 2 (-3) 2.
Proof. pose proof W3_J1; pose proof W3_J2; pose proof W3_J3; pose proof W3_bz1; pose proof W3_bz2; pose proof W3_bz3; pose proof (W3_hz (z_h2 z)). pose proof W3_h31. vlay. unfold b3_3; rewrite ?Tw, ?Th; cbv beta zeta; inloop; unfold cur1, cur2, cur3, d1, d2, t1, t2, t3, s21, s31, s12, s32, s13, s23, av1, av2, av3, av12, av13, av23, q1, q2, q3; cbv beta; vcong; unfold b33', b13, b23, b33, j1, j2, j3, lev, half; izr; field; auto. Qed.
Lemma W3_b31 : AG (b3_1 c z g) (fun p q r : Z => (lev p1 ((IZR r - / 2) * dx1 g) (IZR q * dx2 g) (IZR p * dx3 g))) (-4) 3 (-4) 3 (-3) 3.
Proof. exact W3_bz1. Qed.
Lemma W3_j31 : AG (j3_1 c h z e g) (fun p q r : Z => j1) (-2) 2 (-2) 2 (-3) 2.
Proof. pose proof W3_J1; pose proof W3_J2; pose proof W3_J3; pose proof W3_bz1; pose proof W3_bz2; pose proof W3_bz3; pose proof (W3_hz (z_h2 z)). pose proof W3_b32; pose proof W3_b33. vlay. unfold j3_1; rewrite ?Tw, ?Th; cbv beta zeta; inloop; unfold cur1, cur2, cur3, d1, d2, t1, t2, t3, s21, s31, s12, s32, s13, s23, av1, av2, av3, av12, av13, av23, q1, q2, q3; cbv beta; vcong; unfold b33', b13, b23, b33, j1, j2, j3, lev, half; izr; field; auto. Qed.
Lemma W3_j32 : AG (j3_2 c h z e g) (fun p q r : Z => j2) (-2) 2 (-3) 2 (-2) 2.
Proof. pose proof W3_J1; pose proof W3_J2; pose proof W3_J3; pose proof W3_bz1; pose proof W3_bz2; pose proof W3_bz3; pose proof (W3_hz (z_h2 z)). pose proof W3_b31; pose proof W3_b33. vlay. unfold j3_2; rewrite ?Tw, ?Th; cbv beta zeta; inloop; unfold cur1, cur2, cur3, d1, d2, t1, t2, t3, s21, s31, s12, s32, s13, s23, av1, av2, av3, av12, av13, av23, q1, q2, q3; cbv beta; vcong; unfold b33', b13, b23, b33, j1, j2, j3, lev, half; izr; field; auto. Qed.
Lemma W3_j33 : AG (j3_3 c h z e g) (fun p q r : Z => j3) (-3) 2 (-2) 2 (-2) 2.
Proof. pose proof W3_J1; pose proof W3_J2; pose proof W3_J3; pose proof W3_bz1; pose proof W3_bz2; pose proof W3_bz3; pose proof (W3_hz (z_h2 z)). pose proof W3_b31; pose proof W3_b32. vlay. unfold j3_3; rewrite ?Tw, ?Th; cbv beta zeta; inloop; unfold cur1, cur2, cur3, d1, d2, t1, t2, t3, s21, s31, s12, s32, s13, s23, av1, av2, av3, av12, av13, av23, q1, q2, q3; cbv beta; vcong; unfold b33', b13, b23, b33, j1, j2, j3, lev, half; izr; field; auto. Qed.
Lemma W3_h32 : AG (h3_2 c h z e g) (fun p q r : Z => Q * (j3 * (lev p1 ((IZR r - / 2) * dx1 g) (IZR q * dx2 g) ((IZR p - / 2) * dx3 g)) - j1 * ((lev p3 ((IZR r - / 2) * dx1 g) (IZR q * dx2 g) ((IZR p - / 2) * dx3 g)) + b33))) (-2) 2 (-2) 1 (-2) 2.
Proof. pose proof W3_J1; pose proof W3_J2; pose proof W3_J3; pose proof W3_bz1; pose proof W3_bz2; pose proof W3_bz3; pose proof (W3_hz (z_h2 z)). pose proof W3_b31; pose proof W3_b33; pose proof W3_j31; pose proof W3_j33. vlay. unfold h3_2; rewrite ?Tw, ?Th; cbv beta zeta; inloop; unfold cur1, cur2, cur3, d1, d2, t1, t2, t3, s21, s31, s12, s32, s13, s23, av1, av2, av3, av12, av13, av23, q1, q2, q3; cbv beta; vcong; unfold b33', b13, b23, b33, j1, j2, j3, lev, half; izr; field; auto. Qed.
Lemma W3_b31' : AG (b3_1' c h z e g) (fun p q r : Z => (lev p1 ((IZR r - / 2) * dx1 g) (IZR q * dx2 g) (IZR p * dx3 g)) + b13) (-2) 1 (-2) 1 (-2) 1.
Proof. pose proof W3_J1; pose proof W3_J2; pose proof W3_J3; pose proof W3_bz1; pose proof W3_bz2; pose proof W3_bz3; pose proof (W3_hz (z_h2 z)). pose proof W3_b31; pose proof W3_h32. vlay. unfold b3_1'; rewrite ?Tw, ?Th; cbv beta zeta; inloop; unfold cur1, cur2, cur3, d1, d2, t1, t2, t3, s21, s31, s12, s32, s13, s23, av1, av2, av3, av12, av13, av23, q1, q2, q3; cbv beta; vcong; unfold b33', b13, b23, b33, j1, j2, j3, lev, half; izr; field; auto. Qed.
Lemma W3_b33' : AG (b3_3' c h z e g) (fun p q r : Z => (lev p3 (IZR r * dx1 g) (IZR q * dx2 g) ((IZR p - / 2) * dx3 g)) + b33') (-2) 1 (-2) 1 (-2) 1.
Proof. pose proof W3_J1; pose proof W3_J2; pose proof W3_J3; pose proof W3_bz1; pose proof W3_bz2; pose proof W3_bz3; pose proof (W3_hz (z_h2 z)). pose proof W3_b33; pose proof W3_h32. vlay. unfold b3_3'; rewrite ?Tw, ?Th; cbv beta zeta; inloop; unfold cur1, cur2, cur3, d1, d2, t1, t2, t3, s21, s31, s12, s32, s13, s23, av1, av2, av3, av12, av13, av23, q1, q2, q3; cbv beta; vcong; unfold b33', b13, b23, b33, j1, j2, j3, lev, half; izr; field; auto. Qed.
Lemma W3_j31' : AG (j3_1' c h z e g) (fun p q r : Z => j1) (-1) 1 (-1) 1 (-2) 1.
Proof. pose proof W3_J1; pose proof W3_J2; pose proof W3_J3; pose proof W3_bz1; pose proof W3_bz2; pose proof W3_bz3; pose proof (W3_hz (z_h2 z)). pose proof W3_b32; pose proof W3_b33'. vlay. unfold j3_1'; rewrite ?Tw, ?Th; cbv beta zeta; inloop; unfold cur1, cur2, cur3, d1, d2, t1, t2, t3, s21, s31, s12, s32, s13, s23, av1, av2, av3, av12, av13, av23, q1, q2, q3; cbv beta; vcong; unfold b33', b13, b23, b33, j1, j2, j3, lev, half; izr; field; auto. Qed.
Lemma W3_j32' : AG (j3_2' c h z e g) (fun p q r : Z => j2) (-1) 1 (-2) 1 (-1) 1.
Proof. pose proof W3_J1; pose proof W3_J2; pose proof W3_J3; pose proof W3_bz1; pose proof W3_bz2; pose proof W3_bz3; pose proof (W3_hz (z_h2 z)). pose proof W3_b31'; pose proof W3_b33'. vlay. unfold j3_2'; rewrite ?Tw, ?Th; cbv beta zeta; inloop; unfold cur1, cur2, cur3, d1, d2, t1, t2, t3, s21, s31, s12, s32, s13, s23, av1, av2, av3, av12, av13, av23, q1, q2, q3; cbv beta; vcong; unfold b33', b13, b23, b33, j1, j2, j3, lev, half; izr; field; auto. Qed.
Lemma W3_h33 : AG (h3_3 c h z e g) (fun p q r : Z => Q * (j1 * ((lev p2 ((IZR r - / 2) * dx1 g) ((IZR q - / 2) * dx2 g) (IZR p * dx3 g)) + b23) - j2 * ((lev p1 ((IZR r - / 2) * dx1 g) ((IZR q - / 2) * dx2 g) (IZR p * dx3 g)) + b13))) (-1) 0 (-1) 1 (-1) 1.
Proof. pose proof W3_J1; pose proof W3_J2; pose proof W3_J3; pose proof W3_bz1; pose proof W3_bz2; pose proof W3_bz3; pose proof (W3_hz (z_h2 z)). pose proof W3_b32; pose proof W3_b31'; pose proof W3_j31'; pose proof W3_j32'. vlay. unfold h3_3; rewrite ?Tw, ?Th; cbv beta zeta; inloop; unfold cur1, cur2, cur3, d1, d2, t1, t2, t3, s21, s31, s12, s32, s13, s23, av1, av2, av3, av12, av13, av23, q1, q2, q3; cbv beta; vcong; unfold b33', b13, b23, b33, j1, j2, j3, lev, half; izr; field; auto. Qed.
End HallOn.
Definition W3_kc1 := if hall c then 0 else 0.
Lemma W3_e1 : emf1 c z e g k j i = (let y1 := (lev p1 (IZR i * dx1 g) ((IZR j - / 2) * dx2 g) ((IZR k - / 2) * dx3 g)) in let y2 := (lev p2 (IZR i * dx1 g) ((IZR j - / 2) * dx2 g) ((IZR k - / 2) * dx3 g)) in let y3 := (lev p3 (IZR i * dx1 g) ((IZR j - / 2) * dx2 g) ((IZR k - / 2) * dx3 g)) in
  ohms_law (if ohm c then o else 0) (if hall c then Q else 0) (if ambi c then a else 0) j1 j2 j3 y1 y2 y3 j1 y1 (j2 * y3 - j3 * y2)) + W3_kc1.
Proof.
  pose proof W3_J1 as PJ1; pose proof W3_J2 as PJ2; pose proof W3_J3 as PJ3. pose proof (W3_ez (z_e1 z)) as Z0.
  assert (Z1 : AG (if ohm c then O1 c z e g (ez c g (z_e1 z)) else ez c g (z_e1 z)) (fun _ _ _ => (if ohm c then o else 0) * j1) 0 0 0 0 0 0).
  { vlay. destruct (ohm c); [|rewrite Rmult_0_l; apply Z0; lia]. unfold O1. rewrite Tw, ?Th. rewrite !loop3_in by lia. unfold av1, av2, av12, av13, av23, half. vcong. field. }
  unfold emf1, step2. cbv zeta. set (Y := if ohm c then O1 c z e g (ez c g (z_e1 z)) else ez c g (z_e1 z)) in *. clearbody Y.
  assert (Z2 : AG (if hall c then H1 c z e g Y else Y) (fun p q r => (if ohm c then o else 0) * j1 + (if hall c then Q * (j2 * (lev p3 (IZR r * dx1 g) ((IZR q - / 2) * dx2 g) ((IZR p - / 2) * dx3 g)) - j3 * (lev p2 (IZR r * dx1 g) ((IZR q - / 2) * dx2 g) ((IZR p - / 2) * dx3 g))) else 0)) 0 0 0 0 0 0).
  { vlay. destruct (hall c) eqn:Ho; [|rewrite Rplus_0_r; apply Z1; lia]. unfold H1. rewrite Tw, ?Th. pose proof (W3_h31 Ho). rewrite !loop3_in by lia. vcong. ring. }
  set (V := if hall c then H1 c z e g Y else Y) in *. clearbody V. unfold W3_kc1, ohms_law. cbv zeta.
  destruct (ambi c).
  - unfold A1. rewrite Tw, ?Th. rewrite !loop3_in by lia. unfold ad1, ad3_1, ad; cbv zeta; unfold s21, s31, s12, s32, s13, s23, av1, av2, av3, av12, av13, av23. vcong. try replace (/ 4 * (a + a + a + a)) with a by field. try replace (half * (a + a)) with a by (unfold half; field).
    match goal with |- ?x + a * (?jn - ?s1 * ?b1 / ?t1) = ?oo + a * (_ - ?s2 * ?b2 / ?t2) + ?kk => replace (s1 * b1 / t1) with (s2 * b2 / t2) end.
    + set (o' := if ohm c then o else 0). clearbody o'. match goal with |- context [?s * ?b / ?t] => set (W := s * b / t); clearbody W end. destruct (hall c); unfold j1, j2, j3, lev, half; izr; field.
    + f_equal; unfold j1, j2, j3, lev, half; izr; field.
  - replace (V k j i) with ((if ohm c then o else 0) * j1 + (if hall c then Q * (j2 * (lev p3 (IZR i * dx1 g) ((IZR j - / 2) * dx2 g) ((IZR k - / 2) * dx3 g)) - j3 * (lev p2 (IZR i * dx1 g) ((IZR j - / 2) * dx2 g) ((IZR k - / 2) * dx3 g))) else 0)) by (symmetry; apply Z2; lia).
    set (o' := if ohm c then o else 0). clearbody o'. destruct (hall c); unfold j1, j2, j3, lev, half, Rdiv; izr; ring.
Qed.
Definition W3_kc2 := if hall c then - Q * j1 * b33 else 0.
Lemma W3_e2 : emf2 c h z e g k j i = (let y1 := (lev p1 ((IZR i - / 2) * dx1 g) (IZR j * dx2 g) ((IZR k - / 2) * dx3 g)) in let y2 := (lev p2 ((IZR i - / 2) * dx1 g) (IZR j * dx2 g) ((IZR k - / 2) * dx3 g)) in let y3 := (lev p3 ((IZR i - / 2) * dx1 g) (IZR j * dx2 g) ((IZR k - / 2) * dx3 g)) in
  ohms_law (if ohm c then o else 0) (if hall c then Q else 0) (if ambi c then a else 0) j1 j2 j3 y1 y2 y3 j2 y2 (j3 * y1 - j1 * y3)) + W3_kc2.
Proof.
  pose proof W3_J1 as PJ1; pose proof W3_J2 as PJ2; pose proof W3_J3 as PJ3. pose proof (W3_ez (z_e2 z)) as Z0.
  assert (Z1 : AG (if ohm c then O2 c z e g (ez c g (z_e2 z)) else ez c g (z_e2 z)) (fun _ _ _ => (if ohm c then o else 0) * j2) 0 0 0 0 0 0).
  { vlay. destruct (ohm c); [|rewrite Rmult_0_l; apply Z0; lia]. unfold O2. rewrite Tw, ?Th. rewrite !loop3_in by lia. unfold av1, av2, av12, av13, av23, half. vcong. field. }
  unfold emf2, step2. cbv zeta. set (Y := if ohm c then O2 c z e g (ez c g (z_e2 z)) else ez c g (z_e2 z)) in *. clearbody Y.
  assert (Z2 : AG (if hall c then H2 c h z e g Y else Y) (fun p q r => (if ohm c then o else 0) * j2 + (if hall c then Q * (j3 * (lev p1 ((IZR r - / 2) * dx1 g) (IZR q * dx2 g) ((IZR p - / 2) * dx3 g)) - j1 * ((lev p3 ((IZR r - / 2) * dx1 g) (IZR q * dx2 g) ((IZR p - / 2) * dx3 g)) + b33)) else 0)) 0 0 0 0 0 0).
  { vlay. destruct (hall c) eqn:Ho; [|rewrite Rplus_0_r; apply Z1; lia]. unfold H2. rewrite Tw, ?Th. pose proof (W3_h32 Ho). rewrite !loop3_in by lia. vcong. ring. }
  set (V := if hall c then H2 c h z e g Y else Y) in *. clearbody V. unfold W3_kc2, ohms_law. cbv zeta.
  destruct (ambi c).
  - unfold A2. rewrite Tw, ?Th. rewrite !loop3_in by lia. unfold ad1, ad3_2, ad; cbv zeta; unfold s21, s31, s12, s32, s13, s23, av1, av2, av3, av12, av13, av23. vcong. try replace (/ 4 * (a + a + a + a)) with a by field. try replace (half * (a + a)) with a by (unfold half; field).
    match goal with |- ?x + a * (?jn - ?s1 * ?b1 / ?t1) = ?oo + a * (_ - ?s2 * ?b2 / ?t2) + ?kk => replace (s1 * b1 / t1) with (s2 * b2 / t2) end.
    + set (o' := if ohm c then o else 0). clearbody o'. match goal with |- context [?s * ?b / ?t] => set (W := s * b / t); clearbody W end. destruct (hall c); unfold j1, j2, j3, lev, half; izr; field.
    + f_equal; unfold j1, j2, j3, lev, half; izr; field.
  - replace (V k j i) with ((if ohm c then o else 0) * j2 + (if hall c then Q * (j3 * (lev p1 ((IZR i - / 2) * dx1 g) (IZR j * dx2 g) ((IZR k - / 2) * dx3 g)) - j1 * ((lev p3 ((IZR i - / 2) * dx1 g) (IZR j * dx2 g) ((IZR k - / 2) * dx3 g)) + b33)) else 0)) by (symmetry; apply Z2; lia).
    set (o' := if ohm c then o else 0). clearbody o'. destruct (hall c); unfold j1, j2, j3, lev, half, Rdiv; izr; ring.
Qed.
Definition W3_kc3 := if hall c then Q * (j1 * b23 - j2 * b13) else 0.
Lemma W3_e3 : emf3 c h z e g k j i = (let y1 := (lev p1 ((IZR i - / 2) * dx1 g) ((IZR j - / 2) * dx2 g) (IZR k * dx3 g)) in let y2 := (lev p2 ((IZR i - / 2) * dx1 g) ((IZR j - / 2) * dx2 g) (IZR k * dx3 g)) in let y3 := (lev p3 ((IZR i - / 2) * dx1 g) ((IZR j - / 2) * dx2 g) (IZR k * dx3 g)) in
  ohms_law (if ohm c then o else 0) (if hall c then Q else 0) (if ambi c then a else 0) j1 j2 j3 y1 y2 y3 j3 y3 (j1 * y2 - j2 * y1)) + W3_kc3.
Proof.
  pose proof W3_J1 as PJ1; pose proof W3_J2 as PJ2; pose proof W3_J3 as PJ3. pose proof (W3_ez (z_e3 z)) as Z0.
  assert (Z1 : AG (if ohm c then O3 c z e g (ez c g (z_e3 z)) else ez c g (z_e3 z)) (fun _ _ _ => (if ohm c then o else 0) * j3) 0 0 0 0 0 0).
  { vlay. destruct (ohm c); [|rewrite Rmult_0_l; apply Z0; lia]. unfold O3. rewrite Tw, ?Th. rewrite !loop3_in by lia. unfold av1, av2, av12, av13, av23, half. vcong. field. }
  unfold emf3, step2. cbv zeta. set (Y := if ohm c then O3 c z e g (ez c g (z_e3 z)) else ez c g (z_e3 z)) in *. clearbody Y.
  assert (Z2 : AG (if hall c then H3 c h z e g Y else Y) (fun p q r => (if ohm c then o else 0) * j3 + (if hall c then Q * (j1 * ((lev p2 ((IZR r - / 2) * dx1 g) ((IZR q - / 2) * dx2 g) (IZR p * dx3 g)) + b23) - j2 * ((lev p1 ((IZR r - / 2) * dx1 g) ((IZR q - / 2) * dx2 g) (IZR p * dx3 g)) + b13)) else 0)) 0 0 0 0 0 0).
  { vlay. destruct (hall c) eqn:Ho; [|rewrite Rplus_0_r; apply Z1; lia]. unfold H3. rewrite Tw, ?Th. pose proof (W3_h33 Ho). rewrite !loop3_in by lia. vcong. ring. }
  set (V := if hall c then H3 c h z e g Y else Y) in *. clearbody V. unfold W3_kc3, ohms_law. cbv zeta.
  destruct (ambi c).
  - unfold A3. rewrite Tw, ?Th. rewrite !loop3_in by lia. unfold ad1, ad3_3, ad; cbv zeta; unfold s21, s31, s12, s32, s13, s23, av1, av2, av3, av12, av13, av23. vcong. try replace (/ 4 * (a + a + a + a)) with a by field. try replace (half * (a + a)) with a by (unfold half; field).
    match goal with |- ?x + a * (?jn - ?s1 * ?b1 / ?t1) = ?oo + a * (_ - ?s2 * ?b2 / ?t2) + ?kk => replace (s1 * b1 / t1) with (s2 * b2 / t2) end.
    + set (o' := if ohm c then o else 0). clearbody o'. match goal with |- context [?s * ?b / ?t] => set (W := s * b / t); clearbody W end. destruct (hall c); unfold j1, j2, j3, lev, half; izr; field.
    + f_equal; unfold j1, j2, j3, lev, half; izr; field.
  - replace (V k j i) with ((if ohm c then o else 0) * j3 + (if hall c then Q * (j1 * ((lev p2 ((IZR i - / 2) * dx1 g) ((IZR j - / 2) * dx2 g) (IZR k * dx3 g)) + b23) - j2 * ((lev p1 ((IZR i - / 2) * dx1 g) ((IZR j - / 2) * dx2 g) (IZR k * dx3 g)) + b13)) else 0)) by (symmetry; apply Z2; lia).
    set (o' := if ohm c then o else 0). clearbody o'. destruct (hall c); unfold j1, j2, j3, lev, half, Rdiv; izr; ring.
Qed.
End Exact3.

Section Exact2.
Variables (c : dcfg) (h : R) (z : rscratch) (e : etas) (g : grid3) (k j i : Z) (p1 p2 p3 : affine) (o Q a : R).
Hypothesis (Tw : two c = true) (Th : three c = false).
Hypothesis (Ci : (is g <= i <= ie g + 1)%Z) (Cj : (js g <= j <= je g + 1)%Z) (Ck : k = ks g) (K1 : ks g = ke g).
Hypothesis (X1 : dx1 g <> 0) (X2 : dx2 g <> 0) (X3 : dx3 g <> 0).
Notation AG F v a b c0 d e0 f0 := (vl k j i F v a b c0 d e0 f0).
Hypothesis (W2_b1 : AG (b1c g) (fun p q r : Z => (lev p1 (IZR r * dx1 g) (IZR q * dx2 g) (0))) 0 0 (-4) 3 (-4) 3).
Hypothesis (W2_b2 : AG (b2c g) (fun p q r : Z => (lev p2 (IZR r * dx1 g) (IZR q * dx2 g) (0))) 0 0 (-4) 3 (-4) 3).
Hypothesis (W2_b3 : AG (b3c g) (fun p q r : Z => (lev p3 (IZR r * dx1 g) (IZR q * dx2 g) (0))) 0 0 (-4) 3 (-4) 3).
Hypothesis (W2_B1 : AG (B1i g) (fun p q r : Z => (lev p1 ((IZR r - / 2) * dx1 g) (IZR q * dx2 g) (0))) 0 0 (-4) 3 (-3) 3).
Hypothesis (W2_B2 : AG (B2i g) (fun p q r : Z => (lev p2 (IZR r * dx1 g) ((IZR q - / 2) * dx2 g) (0))) 0 0 (-3) 3 (-4) 3).
Hypothesis (W2_B3 : AG (B3i g) (fun p q r : Z => (lev p3 (IZR r * dx1 g) (IZR q * dx2 g) (0))) 0 0 (-4) 3 (-4) 3).
Hypothesis (W2_eO : AG (e_O e) (fun _ _ _ => o) 0 0 (-4) 3 (-4) 3) (W2_eA : AG (e_A e) (fun _ _ _ => a) 0 0 (-4) 3 (-4) 3) (W2_eH : AG (eH c e g) (fun _ _ _ => Q) 0 0 (-4) 3 (-4) 3).
Let j1 := l_2 p3 - 0. Let j2 := 0 - l_1 p3. Let j3 := l_1 p2 - l_2 p1.
Lemma W2_J1 : AG (J1 c z g) (fun p q r : Z => j1) 0 0 (-3) 3 (-4) 3.
Proof. vlay. unfold J1; rewrite ?Tw, ?Th; cbv beta zeta; inloop; unfold cur1, cur2, cur3, d1, d2, t1, t2, t3, s21, s31, s12, s32, s13, s23, av1, av2, av3, av12, av13, av23, q1, q2, q3; cbv beta; vcong; unfold j1, j2, j3, lev, half; izr; field; auto. Qed.
Lemma W2_J2 : AG (J2 c z g) (fun p q r : Z => j2) 0 0 (-4) 3 (-3) 3.
Proof. vlay. unfold J2; rewrite ?Tw, ?Th; cbv beta zeta; inloop; unfold cur1, cur2, cur3, d1, d2, t1, t2, t3, s21, s31, s12, s32, s13, s23, av1, av2, av3, av12, av13, av23, q1, q2, q3; cbv beta; vcong; unfold j1, j2, j3, lev, half; izr; field; auto. Qed.
Lemma W2_J3 : AG (J3 c z g) (fun p q r : Z => j3) 0 0 (-3) 3 (-3) 3.
Proof. vlay. unfold J3; rewrite ?Tw, ?Th; cbv beta zeta; inloop; unfold cur1, cur2, cur3, d1, d2, t1, t2, t3, s21, s31, s12, s32, s13, s23, av1, av2, av3, av12, av13, av23, q1, q2, q3; cbv beta; vcong; unfold j1, j2, j3, lev, half; izr; field; auto. Qed.
Lemma W2_ez : forall o, AG (ez c g o) (fun _ _ _ => 0) 0 0 (-4) 3 (-4) 3.
Proof. intros o0. vlay. unfold ez, rkl, rku, rjl, rju. rewrite Tw, Th. rewrite !loop3_in by lia. reflexivity. Qed.
Let b23 := - h * Q * (j2 * 0 - j3 * 0). Let b33 := h * Q * (j2 * l_2 p3 - j3 * l_2 p2).
Let b13 := h * Q * (j3 * 0 - j1 * 0). Let b33' := b33 - h * Q * (j3 * l_1 p1 - j1 * l_1 p3).
Section HallOn.
Hypothesis (Ho : hall c = true).
Lemma W2_hz : forall o, AG (hz c g o) (fun _ _ _ => 0) 0 0 (-4) 3 (-4) 3.
Proof. intros o0. vlay. unfold hz, rkl, rku, rjl, rju. rewrite Ho, Tw, Th. rewrite !loop3_in by lia. reflexivity. Qed.
Lemma W2_bz1 : AG (bz c g (B1i g) (z_b1 z)) (fun p q r : Z => (lev p1 ((IZR r - / 2) * dx1 g) (IZR q * dx2 g) (0))) 0 0 (-4) 3 (-3) 3.
Proof. vlay. unfold bz, rkl, rku, rjl, rju. rewrite Ho, Tw, Th. rewrite !loop3_in by lia. vcong. reflexivity. Qed.
Lemma W2_bz2 : AG (bz c g (B2i g) (z_b2 z)) (fun p q r : Z => (lev p2 (IZR r * dx1 g) ((IZR q - / 2) * dx2 g) (0))) 0 0 (-3) 3 (-4) 3.
Proof. vlay. unfold bz, rkl, rku, rjl, rju. rewrite Ho, Tw, Th. rewrite !loop3_in by lia. vcong. reflexivity. Qed.
Lemma W2_bz3 : AG (bz c g (B3i g) (z_b3 z)) (fun p q r : Z => (lev p3 (IZR r * dx1 g) (IZR q * dx2 g) (0))) 0 0 (-4) 3 (-4) 3.
Proof. vlay. unfold bz, rkl, rku, rjl, rju. rewrite Ho, Tw, Th. rewrite !loop3_in by lia. vcong. reflexivity. Qed.
Lemma W2_h21 : AG (h2_1 c z e g) (fun p q r : Z => Q * (j2 * (lev p3 (IZR r * dx1 g) ((IZR q - / 2) * dx2 g) (0)) - j3 * (lev p2 (IZR r * dx1 g) ((IZR q - / 2) * dx2 g) (0)))) 0 0 (-3) 3 (-3) 2.
Proof. pose proof W2_J1; pose proof W2_J2; pose proof W2_J3; pose proof W2_bz1; pose proof W2_bz2; pose proof W2_bz3; pose proof (W2_hz (z_h2 z)). vlay. unfold h2_1; rewrite ?Tw, ?Th; cbv beta zeta; inloop; unfold cur1, cur2, cur3, d1, d2, t1, t2, t3, s21, s31, s12, s32, s13, s23, av1, av2, av3, av12, av13, av23, q1, q2, q3; cbv beta; vcong; unfold b33', b13, b23, b33, j1, j2, j3, lev, half; izr; field; auto. Qed.
Lemma W2_b23 : AG (b2_3 c h z e g) (fun p q r : Z => (lev p3 (IZR r * dx1 g) (IZR q * dx2 g) (0)) + b33) 0 0 (-3) 2 (-3) 2.
Proof. pose proof W2_J1; pose proof W2_J2; pose proof W2_J3; pose proof W2_bz1; pose proof W2_bz2; pose proof W2_bz3; pose proof (W2_hz (z_h2 z)). pose proof W2_h21. vlay. unfold b2_3; rewrite ?Tw, ?Th; cbv beta zeta; inloop; unfold cur1, cur2, cur3, d1, d2, t1, t2, t3, s21, s31, s12, s32, s13, s23, av1, av2, av3, av12, av13, av23, q1, q2, q3; cbv beta; vcong; unfold b33', b13, b23, b33, j1, j2, j3, lev, half; izr; field; auto. Qed.
Lemma W2_j21 : AG (j2_1 c h z e g) (fun p q r : Z => j1) 0 0 (-2) 2 (-3) 2.
Proof. pose proof W2_J1; pose proof W2_J2; pose proof W2_J3; pose proof W2_bz1; pose proof W2_bz2; pose proof W2_bz3; pose proof (W2_hz (z_h2 z)). pose proof W2_b23. vlay. unfold j2_1; rewrite ?Tw, ?Th; cbv beta zeta; inloop; unfold cur1, cur2, cur3, d1, d2, t1, t2, t3, s21, s31, s12, s32, s13, s23, av1, av2, av3, av12, av13, av23, q1, q2, q3; cbv beta; vcong; unfold b33', b13, b23, b33, j1, j2, j3, lev, half; izr; field; auto. Qed.
Lemma W2_j22 : AG (j2_2 c h z e g) (fun p q r : Z => j2) 0 0 (-3) 2 (-2) 2.
Proof. pose proof W2_J1; pose proof W2_J2; pose proof W2_J3; pose proof W2_bz1; pose proof W2_bz2; pose proof W2_bz3; pose proof (W2_hz (z_h2 z)). pose proof W2_b23. vlay. unfold j2_2; rewrite ?Tw, ?Th; cbv beta zeta; inloop; unfold cur1, cur2, cur3, d1, d2, t1, t2, t3, s21, s31, s12, s32, s13, s23, av1, av2, av3, av12, av13, av23, q1, q2, q3; cbv beta; vcong; unfold b33', b13, b23, b33, j1, j2, j3, lev, half; izr; field; auto. Qed.
Lemma W2_j23 : AG (j2_3 c z g) (fun p q r : Z => j3) 0 0 (-2) 2 (-2) 2.
Proof. pose proof W2_J1; pose proof W2_J2; pose proof W2_J3; pose proof W2_bz1; pose proof W2_bz2; pose proof W2_bz3; pose proof (W2_hz (z_h2 z)). vlay. unfold j2_3; rewrite ?Tw, ?Th; cbv beta zeta; inloop; unfold cur1, cur2, cur3, d1, d2, t1, t2, t3, s21, s31, s12, s32, s13, s23, av1, av2, av3, av12, av13, av23, q1, q2, q3; cbv beta; vcong; unfold b33', b13, b23, b33, j1, j2, j3, lev, half; izr; field; auto. Qed.
Lemma W2_h22 : AG (h2_2 c h z e g) (fun p q r : Z => Q * (j3 * (lev p1 ((IZR r - / 2) * dx1 g) (IZR q * dx2 g) (0)) - j1 * ((lev p3 ((IZR r - / 2) * dx1 g) (IZR q * dx2 g) (0)) + b33))) 0 0 (-2) 1 (-2) 2.
Proof. pose proof W2_J1; pose proof W2_J2; pose proof W2_J3; pose proof W2_bz1; pose proof W2_bz2; pose proof W2_bz3; pose proof (W2_hz (z_h2 z)). pose proof W2_b23; pose proof W2_j21; pose proof W2_j23. vlay. unfold h2_2; rewrite ?Tw, ?Th; cbv beta zeta; inloop; unfold cur1, cur2, cur3, d1, d2, t1, t2, t3, s21, s31, s12, s32, s13, s23, av1, av2, av3, av12, av13, av23, q1, q2, q3; cbv beta; vcong; unfold b33', b13, b23, b33, j1, j2, j3, lev, half; izr; field; auto. Qed.
Lemma W2_b23' : AG (b2_3' c h z e g) (fun p q r : Z => (lev p3 (IZR r * dx1 g) (IZR q * dx2 g) (0)) + b33') 0 0 (-2) 1 (-2) 1.
Proof. pose proof W2_J1; pose proof W2_J2; pose proof W2_J3; pose proof W2_bz1; pose proof W2_bz2; pose proof W2_bz3; pose proof (W2_hz (z_h2 z)). pose proof W2_b23; pose proof W2_h22. vlay. unfold b2_3'; rewrite ?Tw, ?Th; cbv beta zeta; inloop; unfold cur1, cur2, cur3, d1, d2, t1, t2, t3, s21, s31, s12, s32, s13, s23, av1, av2, av3, av12, av13, av23, q1, q2, q3; cbv beta; vcong; unfold b33', b13, b23, b33, j1, j2, j3, lev, half; izr; field; auto. Qed.
Lemma W2_j21' : AG (j2_1' c h z e g) (fun p q r : Z => j1) 0 0 (-1) 1 (-2) 1.
Proof. pose proof W2_J1; pose proof W2_J2; pose proof W2_J3; pose proof W2_bz1; pose proof W2_bz2; pose proof W2_bz3; pose proof (W2_hz (z_h2 z)). pose proof W2_b23'. vlay. unfold j2_1'; rewrite ?Tw, ?Th; cbv beta zeta; inloop; unfold cur1, cur2, cur3, d1, d2, t1, t2, t3, s21, s31, s12, s32, s13, s23, av1, av2, av3, av12, av13, av23, q1, q2, q3; cbv beta; vcong; unfold b33', b13, b23, b33, j1, j2, j3, lev, half; izr; field; auto. Qed.
Lemma W2_j22' : AG (j2_2' c h z e g) (fun p q r : Z => j2) 0 0 (-2) 1 (-1) 1.
Proof. pose proof W2_J1; pose proof W2_J2; pose proof W2_J3; pose proof W2_bz1; pose proof W2_bz2; pose proof W2_bz3; pose proof (W2_hz (z_h2 z)). pose proof W2_b23'. vlay. unfold j2_2'; rewrite ?Tw, ?Th; cbv beta zeta; inloop; unfold cur1, cur2, cur3, d1, d2, t1, t2, t3, s21, s31, s12, s32, s13, s23, av1, av2, av3, av12, av13, av23, q1, q2, q3; cbv beta; vcong; unfold b33', b13, b23, b33, j1, j2, j3, lev, half; izr; field; auto. Qed.
Lemma W2_h23 : AG (h2_3 c h z e g) (fun p q r : Z => Q * (j1 * (lev p2 ((IZR r - / 2) * dx1 g) ((IZR q - / 2) * dx2 g) (0)) - j2 * (lev p1 ((IZR r - / 2) * dx1 g) ((IZR q - / 2) * dx2 g) (0)))) 0 0 (-1) 1 (-1) 1.
Proof. pose proof W2_J1; pose proof W2_J2; pose proof W2_J3; pose proof W2_bz1; pose proof W2_bz2; pose proof W2_bz3; pose proof (W2_hz (z_h2 z)). pose proof W2_j21'; pose proof W2_j22'. vlay. unfold h2_3; rewrite ?Tw, ?Th; cbv beta zeta; inloop; unfold cur1, cur2, cur3, d1, d2, t1, t2, t3, s21, s31, s12, s32, s13, s23, av1, av2, av3, av12, av13, av23, q1, q2, q3; cbv beta; vcong; unfold b33', b13, b23, b33, j1, j2, j3, lev, half; izr; field; auto. Qed.
End HallOn.
Definition W2_kc1 := if hall c then 0 else 0.
Lemma W2_e1 : emf1 c z e g k j i = (let y1 := (lev p1 (IZR i * dx1 g) ((IZR j - / 2) * dx2 g) (0)) in let y2 := (lev p2 (IZR i * dx1 g) ((IZR j - / 2) * dx2 g) (0)) in let y3 := (lev p3 (IZR i * dx1 g) ((IZR j - / 2) * dx2 g) (0)) in
  ohms_law (if ohm c then o else 0) (if hall c then Q else 0) (if ambi c then a else 0) j1 j2 j3 y1 y2 y3 j1 y1 (j2 * y3 - j3 * y2)) + W2_kc1.
Proof.
  pose proof W2_J1 as PJ1; pose proof W2_J2 as PJ2; pose proof W2_J3 as PJ3. pose proof (W2_ez (z_e1 z)) as Z0.
  assert (Z1 : AG (if ohm c then O1 c z e g (ez c g (z_e1 z)) else ez c g (z_e1 z)) (fun _ _ _ => (if ohm c then o else 0) * j1) 0 0 0 0 0 0).
  { vlay. destruct (ohm c); [|rewrite Rmult_0_l; apply Z0; lia]. unfold O1. rewrite Tw, ?Th. rewrite !loop3_in by lia. unfold av1, av2, av12, av13, av23, half. vcong. field. }
  unfold emf1, step2. cbv zeta. set (Y := if ohm c then O1 c z e g (ez c g (z_e1 z)) else ez c g (z_e1 z)) in *. clearbody Y.
  assert (Z2 : AG (if hall c then H1 c z e g Y else Y) (fun p q r => (if ohm c then o else 0) * j1 + (if hall c then Q * (j2 * (lev p3 (IZR r * dx1 g) ((IZR q - / 2) * dx2 g) (0)) - j3 * (lev p2 (IZR r * dx1 g) ((IZR q - / 2) * dx2 g) (0))) else 0)) 0 0 0 0 0 0).
  { vlay. destruct (hall c) eqn:Ho; [|rewrite Rplus_0_r; apply Z1; lia]. unfold H1. rewrite Tw, ?Th. pose proof (W2_h21 Ho). rewrite !loop3_in by lia. vcong. ring. }
  set (V := if hall c then H1 c z e g Y else Y) in *. clearbody V. unfold W2_kc1, ohms_law. cbv zeta.
  destruct (ambi c).
  - unfold A1. rewrite Tw, ?Th. rewrite !loop3_in by lia. unfold ad1, ad2_1, ad; cbv zeta; unfold s21, s31, s12, s32, s13, s23, av1, av2, av3, av12, av13, av23. vcong. try replace (/ 4 * (a + a + a + a)) with a by field. try replace (half * (a + a)) with a by (unfold half; field).
    match goal with |- ?x + a * (?jn - ?s1 * ?b1 / ?t1) = ?oo + a * (_ - ?s2 * ?b2 / ?t2) + ?kk => replace (s1 * b1 / t1) with (s2 * b2 / t2) end.
    + set (o' := if ohm c then o else 0). clearbody o'. match goal with |- context [?s * ?b / ?t] => set (W := s * b / t); clearbody W end. destruct (hall c); unfold j1, j2, j3, lev, half; izr; field.
    + f_equal; unfold j1, j2, j3, lev, half; izr; field.
  - replace (V k j i) with ((if ohm c then o else 0) * j1 + (if hall c then Q * (j2 * (lev p3 (IZR i * dx1 g) ((IZR j - / 2) * dx2 g) (0)) - j3 * (lev p2 (IZR i * dx1 g) ((IZR j - / 2) * dx2 g) (0))) else 0)) by (symmetry; apply Z2; lia).
    set (o' := if ohm c then o else 0). clearbody o'. destruct (hall c); unfold j1, j2, j3, lev, half, Rdiv; izr; ring.
Qed.
Definition W2_kc2 := if hall c then - Q * j1 * b33 else 0.
Lemma W2_e2 : emf2 c h z e g k j i = (let y1 := (lev p1 ((IZR i - / 2) * dx1 g) (IZR j * dx2 g) (0)) in let y2 := (lev p2 ((IZR i - / 2) * dx1 g) (IZR j * dx2 g) (0)) in let y3 := (lev p3 ((IZR i - / 2) * dx1 g) (IZR j * dx2 g) (0)) in
  ohms_law (if ohm c then o else 0) (if hall c then Q else 0) (if ambi c then a else 0) j1 j2 j3 y1 y2 y3 j2 y2 (j3 * y1 - j1 * y3)) + W2_kc2.
Proof.
  pose proof W2_J1 as PJ1; pose proof W2_J2 as PJ2; pose proof W2_J3 as PJ3. pose proof (W2_ez (z_e2 z)) as Z0.
  assert (Z1 : AG (if ohm c then O2 c z e g (ez c g (z_e2 z)) else ez c g (z_e2 z)) (fun _ _ _ => (if ohm c then o else 0) * j2) 0 0 0 0 0 0).
  { vlay. destruct (ohm c); [|rewrite Rmult_0_l; apply Z0; lia]. unfold O2. rewrite Tw, ?Th. rewrite !loop3_in by lia. unfold av1, av2, av12, av13, av23, half. vcong. field. }
  unfold emf2, step2. cbv zeta. set (Y := if ohm c then O2 c z e g (ez c g (z_e2 z)) else ez c g (z_e2 z)) in *. clearbody Y.
  assert (Z2 : AG (if hall c then H2 c h z e g Y else Y) (fun p q r => (if ohm c then o else 0) * j2 + (if hall c then Q * (j3 * (lev p1 ((IZR r - / 2) * dx1 g) (IZR q * dx2 g) (0)) - j1 * ((lev p3 ((IZR r - / 2) * dx1 g) (IZR q * dx2 g) (0)) + b33)) else 0)) 0 0 0 0 0 0).
  { vlay. destruct (hall c) eqn:Ho; [|rewrite Rplus_0_r; apply Z1; lia]. unfold H2. rewrite Tw, ?Th. pose proof (W2_h22 Ho). rewrite !loop3_in by lia. vcong. ring. }
  set (V := if hall c then H2 c h z e g Y else Y) in *. clearbody V. unfold W2_kc2, ohms_law. cbv zeta.
  destruct (ambi c).
  - unfold A2. rewrite Tw, ?Th. rewrite !loop3_in by lia. unfold ad1, ad2_2, ad; cbv zeta; unfold s21, s31, s12, s32, s13, s23, av1, av2, av3, av12, av13, av23. vcong. try replace (/ 4 * (a + a + a + a)) with a by field. try replace (half * (a + a)) with a by (unfold half; field).
    match goal with |- ?x + a * (?jn - ?s1 * ?b1 / ?t1) = ?oo + a * (_ - ?s2 * ?b2 / ?t2) + ?kk => replace (s1 * b1 / t1) with (s2 * b2 / t2) end.
    + set (o' := if ohm c then o else 0). clearbody o'. match goal with |- context [?s * ?b / ?t] => set (W := s * b / t); clearbody W end. destruct (hall c); unfold j1, j2, j3, lev, half; izr; field.
    + f_equal; unfold j1, j2, j3, lev, half; izr; field.
  - replace (V k j i) with ((if ohm c then o else 0) * j2 + (if hall c then Q * (j3 * (lev p1 ((IZR i - / 2) * dx1 g) (IZR j * dx2 g) (0)) - j1 * ((lev p3 ((IZR i - / 2) * dx1 g) (IZR j * dx2 g) (0)) + b33)) else 0)) by (symmetry; apply Z2; lia).
    set (o' := if ohm c then o else 0). clearbody o'. destruct (hall c); unfold j1, j2, j3, lev, half, Rdiv; izr; ring.
Qed.
Definition W2_kc3 := if hall c then 0 else 0.
Lemma W2_e3 : emf3 c h z e g k j i = (let y1 := (lev p1 ((IZR i - / 2) * dx1 g) ((IZR j - / 2) * dx2 g) (0)) in let y2 := (lev p2 ((IZR i - / 2) * dx1 g) ((IZR j - / 2) * dx2 g) (0)) in let y3 := (lev p3 ((IZR i - / 2) * dx1 g) ((IZR j - / 2) * dx2 g) (0)) in
  ohms_law (if ohm c then o else 0) (if hall c then Q else 0) (if ambi c then a else 0) j1 j2 j3 y1 y2 y3 j3 y3 (j1 * y2 - j2 * y1)) + W2_kc3.
Proof.
  pose proof W2_J1 as PJ1; pose proof W2_J2 as PJ2; pose proof W2_J3 as PJ3. pose proof (W2_ez (z_e3 z)) as Z0.
  assert (Z1 : AG (if ohm c then O3 c z e g (ez c g (z_e3 z)) else ez c g (z_e3 z)) (fun _ _ _ => (if ohm c then o else 0) * j3) 0 0 0 0 0 0).
  { vlay. destruct (ohm c); [|rewrite Rmult_0_l; apply Z0; lia]. unfold O3. rewrite Tw, ?Th. rewrite !loop3_in by lia. unfold av1, av2, av12, av13, av23, half. vcong. field. }
  unfold emf3, step2. cbv zeta. set (Y := if ohm c then O3 c z e g (ez c g (z_e3 z)) else ez c g (z_e3 z)) in *. clearbody Y.
  assert (Z2 : AG (if hall c then H3 c h z e g Y else Y) (fun p q r => (if ohm c then o else 0) * j3 + (if hall c then Q * (j1 * (lev p2 ((IZR r - / 2) * dx1 g) ((IZR q - / 2) * dx2 g) (0)) - j2 * (lev p1 ((IZR r - / 2) * dx1 g) ((IZR q - / 2) * dx2 g) (0))) else 0)) 0 0 0 0 0 0).
  { vlay. destruct (hall c) eqn:Ho; [|rewrite Rplus_0_r; apply Z1; lia]. unfold H3. rewrite Tw, ?Th. pose proof (W2_h23 Ho). rewrite !loop3_in by lia. vcong. ring. }
  set (V := if hall c then H3 c h z e g Y else Y) in *. clearbody V. unfold W2_kc3, ohms_law. cbv zeta.
  destruct (ambi c).
  - unfold A3. rewrite Tw, ?Th. rewrite !loop3_in by lia. unfold ad1, ad2_3, ad; cbv zeta; unfold s21, s31, s12, s32, s13, s23, av1, av2, av3, av12, av13, av23. vcong. try replace (/ 4 * (a + a + a + a)) with a by field. try replace (half * (a + a)) with a by (unfold half; field).
    match goal with |- ?x + a * (?jn - ?s1 * ?b1 / ?t1) = ?oo + a * (_ - ?s2 * ?b2 / ?t2) + ?kk => replace (s1 * b1 / t1) with (s2 * b2 / t2) end.
    + set (o' := if ohm c then o else 0). clearbody o'. match goal with |- context [?s * ?b / ?t] => set (W := s * b / t); clearbody W end. destruct (hall c); unfold j1, j2, j3, lev, half; izr; field.
    + f_equal; unfold j1, j2, j3, lev, half; izr; field.
  - replace (V k j i) with ((if ohm c then o else 0) * j3 + (if hall c then Q * (j1 * (lev p2 ((IZR i - / 2) * dx1 g) ((IZR j - / 2) * dx2 g) (0)) - j2 * (lev p1 ((IZR i - / 2) * dx1 g) ((IZR j - / 2) * dx2 g) (0))) else 0)) by (symmetry; apply Z2; lia).
    set (o' := if ohm c then o else 0). clearbody o'. destruct (hall c); unfold j1, j2, j3, lev, half, Rdiv; izr; ring.
Qed.
End Exact2.

Section Exact1.
Variables (c : dcfg) (h : R) (z : rscratch) (e : etas) (g : grid3) (k j i : Z) (p1 p2 p3 : affine) (o Q a : R).
Hypothesis (Tw : two c = false) (Th : three c = false).
Hypothesis (Ci : (is g <= i <= ie g + 1)%Z) (Cj : j = js g) (J1e : js g = je g) (Ck : k = ks g) (K1 : ks g = ke g).
Hypothesis (X1 : dx1 g <> 0) (X2 : dx2 g <> 0) (X3 : dx3 g <> 0).
Notation AG F v a b c0 d e0 f0 := (vl k j i F v a b c0 d e0 f0).
Hypothesis (W1_b1 : AG (b1c g) (fun p q r : Z => (lev p1 (IZR r * dx1 g) (0) (0))) 0 0 0 0 (-4) 3).
Hypothesis (W1_b2 : AG (b2c g) (fun p q r : Z => (lev p2 (IZR r * dx1 g) (0) (0))) 0 0 0 0 (-4) 3).
Hypothesis (W1_b3 : AG (b3c g) (fun p q r : Z => (lev p3 (IZR r * dx1 g) (0) (0))) 0 0 0 0 (-4) 3).
Hypothesis (W1_B1 : AG (B1i g) (fun p q r : Z => (lev p1 ((IZR r - / 2) * dx1 g) (0) (0))) 0 0 0 0 (-3) 3).
Hypothesis (W1_B2 : AG (B2i g) (fun p q r : Z => (lev p2 (IZR r * dx1 g) (0) (0))) 0 0 0 0 (-4) 3).
Hypothesis (W1_B3 : AG (B3i g) (fun p q r : Z => (lev p3 (IZR r * dx1 g) (0) (0))) 0 0 0 0 (-4) 3).
Hypothesis (W1_eO : AG (e_O e) (fun _ _ _ => o) 0 0 0 0 (-4) 3) (W1_eA : AG (e_A e) (fun _ _ _ => a) 0 0 0 0 (-4) 3) (W1_eH : AG (eH c e g) (fun _ _ _ => Q) 0 0 0 0 (-4) 3).
Let j1 := 0 - 0. Let j2 := 0 - l_1 p3. Let j3 := l_1 p2 - 0.
Lemma W1_J2 : AG (J2 c z g) (fun p q r : Z => j2) 0 0 0 0 (-3) 3.
Proof. vlay. unfold J2; rewrite ?Tw, ?Th; cbv beta zeta; inloop; unfold cur1, cur2, cur3, d1, d2, t1, t2, t3, s21, s31, s12, s32, s13, s23, av1, av2, av3, av12, av13, av23, q1, q2, q3; cbv beta; vcong; unfold j1, j2, j3, lev, half; izr; field; auto. Qed.
Lemma W1_J3 : AG (J3 c z g) (fun p q r : Z => j3) 0 0 0 0 (-3) 3.
Proof. vlay. unfold J3; rewrite ?Tw, ?Th; cbv beta zeta; inloop; unfold cur1, cur2, cur3, d1, d2, t1, t2, t3, s21, s31, s12, s32, s13, s23, av1, av2, av3, av12, av13, av23, q1, q2, q3; cbv beta; vcong; unfold j1, j2, j3, lev, half; izr; field; auto. Qed.
Lemma W1_ez : forall o, AG (ez c g o) (fun _ _ _ => 0) 0 0 0 0 (-4) 3.
Proof. intros o0. vlay. unfold ez, rkl, rku, rjl, rju. rewrite Tw, Th. rewrite !loop3_in by lia. reflexivity. Qed.
Let b23 := - h * Q * (j2 * 0 - j3 * 0). Let b33 := h * Q * (j2 * 0 - j3 * 0).
Let b13 := h * Q * (j3 * 0 - j1 * 0). Let b33' := b33 - h * Q * (j3 * l_1 p1 - j1 * l_1 p3).
Section HallOn.
Hypothesis (Ho : hall c = true).
Lemma W1_hz : forall o, AG (hz c g o) (fun _ _ _ => 0) 0 0 0 0 (-4) 3.
Proof. intros o0. vlay. unfold hz, rkl, rku, rjl, rju. rewrite Ho, Tw, Th. rewrite !loop3_in by lia. reflexivity. Qed.
Lemma W1_bz1 : AG (bz c g (B1i g) (z_b1 z)) (fun p q r : Z => (lev p1 ((IZR r - / 2) * dx1 g) (0) (0))) 0 0 0 0 (-3) 3.
Proof. vlay. unfold bz, rkl, rku, rjl, rju. rewrite Ho, Tw, Th. rewrite !loop3_in by lia. vcong. reflexivity. Qed.
Lemma W1_bz2 : AG (bz c g (B2i g) (z_b2 z)) (fun p q r : Z => (lev p2 (IZR r * dx1 g) (0) (0))) 0 0 0 0 (-4) 3.
Proof. vlay. unfold bz, rkl, rku, rjl, rju. rewrite Ho, Tw, Th. rewrite !loop3_in by lia. vcong. reflexivity. Qed.
Lemma W1_bz3 : AG (bz c g (B3i g) (z_b3 z)) (fun p q r : Z => (lev p3 (IZR r * dx1 g) (0) (0))) 0 0 0 0 (-4) 3.
Proof. vlay. unfold bz, rkl, rku, rjl, rju. rewrite Ho, Tw, Th. rewrite !loop3_in by lia. vcong. reflexivity. Qed.
Lemma W1_h12 : AG (h1_2 c z e g) (fun p q r : Z => Q * (j3 * (lev p1 ((IZR r - / 2) * dx1 g) (0) (0)))) 0 0 0 0 (-2) 2.
Proof. pose proof W1_J2; pose proof W1_J3; pose proof W1_bz1; pose proof W1_bz2; pose proof W1_bz3; pose proof (W1_hz (z_h2 z)). vlay. unfold h1_2; rewrite ?Tw, ?Th; cbv beta zeta; inloop; unfold cur1, cur2, cur3, d1, d2, t1, t2, t3, s21, s31, s12, s32, s13, s23, av1, av2, av3, av12, av13, av23, q1, q2, q3; cbv beta; vcong; unfold b33', b13, b23, b33, j1, j2, j3, lev, half; izr; field; auto. Qed.
Lemma W1_c13 : AG (c1_3 c h z e g) (fun p q r : Z => (lev p3 (IZR r * dx1 g) (0) (0)) - h * Q * (j3 * l_1 p1)) 0 0 0 0 (-2) 1.
Proof. pose proof W1_J2; pose proof W1_J3; pose proof W1_bz1; pose proof W1_bz2; pose proof W1_bz3; pose proof (W1_hz (z_h2 z)). pose proof W1_h12. vlay. unfold c1_3; rewrite ?Tw, ?Th; cbv beta zeta; inloop; unfold cur1, cur2, cur3, d1, d2, t1, t2, t3, s21, s31, s12, s32, s13, s23, av1, av2, av3, av12, av13, av23, q1, q2, q3; cbv beta; vcong; unfold b33', b13, b23, b33, j1, j2, j3, lev, half; izr; field; auto. Qed.
Lemma W1_j12 : AG (j1_2 c h z e g) (fun p q r : Z => j2) 0 0 0 0 (-1) 1.
Proof. pose proof W1_J2; pose proof W1_J3; pose proof W1_bz1; pose proof W1_bz2; pose proof W1_bz3; pose proof (W1_hz (z_h2 z)). pose proof W1_c13. vlay. unfold j1_2; rewrite ?Tw, ?Th; cbv beta zeta; inloop; unfold cur1, cur2, cur3, d1, d2, t1, t2, t3, s21, s31, s12, s32, s13, s23, av1, av2, av3, av12, av13, av23, q1, q2, q3; cbv beta; vcong; unfold b33', b13, b23, b33, j1, j2, j3, lev, half; izr; field; auto. Qed.
Lemma W1_h13 : AG (h1_3 c h z e g) (fun p q r : Z => Q * (- j2 * (lev p1 ((IZR r - / 2) * dx1 g) (0) (0)))) 0 0 0 0 (-1) 1.
Proof. pose proof W1_J2; pose proof W1_J3; pose proof W1_bz1; pose proof W1_bz2; pose proof W1_bz3; pose proof (W1_hz (z_h2 z)). pose proof W1_j12. vlay. unfold h1_3; rewrite ?Tw, ?Th; cbv beta zeta; inloop; unfold cur1, cur2, cur3, d1, d2, t1, t2, t3, s21, s31, s12, s32, s13, s23, av1, av2, av3, av12, av13, av23, q1, q2, q3; cbv beta; vcong; unfold b33', b13, b23, b33, j1, j2, j3, lev, half; izr; field; auto. Qed.
End HallOn.
Definition W1_kc2 := if hall c then 0 else 0.
Lemma W1_e2 : emf2 c h z e g k j i = (let y1 := (lev p1 ((IZR i - / 2) * dx1 g) (0) (0)) in let y2 := (lev p2 ((IZR i - / 2) * dx1 g) (0) (0)) in let y3 := (lev p3 ((IZR i - / 2) * dx1 g) (0) (0)) in
  ohms_law (if ohm c then o else 0) (if hall c then Q else 0) (if ambi c then a else 0) j1 j2 j3 y1 y2 y3 j2 y2 (j3 * y1 - j1 * y3)) + W1_kc2.
Proof.
  pose proof W1_J2 as PJ2; pose proof W1_J3 as PJ3. pose proof (W1_ez (z_e2 z)) as Z0.
  assert (Z1 : AG (if ohm c then O2 c z e g (ez c g (z_e2 z)) else ez c g (z_e2 z)) (fun _ _ _ => (if ohm c then o else 0) * j2) 0 0 0 0 0 0).
  { vlay. destruct (ohm c); [|rewrite Rmult_0_l; apply Z0; lia]. unfold O2. rewrite Tw, ?Th. rewrite !loop3_in by lia. unfold av1, av2, av12, av13, av23, half. vcong. field. }
  unfold emf2, step2. cbv zeta. set (Y := if ohm c then O2 c z e g (ez c g (z_e2 z)) else ez c g (z_e2 z)) in *. clearbody Y.
  assert (Z2 : AG (if hall c then H2 c h z e g Y else Y) (fun p q r => (if ohm c then o else 0) * j2 + (if hall c then Q * (j3 * (lev p1 ((IZR r - / 2) * dx1 g) (0) (0))) else 0)) 0 0 0 0 0 0).
  { vlay. destruct (hall c) eqn:Ho; [|rewrite Rplus_0_r; apply Z1; lia]. unfold H2. rewrite Tw, ?Th. pose proof (W1_h12 Ho). rewrite !loop3_in by lia. vcong. ring. }
  set (V := if hall c then H2 c h z e g Y else Y) in *. clearbody V. unfold W1_kc2, ohms_law. cbv zeta.
  destruct (ambi c).
  - unfold A2. rewrite Tw, ?Th. rewrite !loop3_in by lia. unfold ad1, ad2_2, ad; cbv zeta; unfold s21, s31, s12, s32, s13, s23, av1, av2, av3, av12, av13, av23. vcong. try replace (/ 4 * (a + a + a + a)) with a by field. try replace (half * (a + a)) with a by (unfold half; field).
    match goal with |- ?x + a * (?jn - ?s1 * ?b1 / ?t1) = ?oo + a * (_ - ?s2 * ?b2 / ?t2) + ?kk => replace (s1 * b1 / t1) with (s2 * b2 / t2) end.
    + set (o' := if ohm c then o else 0). clearbody o'. match goal with |- context [?s * ?b / ?t] => set (W := s * b / t); clearbody W end. destruct (hall c); unfold j1, j2, j3, lev, half; izr; field.
    + f_equal; unfold j1, j2, j3, lev, half; izr; field.
  - replace (V k j i) with ((if ohm c then o else 0) * j2 + (if hall c then Q * (j3 * (lev p1 ((IZR i - / 2) * dx1 g) (0) (0))) else 0)) by (symmetry; apply Z2; lia).
    set (o' := if ohm c then o else 0). clearbody o'. destruct (hall c); unfold j1, j2, j3, lev, half, Rdiv; izr; ring.
Qed.
Definition W1_kc3 := if hall c then 0 else 0.
Lemma W1_e3 : emf3 c h z e g k j i = (let y1 := (lev p1 ((IZR i - / 2) * dx1 g) (0) (0)) in let y2 := (lev p2 ((IZR i - / 2) * dx1 g) (0) (0)) in let y3 := (lev p3 ((IZR i - / 2) * dx1 g) (0) (0)) in
  ohms_law (if ohm c then o else 0) (if hall c then Q else 0) (if ambi c then a else 0) j1 j2 j3 y1 y2 y3 j3 y3 (j1 * y2 - j2 * y1)) + W1_kc3.
Proof.
  pose proof W1_J2 as PJ2; pose proof W1_J3 as PJ3. pose proof (W1_ez (z_e3 z)) as Z0.
  assert (Z1 : AG (if ohm c then O3 c z e g (ez c g (z_e3 z)) else ez c g (z_e3 z)) (fun _ _ _ => (if ohm c then o else 0) * j3) 0 0 0 0 0 0).
  { vlay. destruct (ohm c); [|rewrite Rmult_0_l; apply Z0; lia]. unfold O3. rewrite Tw, ?Th. rewrite !loop3_in by lia. unfold av1, av2, av12, av13, av23, half. vcong. field. }
  unfold emf3, step2. cbv zeta. set (Y := if ohm c then O3 c z e g (ez c g (z_e3 z)) else ez c g (z_e3 z)) in *. clearbody Y.
  assert (Z2 : AG (if hall c then H3 c h z e g Y else Y) (fun p q r => (if ohm c then o else 0) * j3 + (if hall c then Q * (- j2 * (lev p1 ((IZR r - / 2) * dx1 g) (0) (0))) else 0)) 0 0 0 0 0 0).
  { vlay. destruct (hall c) eqn:Ho; [|rewrite Rplus_0_r; apply Z1; lia]. unfold H3. rewrite Tw, ?Th. pose proof (W1_h13 Ho). rewrite !loop3_in by lia. vcong. ring. }
  set (V := if hall c then H3 c h z e g Y else Y) in *. clearbody V. unfold W1_kc3, ohms_law. cbv zeta.
  destruct (ambi c).
  - unfold A3. rewrite Tw, ?Th. rewrite !loop3_in by lia. unfold ad1, ad2_3, ad; cbv zeta; unfold s21, s31, s12, s32, s13, s23, av1, av2, av3, av12, av13, av23. vcong. try replace (/ 4 * (a + a + a + a)) with a by field. try replace (half * (a + a)) with a by (unfold half; field).
    match goal with |- ?x + a * (?jn - ?s1 * ?b1 / ?t1) = ?oo + a * (_ - ?s2 * ?b2 / ?t2) + ?kk => replace (s1 * b1 / t1) with (s2 * b2 / t2) end.
    + set (o' := if ohm c then o else 0). clearbody o'. match goal with |- context [?s * ?b / ?t] => set (W := s * b / t); clearbody W end. destruct (hall c); unfold j1, j2, j3, lev, half; izr; field.
    + f_equal; unfold j1, j2, j3, lev, half; izr; field.
  - replace (V k j i) with ((if ohm c then o else 0) * j3 + (if hall c then Q * (- j2 * (lev p1 ((IZR i - / 2) * dx1 g) (0) (0))) else 0)) by (symmetry; apply Z2; lia).
    set (o' := if ohm c then o else 0). clearbody o'. destruct (hall c); unfold j1, j2, j3, lev, half, Rdiv; izr; ring.
Qed.
End Exact1.


Section Near.
Variables (c : dcfg) (h : R) (z : rscratch) (e : etas) (g : grid3) (k j i : Z) (p1 p2 p3 : affine) (o q a : R).
Hypothesis (Sh : shaped c g) (Sz : positive_sizes g) (A : active3 g k j i) (HF : affine_field c g p1 p2 p3 k j i) (HE : plain_etas c g e o q a k j i).
Lemma eH_q : forall dk dj di, offset c (-4) 4 dk dj di -> eH c e g (k + dk) (j + dj) (i + di) = q.
Proof.
  intros dk dj di O. destruct (HE dk dj di O) as (_ & _ & E). destruct A as (Hk & Hj & Hi). pose proof Sh as ((L1 & L2 & L3) & D2 & D3 & D32). pose proof O as (Oi & Oj & Ok).
  unfold eH, rkl, rku, rjl, rju. rewrite loop3_in by (destruct (two c), (three c); try specialize (D2 eq_refl); try specialize (D3 eq_refl); lia). rewrite E. unfold b1c, b2c, b3c. cbv zeta.
  match goal with |- _ * (sqrt ?x + _) / _ = _ => pose proof (sqrt_pos x) as S0; set (s := sqrt x) in * end. clearbody s.
  assert (0 < TINY_NUMBER) by (unfold TINY_NUMBER; apply Rinv_0_lt_compat, pow_lt; lra). field. lra.
Qed.
Lemma emf_exact : exists K1 K2 K3, forall dk dj di, offset c 0 1 dk dj di -> let k' := (k + dk)%Z in let j' := (j + dj)%Z in let i' := (i + di)%Z in
  (two c = true -> emf1 c z e g k' j' i' = fst (fst (field_E c o q a p1 p2 p3 (xc1 g i') (xf2 c g j') (xf3 c g k'))) + K1) /\
  emf2 c h z e g k' j' i' = snd (fst (field_E c o q a p1 p2 p3 (xf1 g i') (xc2 c g j') (xf3 c g k'))) + K2 /\
  emf3 c h z e g k' j' i' = snd (field_E c o q a p1 p2 p3 (xf1 g i') (xf2 c g j') (xc3 c g k')) + K3.
Proof.
  pose proof Sh as ((L1 & L2 & L3) & D2 & D3 & D32). pose proof A as (Hk & Hj & Hi). destruct Sz as (X1 & X2 & X3).
  assert (N1 : dx1 g <> 0) by lra. assert (N2 : dx2 g <> 0) by lra. assert (N3 : dx3 g <> 0) by lra.
  pose proof (fun p q r O => HF p q r O) as F0. pose proof (fun p q r O => HE p q r O) as E0. pose proof eH_q as H0. cbv zeta in F0, E0.
  unfold field_E. cbv zeta. cbn [fst snd]. unfold j_1, j_2, j_3, d_2, d_3, xc2, xf2, xc3, xf3, xc1, xf1 in *. fold (hall c) (ohm c) (ambi c).
  change (if Rlt_dec 0 (eta_Ohm c) then o else 0) with (if Rlt_dec 0 (eta_Ohm c) then o else 0).
  assert (HO : (if Rlt_dec 0 (eta_Ohm c) then o else 0) = if ohm c then o else 0) by (unfold ohm; destruct (Rlt_dec 0 (eta_Ohm c)); reflexivity).
  assert (HH : (if Rlt_dec 0 (Q_Hall c) then q else 0) = if hall c then q else 0) by (unfold hall; destruct (Rlt_dec 0 (Q_Hall c)); reflexivity).
  assert (HA : (if Rlt_dec 0 (Q_AD c) then a else 0) = if ambi c then a else 0) by (unfold ambi; destruct (Rlt_dec 0 (Q_AD c)); reflexivity).
  rewrite HO, HH, HA. clear HO HH HA. unfold offset in *.
  destruct (three c) eqn:Th.
  - pose proof (D32 eq_refl) as Tw. rewrite Tw in *.
    exists (W3_kc1 c), (W3_kc2 c h p1 p2 p3 q), (W3_kc3 c h p1 p2 p3 q). intros dk dj di (Oi & Oj & Ok). cbv zeta. split; [intros _|split].
    + apply (W3_e1 c z); auto; try lia; intros p' q' r' Hp Hq Hr; replace p' with (k + (p' - k))%Z by lia; replace q' with (j + (q' - j))%Z by lia; replace r' with (i + (r' - i))%Z by lia;
        (apply H0 || apply F0 || apply E0); repeat split; lia.
    + apply (W3_e2 c h); auto; try lia; intros p' q' r' Hp Hq Hr; replace p' with (k + (p' - k))%Z by lia; replace q' with (j + (q' - j))%Z by lia; replace r' with (i + (r' - i))%Z by lia;
        (apply H0 || apply F0 || apply E0); repeat split; lia.
    + apply (W3_e3 c h); auto; try lia; intros p' q' r' Hp Hq Hr; replace p' with (k + (p' - k))%Z by lia; replace q' with (j + (q' - j))%Z by lia; replace r' with (i + (r' - i))%Z by lia;
        (apply H0 || apply F0 || apply E0); repeat split; lia.
  - specialize (D3 eq_refl). destruct (two c) eqn:Tw.
    + exists (W2_kc1 c), (W2_kc2 c h p1 p2 p3 q), (W2_kc3 c). intros dk dj di (Oi & Oj & Ok). cbv zeta. split; [intros _|split].
      * apply (W2_e1 c z); auto; try lia; intros p' q' r' Hp Hq Hr; replace p' with (k + (p' - k))%Z by lia; replace q' with (j + (q' - j))%Z by lia; replace r' with (i + (r' - i))%Z by lia;
          (apply H0 || apply F0 || apply E0); repeat split; lia.
      * apply (W2_e2 c h); auto; try lia; intros p' q' r' Hp Hq Hr; replace p' with (k + (p' - k))%Z by lia; replace q' with (j + (q' - j))%Z by lia; replace r' with (i + (r' - i))%Z by lia;
          (apply H0 || apply F0 || apply E0); repeat split; lia.
      * apply (W2_e3 c h); auto; try lia; intros p' q' r' Hp Hq Hr; replace p' with (k + (p' - k))%Z by lia; replace q' with (j + (q' - j))%Z by lia; replace r' with (i + (r' - i))%Z by lia;
          (apply H0 || apply F0 || apply E0); repeat split; lia.
    + specialize (D2 eq_refl). exists 0, (W1_kc2 c), (W1_kc3 c). intros dk dj di (Oi & Oj & Ok). cbv zeta. split; [discriminate|split].
      * apply (W1_e2 c h); auto; try lia; intros p' q' r' Hp Hq Hr; replace p' with (k + (p' - k))%Z by lia; replace q' with (j + (q' - j))%Z by lia; replace r' with (i + (r' - i))%Z by lia;
          (apply H0 || apply F0 || apply E0); repeat split; lia.
      * apply (W1_e3 c h); auto; try lia; intros p' q' r' Hp Hq Hr; replace p' with (k + (p' - k))%Z by lia; replace q' with (j + (q' - j))%Z by lia; replace r' with (i + (r' - i))%Z by lia;
          (apply H0 || apply F0 || apply E0); repeat split; lia.
Qed.
End Near.


(** ** In a linear field the code uses Ohm's law, E = eta_Ohm J + eta_Hall J x B/|B| +
    eta_AD J_perp, at the edges of the cells and advances the field by -dt curl E *)
Theorem C82_linear : forall c h z e g p1 p2 p3 o q a k j i, shaped c g -> positive_sizes g -> active3 g k j i -> affine_field c g p1 p2 p3 k j i -> plain_etas c g e o q a k j i ->
  let E1 := fun x y w => fst (fst (field_E c o q a p1 p2 p3 x y w)) in
  let E2 := fun x y w => snd (fst (field_E c o q a p1 p2 p3 x y w)) in
  let E3 := fun x y w => snd (field_E c o q a p1 p2 p3 x y w) in
  let x := xc1 g i in let xl := xf1 g i in let xr := xf1 g (i + 1) in
  let y := xc2 c g j in let yl := xf2 c g j in let yr := xf2 c g (j + 1) in
  let w := xc3 c g k in let wl := xf3 c g k in let wr := xf3 c g (k + 1) in
  let G := resistivity c h z e g in
  B1i G k j i = B1i g k j i - h * ((if two c then (E3 xl yr w - E3 xl yl w) / dx2 g else 0) - (if three c then (E2 xl y wr - E2 xl y wl) / dx3 g else 0)) /\
  fld2 c G k j i = fld2 c g k j i - h * ((if three c then (E1 x yl wr - E1 x yl wl) / dx3 g else 0) - (E3 xr yl w - E3 xl yl w) / dx1 g) /\
  fld3 c G k j i = fld3 c g k j i - h * ((E2 xr y wl - E2 xl y wl) / dx1 g - (if two c then (E1 x yr wl - E1 x yl wl) / dx2 g else 0)).
Proof.
  intros c h z e g p1 p2 p3 o q a k j i Sh Sz A HF HE E1 E2 E3 x xl xr y yl yr w wl wr G. unfold x, xl, xr, y, yl, yr, w, wl, wr, G. clear x xl xr y yl yr w wl wr G. destruct (emf_exact c h z e g k j i p1 p2 p3 o q a Sh Sz A HF HE) as (K1 & K2 & K3 & HX).
  pose proof Sh as ((L1 & L2 & L3) & D2 & D3 & D32). pose proof A as (Hk & Hj & Hi). destruct Sz as (X1 & X2 & X3). cbv zeta in HX.
  change (forall dk dj di, offset c 0 1 dk dj di -> (two c = true -> emf1 c z e g (k + dk) (j + dj) (i + di) = E1 (xc1 g (i + di)) (xf2 c g (j + dj)) (xf3 c g (k + dk)) + K1) /\
    emf2 c h z e g (k + dk) (j + dj) (i + di) = E2 (xf1 g (i + di)) (xc2 c g (j + dj)) (xf3 c g (k + dk)) + K2 /\
    emf3 c h z e g (k + dk) (j + dj) (i + di) = E3 (xf1 g (i + di)) (xf2 c g (j + dj)) (xc3 c g (k + dk)) + K3) in HX.
  assert (Z0 : offset c 0 1 0 0 0) by (unfold offset; destruct (two c), (three c); lia). assert (Z1 : offset c 0 1 0 0 1) by (unfold offset; destruct (two c), (three c); lia).
  assert (Z2 : two c = true -> offset c 0 1 0 1 0) by (intros T; unfold offset; rewrite T; destruct (three c); lia).
  assert (Z3 : three c = true -> offset c 0 1 1 0 0) by (intros T; unfold offset; rewrite T, (D32 T); lia).
  assert (P00 : forall x, (x + 0 = x)%Z) by (intros; lia).
  destruct (HX _ _ _ Z0) as (A1 & A2 & A3). destruct (HX _ _ _ Z1) as (I1 & I2 & I3). rewrite !P00 in A1. rewrite !P00 in A2. rewrite !P00 in A3. rewrite !P00 in I1. rewrite !P00 in I2. rewrite !P00 in I3.
  assert (J : two c = true -> emf1 c z e g k (j + 1) i = E1 (xc1 g i) (xf2 c g (j + 1)) (xf3 c g k) + K1 /\ emf3 c h z e g k (j + 1) i = E3 (xf1 g i) (xf2 c g (j + 1)) (xc3 c g k) + K3).
  { intros T. destruct (HX _ _ _ (Z2 T)) as (B1 & B2 & B3). rewrite !P00 in B1. rewrite !P00 in B3. auto. }
  assert (K : three c = true -> emf1 c z e g (k + 1) j i = E1 (xc1 g i) (xf2 c g j) (xf3 c g (k + 1)) + K1 /\ emf2 c h z e g (k + 1) j i = E2 (xf1 g i) (xc2 c g j) (xf3 c g (k + 1)) + K2).
  { intros T. destruct (HX _ _ _ (Z3 T)) as (B1 & B2 & B3). rewrite !P00 in B1. rewrite !P00 in B2. auto. }
  clear HX Z0 Z1 Z2 Z3 P00. clearbody E1 E2 E3.
  split; [|split].
  - destruct (two c) eqn:Tw.
    + rewrite B1_face by (auto; lia). unfold a2, a3. rewrite Tw. destruct (J eq_refl) as (_ & J3). rewrite J3, A3. destruct (three c) eqn:Th; [destruct (K eq_refl) as (_ & K2'); rewrite K2', A2|]; field; lra.
    + rewrite B1_same by auto. destruct (three c) eqn:Th; [specialize (D32 eq_refl); discriminate|]. ring.
  - unfold fld2. destruct (two c) eqn:Tw.
    + rewrite B2_face by (auto; lia). unfold a1, a3. rewrite I3, A3. destruct (three c) eqn:Th; [destruct (K eq_refl) as (K1' & _); rewrite K1', (A1 eq_refl)|]; field; lra.
    + rewrite B2_cell by auto. rewrite Tw. unfold a1. rewrite I3, A3. destruct (three c) eqn:Th; [specialize (D32 eq_refl); discriminate|]. field; lra.
  - unfold fld3. destruct (three c) eqn:Th.
    + pose proof (D32 eq_refl) as Tw. rewrite B3_face by (auto; lia). unfold a1, a2. rewrite Tw. destruct (J Tw) as (J1' & _). rewrite J1', (A1 Tw), I2, A2. field. lra.
    + rewrite B3_cell by auto. unfold a1, a2. rewrite Th, I2, A2. destruct (two c) eqn:Tw; [destruct (J eq_refl) as (J1' & _); rewrite J1', (A1 eq_refl)|]; field; lra.
Qed.
Print Assumptions C82_linear.

(** ** The Hall term transports a linear field along the current: without the ambipolar term it
    adds dt q ((J.grad) B - J div B) *)
Theorem C82_hall : forall c h z e g p1 p2 p3 o q a k j i, shaped c g -> positive_sizes g -> active3 g k j i -> affine_field c g p1 p2 p3 k j i -> plain_etas c g e o q a k j i ->
  0 < Q_Hall c -> Q_AD c <= 0 ->
  let j1 := j_1 c p2 p3 in let j2 := j_2 c p1 p3 in let j3 := j_3 c p1 p2 in
  let along := fun p => j1 * l_1 p + j2 * d_2 c p + j3 * d_3 c p in let div := l_1 p1 + d_2 c p2 + d_3 c p3 in
  let G := resistivity c h z e g in
  B1i G k j i = B1i g k j i + (if two c then h * q * (along p1 - j1 * div) else 0) /\
  fld2 c G k j i = fld2 c g k j i + h * q * (along p2 - j2 * div) /\
  fld3 c G k j i = fld3 c g k j i + h * q * (along p3 - j3 * div).
Proof.
  intros c h z e g p1 p2 p3 o q a k j i Sh Sz A HF HE QH QA. cbv zeta. destruct (C82_linear c h z e g p1 p2 p3 o q a k j i Sh Sz A HF HE) as (E1 & E2 & E3).
  rewrite E1, E2, E3. clear E1 E2 E3. destruct Sz as (X1 & X2 & X3). pose proof Sh as (_ & D2 & D3 & D32).
  unfold field_E, ohms_law. cbv zeta. cbn [fst snd]. destruct (Rlt_dec 0 (Q_Hall c)) as [_|n]; [|lra]. destruct (Rlt_dec 0 (Q_AD c)) as [n|_]; [lra|].
  set (o' := if Rlt_dec 0 (eta_Ohm c) then o else 0). clearbody o'. rewrite !Rmult_0_l, !Rplus_0_r. unfold j_1, j_2, j_3, d_2, d_3, lev, xc1, xf1, xc2, xf2, xc3, xf3.
  destruct (two c) eqn:Tw, (three c) eqn:Th; try (specialize (D32 eq_refl); discriminate); rewrite ?plus_IZR; repeat split; field; lra.
Qed.
Print Assumptions C82_hall.

(** ** Ohmic diffusion is exact for quadratic fields: it adds dt eta (laplacian B - grad div B) *)
Theorem C82_quadratic : forall c h z e g p1 p2 p3 o k j i, shaped c g -> positive_sizes g -> active3 g k j i -> quadratic_field c g p1 p2 p3 k j i ->
  (forall dk dj di, offset c (-1) 1 dk dj di -> e_O e (k + dk)%Z (j + dj)%Z (i + di)%Z = o) -> 0 < eta_Ohm c -> Q_Hall c <= 0 -> Q_AD c <= 0 ->
  let s2 := fun r => if two c then r else 0 in let s3 := fun r => if three c then r else 0 in
  let G := resistivity c h z e g in
  B1i G k j i = B1i g k j i + h * o * (s2 (2 * t_22 p1 - t_12 p2) + s3 (2 * t_33 p1 - t_13 p3)) /\
  fld2 c G k j i = fld2 c g k j i + h * o * (2 * t_11 p2 - s2 (t_12 p1) + s3 (2 * t_33 p2 - t_23 p3)) /\
  fld3 c G k j i = fld3 c g k j i + h * o * (2 * t_11 p3 + s2 (2 * t_22 p3) - s3 (t_13 p1 + t_23 p2)).
Proof.
  intros c h z e g p1 p2 p3 o k j i Sh Sz A HF HE QO QH QA. cbv zeta. pose proof Sh as ((L1 & L2 & L3) & D2 & D3 & D32). pose proof A as (Hk & Hj & Hi). destruct Sz as (X1 & X2 & X3).
  assert (NH : hall c = false) by (unfold hall; destruct (Rlt_dec 0 (Q_Hall c)); [lra|reflexivity]).
  assert (NA : ambi c = false) by (unfold ambi; destruct (Rlt_dec 0 (Q_AD c)); [lra|reflexivity]).
  assert (NO : ohm c = true) by (unfold ohm; destruct (Rlt_dec 0 (eta_Ohm c)); [reflexivity|lra]).
  assert (EO : forall p q r, offset c (-1) 1 (p - k) (q - j) (r - i) -> e_O e p q r = o).
  { intros p q r O. rewrite <- (HE _ _ _ O). f_equal; lia. }
  assert (FO : forall p q r, offset c (-1) 1 (p - k) (q - j) (r - i) -> B1i g p q r = qev p1 (xf1 g r) (xc2 c g q) (xc3 c g p) /\ fld2 c g p q r = qev p2 (xc1 g r) (xf2 c g q) (xc3 c g p) /\ fld3 c g p q r = qev p3 (xc1 g r) (xc2 c g q) (xf3 c g p)).
  { intros p q r O. pose proof (HF _ _ _ O) as H. cbv zeta in H. replace (k + (p - k))%Z with p in H by lia. replace (j + (q - j))%Z with q in H by lia. replace (i + (r - i))%Z with r in H by lia. exact H. }
  clear HE HF.
  assert (EZ : forall o0 p q r, offset c (-1) 1 (p - k) (q - j) (r - i) -> ez c g o0 p q r = 0).
  { intros o0 p q r (Oi & Oj & Ok). unfold ez, rkl, rku, rjl, rju. destruct (two c), (three c); try specialize (D2 eq_refl); try specialize (D3 eq_refl); rewrite loop3_in by lia; reflexivity. }
  unfold fld2, fld3, offset in *.
  destruct (three c) eqn:Th; [pose proof (D32 eq_refl) as Tw; rewrite Tw in *|destruct (two c) eqn:Tw; specialize (D3 eq_refl)]; try specialize (D2 eq_refl).
  - rewrite B1_face, B2_face, B3_face by (auto; lia). unfold a1, a2, a3. rewrite Tw, Th. rewrite ?Rmult_0_l. unfold emf1, emf2, emf3, step2. rewrite NH, NA, NO. cbv zeta. unfold O1, O2, O3. rewrite Tw, Th.
    rewrite !loop3_in by lia. rewrite !EZ by (repeat split; lia). unfold av12, av13, av23. rewrite !EO by (repeat split; lia). unfold J1, J2, J3. rewrite Tw, Th. rewrite !loop3_two by lia. unfold cur1, cur2, cur3.
    assert (G1 : forall p q r, (-1 <= p - k <= 1)%Z -> (-1 <= q - j <= 1)%Z -> (-1 <= r - i <= 1)%Z -> B1i g p q r = qev p1 (xf1 g r) (xc2 c g q) (xc3 c g p)) by (intros; apply FO; auto).
    assert (G2 : forall p q r, (-1 <= p - k <= 1)%Z -> (-1 <= q - j <= 1)%Z -> (-1 <= r - i <= 1)%Z -> B2i g p q r = qev p2 (xc1 g r) (xf2 c g q) (xc3 c g p)) by (intros; apply FO; auto).
    assert (G3 : forall p q r, (-1 <= p - k <= 1)%Z -> (-1 <= q - j <= 1)%Z -> (-1 <= r - i <= 1)%Z -> B3i g p q r = qev p3 (xc1 g r) (xc2 c g q) (xf3 c g p)) by (intros; apply FO; auto).
    rewrite !G1 by lia. rewrite !G2 by lia. rewrite !G3 by lia. unfold qev, lev, xf1, xf2, xf3, xc1, xc2, xc3. rewrite Tw, Th. rewrite ?minus_IZR, ?plus_IZR. repeat split; field; lra.
  - rewrite B1_face, B2_face, B3_cell by (auto; lia). unfold a1, a2, a3. rewrite Tw, Th. rewrite ?Rmult_0_l. unfold emf1, emf2, emf3, step2. rewrite NH, NA, NO. cbv zeta. unfold O1, O2, O3. rewrite Tw, Th.
    rewrite !loop3_in by lia. rewrite !EZ by (repeat split; lia). unfold av1, av2, av12, half. rewrite !EO by (repeat split; lia). unfold J1, J2, J3. rewrite Tw, Th. cbv zeta. rewrite !loop3_two by lia. rewrite !loop3_in by lia. unfold cur3, b3c.
    assert (G1 : forall p q r, p = k -> (-1 <= q - j <= 1)%Z -> (-1 <= r - i <= 1)%Z -> B1i g p q r = qev p1 (xf1 g r) (xc2 c g q) (xc3 c g p)) by (intros; apply FO; repeat split; lia).
    assert (G2 : forall p q r, p = k -> (-1 <= q - j <= 1)%Z -> (-1 <= r - i <= 1)%Z -> B2i g p q r = qev p2 (xc1 g r) (xf2 c g q) (xc3 c g p)) by (intros; apply FO; repeat split; lia).
    assert (G3 : forall p q r, p = k -> (-1 <= q - j <= 1)%Z -> (-1 <= r - i <= 1)%Z -> cB3 (U g p q r) = qev p3 (xc1 g r) (xc2 c g q) (xf3 c g p)) by (intros; apply FO; repeat split; lia).
    rewrite !G1 by lia. rewrite !G2 by lia. rewrite !G3 by lia. unfold qev, lev, xf1, xf2, xf3, xc1, xc2, xc3. rewrite Tw, Th. rewrite ?minus_IZR, ?plus_IZR. repeat split; field; lra.
  - rewrite B1_same, B2_cell, B3_cell by (auto; lia). unfold a1, a2, a3. rewrite Tw, Th. rewrite ?Rmult_0_l. unfold emf2, emf3, step2. rewrite NH, NA, NO. cbv zeta. unfold O2, O3. rewrite Tw, Th.
    rewrite !loop3_in by lia. rewrite !EZ by (repeat split; lia). unfold av1, half. rewrite !EO by (repeat split; lia). unfold J2, J3. rewrite Tw, Th. cbv zeta. rewrite !loop3_in by lia. unfold b2c, b3c.
    assert (G2 : forall p q r, p = k -> q = j -> (-1 <= r - i <= 1)%Z -> cB2 (U g p q r) = qev p2 (xc1 g r) (xf2 c g q) (xc3 c g p)) by (intros; apply FO; repeat split; lia).
    assert (G3 : forall p q r, p = k -> q = j -> (-1 <= r - i <= 1)%Z -> cB3 (U g p q r) = qev p3 (xc1 g r) (xc2 c g q) (xf3 c g p)) by (intros; apply FO; repeat split; lia).
    rewrite !G2 by lia. rewrite !G3 by lia. unfold qev, lev, xf1, xf2, xf3, xc1, xc2, xc3. rewrite Tw, Th. rewrite ?minus_IZR, ?plus_IZR. repeat split; field; lra.
Qed.
Print Assumptions C82_quadratic.


(** ** Joule heating: in a linear field Ohmic resistivity adds dt eta J^2 to the energy *)
Theorem C82_joule : forall c h z e g p1 p2 p3 o q a k j i, shaped c g -> positive_sizes g -> active3 g k j i -> affine_field c g p1 p2 p3 k j i -> plain_etas c g e o q a k j i ->
  0 < eta_Ohm c -> Q_Hall c <= 0 -> Q_AD c <= 0 -> barotropic c = false ->
  let j1 := j_1 c p2 p3 in let j2 := j_2 c p1 p3 in let j3 := j_3 c p1 p2 in
  cE (U (resistivity c h z e g) k j i) = cE (U g k j i) + h * o * (j1 * j1 + j2 * j2 + j3 * j3).
Proof.
  intros c h z e g p1 p2 p3 o q a k j i Sh Sz A HF HE QO QH QA Ba. cbv zeta. pose proof Sh as ((L1 & L2 & L3) & D2 & D3 & D32). pose proof A as (Hk & Hj & Hi). destruct Sz as (X1 & X2 & X3).
  assert (NH : hall c = false) by (unfold hall; destruct (Rlt_dec 0 (Q_Hall c)); [lra|reflexivity]).
  assert (NA : ambi c = false) by (unfold ambi; destruct (Rlt_dec 0 (Q_AD c)); [lra|reflexivity]).
  assert (NO : ohm c = true) by (unfold ohm; destruct (Rlt_dec 0 (eta_Ohm c)); [reflexivity|lra]).
  assert (EO : forall p q r, offset c (-1) 1 (p - k) (q - j) (r - i) -> e_O e p q r = o).
  { intros p q0 r O. assert (O4 : offset c (-4) 4 (p - k) (q0 - j) (r - i)) by (unfold offset in *; destruct (two c), (three c); lia). destruct (HE _ _ _ O4) as (E & _). rewrite <- E. f_equal; lia. }
  assert (FO : forall p q r, offset c (-1) 1 (p - k) (q - j) (r - i) ->
    cB1 (U g p q r) = lev p1 (xc1 g r) (xc2 c g q) (xc3 c g p) /\ cB2 (U g p q r) = lev p2 (xc1 g r) (xc2 c g q) (xc3 c g p) /\ cB3 (U g p q r) = lev p3 (xc1 g r) (xc2 c g q) (xc3 c g p) /\
    B1i g p q r = lev p1 (xf1 g r) (xc2 c g q) (xc3 c g p) /\ B2i g p q r = lev p2 (xc1 g r) (xf2 c g q) (xc3 c g p) /\ B3i g p q r = lev p3 (xc1 g r) (xc2 c g q) (xf3 c g p)).
  { intros p q0 r O. assert (O4 : offset c (-4) 4 (p - k) (q0 - j) (r - i)) by (unfold offset in *; destruct (two c), (three c); lia). pose proof (HF _ _ _ O4) as H. cbv zeta in H.
    replace (k + (p - k))%Z with p in H by lia. replace (j + (q0 - j))%Z with q0 in H by lia. replace (i + (r - i))%Z with r in H by lia. exact H. }
  clear HE HF.
  assert (EZ : forall o0 p q r, offset c (-1) 1 (p - k) (q - j) (r - i) -> ez c g o0 p q r = 0).
  { intros o0 p q0 r (Oi & Oj & Ok). unfold ez, rkl, rku, rjl, rju. destruct (two c), (three c); try specialize (D2 eq_refl); try specialize (D3 eq_refl); rewrite loop3_in by lia; reflexivity. }
  unfold offset in *. unfold resistivity. cbn [U]. unfold Ur. cbn [cE]. unfold En, En3, En2, En1. rewrite Ba. unfold j_1, j_2, j_3, d_2, d_3.
  destruct (three c) eqn:Th; [pose proof (D32 eq_refl) as Tw; rewrite Tw in *|destruct (two c) eqn:Tw; specialize (D3 eq_refl)]; try specialize (D2 eq_refl).
  - rewrite !loop3_in by lia. unfold N1, N2, N3. rewrite Tw, Th. rewrite !loop3_in by lia. unfold emf1, emf2, emf3, step2. rewrite NH, NA, NO. cbv zeta. unfold O1, O2, O3. rewrite Tw, Th.
    rewrite !loop3_in by lia. rewrite !EZ by (repeat split; lia). unfold av12, av13, av23. rewrite !EO by (repeat split; lia). unfold J1, J2, J3. rewrite Tw, Th. rewrite !loop3_two by lia. unfold cur1, cur2, cur3, b1c, b2c, b3c.
    assert (C1 : forall p q r, (-1 <= p - k <= 1)%Z -> (-1 <= q - j <= 1)%Z -> (-1 <= r - i <= 1)%Z -> cB1 (U g p q r) = lev p1 (xc1 g r) (xc2 c g q) (xc3 c g p)) by (intros; apply FO; auto).
    assert (C2 : forall p q r, (-1 <= p - k <= 1)%Z -> (-1 <= q - j <= 1)%Z -> (-1 <= r - i <= 1)%Z -> cB2 (U g p q r) = lev p2 (xc1 g r) (xc2 c g q) (xc3 c g p)) by (intros; apply FO; auto).
    assert (C3 : forall p q r, (-1 <= p - k <= 1)%Z -> (-1 <= q - j <= 1)%Z -> (-1 <= r - i <= 1)%Z -> cB3 (U g p q r) = lev p3 (xc1 g r) (xc2 c g q) (xc3 c g p)) by (intros; apply FO; auto).
    assert (G1 : forall p q r, (-1 <= p - k <= 1)%Z -> (-1 <= q - j <= 1)%Z -> (-1 <= r - i <= 1)%Z -> B1i g p q r = lev p1 (xf1 g r) (xc2 c g q) (xc3 c g p)) by (intros; apply FO; auto).
    assert (G2 : forall p q r, (-1 <= p - k <= 1)%Z -> (-1 <= q - j <= 1)%Z -> (-1 <= r - i <= 1)%Z -> B2i g p q r = lev p2 (xc1 g r) (xf2 c g q) (xc3 c g p)) by (intros; apply FO; auto).
    assert (G3 : forall p q r, (-1 <= p - k <= 1)%Z -> (-1 <= q - j <= 1)%Z -> (-1 <= r - i <= 1)%Z -> B3i g p q r = lev p3 (xc1 g r) (xc2 c g q) (xf3 c g p)) by (intros; apply FO; auto).
    rewrite !C1 by lia. rewrite !C2 by lia. rewrite !C3 by lia. rewrite !G1 by lia. rewrite !G2 by lia. rewrite !G3 by lia. unfold q1, q2, q3, half, lev, xf1, xf2, xf3, xc1, xc2, xc3. rewrite Tw, Th. rewrite ?minus_IZR, ?plus_IZR. field; lra.
  - rewrite !loop3_in by lia. unfold N1, N2. rewrite Tw, Th. rewrite !loop3_in by lia. unfold emf1, emf2, emf3, step2. rewrite NH, NA, NO. cbv zeta. unfold O1, O2, O3. rewrite Tw, Th.
    rewrite !loop3_in by lia. rewrite !EZ by (repeat split; lia). unfold av1, av2, av12, half. rewrite !EO by (repeat split; lia). unfold J1, J2, J3. rewrite Tw, Th. cbv zeta. rewrite !loop3_two by lia. rewrite !loop3_in by lia. unfold cur3, b1c, b2c, b3c.
    assert (C1 : forall p q r, p = k -> (-1 <= q - j <= 1)%Z -> (-1 <= r - i <= 1)%Z -> cB1 (U g p q r) = lev p1 (xc1 g r) (xc2 c g q) (xc3 c g p)) by (intros; apply FO; repeat split; lia).
    assert (C2 : forall p q r, p = k -> (-1 <= q - j <= 1)%Z -> (-1 <= r - i <= 1)%Z -> cB2 (U g p q r) = lev p2 (xc1 g r) (xc2 c g q) (xc3 c g p)) by (intros; apply FO; repeat split; lia).
    assert (C3 : forall p q r, p = k -> (-1 <= q - j <= 1)%Z -> (-1 <= r - i <= 1)%Z -> cB3 (U g p q r) = lev p3 (xc1 g r) (xc2 c g q) (xc3 c g p)) by (intros; apply FO; repeat split; lia).
    assert (G1 : forall p q r, p = k -> (-1 <= q - j <= 1)%Z -> (-1 <= r - i <= 1)%Z -> B1i g p q r = lev p1 (xf1 g r) (xc2 c g q) (xc3 c g p)) by (intros; apply FO; repeat split; lia).
    assert (G2 : forall p q r, p = k -> (-1 <= q - j <= 1)%Z -> (-1 <= r - i <= 1)%Z -> B2i g p q r = lev p2 (xc1 g r) (xf2 c g q) (xc3 c g p)) by (intros; apply FO; repeat split; lia).
    rewrite !C1 by lia. rewrite !C2 by lia. rewrite !C3 by lia. rewrite !G1 by lia. rewrite !G2 by lia. unfold q1, q2, lev, xf1, xf2, xf3, xc1, xc2, xc3. rewrite Tw, Th. rewrite ?minus_IZR, ?plus_IZR. field; lra.
  - rewrite !loop3_in by lia. unfold N1. rewrite Tw, Th. rewrite !loop3_in by lia. unfold emf2, emf3, step2. rewrite NH, NA, NO. cbv zeta. unfold O2, O3. rewrite Tw, Th.
    rewrite !loop3_in by lia. rewrite !EZ by (repeat split; lia). unfold av1, half. rewrite !EO by (repeat split; lia). unfold J2, J3. rewrite Tw, Th. cbv zeta. rewrite !loop3_in by lia. unfold b2c, b3c.
    assert (C2 : forall p q r, p = k -> q = j -> (-1 <= r - i <= 1)%Z -> cB2 (U g p q r) = lev p2 (xc1 g r) (xc2 c g q) (xc3 c g p)) by (intros; apply FO; repeat split; lia).
    assert (C3 : forall p q r, p = k -> q = j -> (-1 <= r - i <= 1)%Z -> cB3 (U g p q r) = lev p3 (xc1 g r) (xc2 c g q) (xc3 c g p)) by (intros; apply FO; repeat split; lia).
    rewrite !C2 by lia. rewrite !C3 by lia. unfold q1, lev, xf1, xf2, xf3, xc1, xc2, xc3. rewrite Tw, Th. rewrite ?minus_IZR, ?plus_IZR. field; lra.
Qed.
Print Assumptions C82_joule.


(** ** Hypotheses that can be met: any affine or quadratic field, with uniform coefficients *)
Definition ex_xcfg : dcfg := DCfg true true true false (2 / 3) 0 0 0 0 1 2 3 0.
Definition ex_lin (c : dcfg) (p1 p2 p3 : affine) : grid3 :=
  let g := ex_dgrid in
  Grid3 4 5 4 5 4 5 (1 / 10) 1 1 1 0 0 0
    (fun k j i => Cons 1 2 0 0 40 (lev p1 (xc1 g i) (xc2 c g j) (xc3 c g k)) (lev p2 (xc1 g i) (xc2 c g j) (xc3 c g k)) (lev p3 (xc1 g i) (xc2 c g j) (xc3 c g k)) nil)
    (fun k j i => lev p1 (xf1 g i) (xc2 c g j) (xc3 c g k)) (fun k j i => lev p2 (xc1 g i) (xf2 c g j) (xc3 c g k)) (fun k j i => lev p3 (xc1 g i) (xc2 c g j) (xf3 c g k))
    (fun _ _ _ => 0) (fun _ _ _ => 0) (fun _ _ _ => 0) (fun _ _ _ => 0).
Definition ex_leta (g : grid3) (o q a : R) : etas :=
  Etas (fun _ _ _ => o) (fun k j i => let u := U g k j i in q * (sqrt (cB1 u * cB1 u + cB2 u * cB2 u + cB3 u * cB3 u) + TINY_NUMBER)) (fun _ _ _ => a).
Example ex_c82_linear : forall p1 p2 p3 o q a, let g := ex_lin ex_xcfg p1 p2 p3 in
  shaped ex_xcfg g /\ positive_sizes g /\ active3 g 4 5 4 /\ affine_field ex_xcfg g p1 p2 p3 4 5 4 /\ plain_etas ex_xcfg g (ex_leta g o q a) o q a 4 5 4.
Proof.
  intros. cbv zeta. split; [|split; [|split; [|split]]].
  - exact ex_dshaped.
  - unfold positive_sizes. cbn. lra.
  - unfold active3. cbn. lia.
  - intros dk dj di _. cbv zeta. repeat split; reflexivity.
  - intros dk dj di _. cbv zeta. repeat split; reflexivity.
Qed.
(** A sheared field in which the Hall term acts: B = (1, 2 x1, x2), J = (1, 0, 2). *)
Example ex_c82_hall : let p1 := Affine 1 0 0 0 in let p2 := Affine 0 2 0 0 in let p3 := Affine 0 0 1 0 in let c := ex_xcfg in
  j_1 c p2 p3 * l_1 p2 + j_2 c p1 p3 * d_2 c p2 + j_3 c p1 p2 * d_3 c p2 - j_2 c p1 p3 * (l_1 p1 + d_2 c p2 + d_3 c p3) = 2.
Proof. cbv zeta. unfold j_1, j_2, j_3, d_2, d_3. cbn. ring. Qed.
Definition ex_ycfg : dcfg := DCfg true true true false (2 / 3) 0 0 0 0 1 0 0 0.
Definition ex_quad (c : dcfg) (p1 p2 p3 : quadratic) : grid3 :=
  let g := ex_dgrid in
  Grid3 4 5 4 5 4 5 (1 / 10) 1 1 1 0 0 0 (fun k j i => Cons 1 2 0 0 40 0 0 0 nil)
    (fun k j i => qev p1 (xf1 g i) (xc2 c g j) (xc3 c g k)) (fun k j i => qev p2 (xc1 g i) (xf2 c g j) (xc3 c g k)) (fun k j i => qev p3 (xc1 g i) (xc2 c g j) (xf3 c g k))
    (fun _ _ _ => 0) (fun _ _ _ => 0) (fun _ _ _ => 0) (fun _ _ _ => 0).
Example ex_c82_quadratic : forall p1 p2 p3, let g := ex_quad ex_ycfg p1 p2 p3 in
  shaped ex_ycfg g /\ positive_sizes g /\ active3 g 4 5 4 /\ quadratic_field ex_ycfg g p1 p2 p3 4 5 4 /\ 0 < eta_Ohm ex_ycfg /\ Q_Hall ex_ycfg <= 0 /\ Q_AD ex_ycfg <= 0.
Proof.
  intros. cbv zeta. split; [|split; [|split; [|split]]].
  - exact ex_dshaped.
  - unfold positive_sizes. cbn. lra.
  - unfold active3. cbn. lia.
  - intros dk dj di _. cbv zeta. repeat split; reflexivity.
  - cbn. lra.
Qed.


Example ex_c82_joule : forall p1 p2 p3, let g := ex_lin ex_ycfg p1 p2 p3 in
  affine_field ex_ycfg g p1 p2 p3 4 5 4 /\ plain_etas ex_ycfg g (ex_leta g 1 0 0) 1 0 0 4 5 4 /\ barotropic ex_ycfg = false.
Proof. intros. cbv zeta. repeat split; reflexivity. Qed.
