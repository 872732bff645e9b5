(** * Resistivity: a uniform field does not diffuse *)
From Coq Require Import Reals ZArith List Bool Lia Lra Psatz.
From Verif Require Import GasModel ConvProps IntegModel IntegSpec IntegFacts Ctu3Model Integ3Spec Integ3Props CondModel DiffSpec CondProps OhmModel OhmSpec OhmProps OhmLocal OhmCons CondRate.
Open Scope R_scope.

(** F has the value v around (k,j,i). *)
Definition cst (k j i : Z) (F : Z -> Z -> Z -> R) (v : R) (ka kb ja jb ia ib : Z) : Prop :=
  forall p q r, (ka <= p - k <= kb)%Z -> (ja <= q - j <= jb)%Z -> (ia <= r - i <= ib)%Z -> F p q r = v.
Ltac ccong := repeat match goal with H : cst _ _ _ ?F _ _ _ _ _ _ _ |- context [?F ?p ?q ?r] => rewrite (H p q r) by lia end.
Ltac clay := let p := fresh "p" in let q := fresh "q" in let r := fresh "r" in let Hk := fresh "Hk" in let Hj := fresh "Hj" in let Hi := fresh "Hi" in intros p q r Hk Hj Hi.

Section Uni3.
Variables (c : dcfg) (h : R) (z : rscratch) (e : etas) (g : grid3) (k j i : Z) (v1 v2 v3 : R).
Hypothesis (Tw : two c = true) (Th : three c = true).
Hypothesis (Ci : (is g <= i <= ie g + 1)%Z) (Cj : (js g <= j <= je g + 1)%Z) (Ck : (ks g <= k <= ke g + 1)%Z).
Notation AG F v a b c0 d e0 f0 := (cst k j i F v a b c0 d e0 f0).
Hypothesis (V3_b1 : AG (b1c g) v1 (-4) 3 (-4) 3 (-4) 3).
Hypothesis (V3_b2 : AG (b2c g) v2 (-4) 3 (-4) 3 (-4) 3).
Hypothesis (V3_b3 : AG (b3c g) v3 (-4) 3 (-4) 3 (-4) 3).
Hypothesis (V3_B1 : AG (B1i g) v1 (-4) 3 (-4) 3 (-3) 3).
Hypothesis (V3_B2 : AG (B2i g) v2 (-4) 3 (-3) 3 (-4) 3).
Hypothesis (V3_B3 : AG (B3i g) v3 (-3) 3 (-4) 3 (-4) 3).
Lemma V3_J1 : AG (J1 c z g) 0 (-3) 3 (-3) 3 (-4) 3.
Proof. clay. unfold J1; rewrite ?Tw, ?Th; cbv beta zeta; inloop; unfold cur1, cur2, cur3, d1, d2, t1, t2, t3, s21, s31, s12, s32, s13, s23; cbv beta; ccong; unfold Rdiv; ring. Qed.
Lemma V3_J2 : AG (J2 c z g) 0 (-3) 3 (-4) 3 (-3) 3.
Proof. clay. unfold J2; rewrite ?Tw, ?Th; cbv beta zeta; inloop; unfold cur1, cur2, cur3, d1, d2, t1, t2, t3, s21, s31, s12, s32, s13, s23; cbv beta; ccong; unfold Rdiv; ring. Qed.
Lemma V3_J3 : AG (J3 c z g) 0 (-4) 3 (-3) 3 (-3) 3.
Proof. clay. unfold J3; rewrite ?Tw, ?Th; cbv beta zeta; inloop; unfold cur1, cur2, cur3, d1, d2, t1, t2, t3, s21, s31, s12, s32, s13, s23; cbv beta; ccong; unfold Rdiv; ring. Qed.
Lemma V3_ez : forall o, AG (ez c g o) 0 (-4) 3 (-4) 3 (-4) 3.
Proof. intros o. clay. unfold ez, rkl, rku, rjl, rju. rewrite Tw, Th. rewrite !loop3_in by lia. reflexivity. Qed.
Section HallOn.
Hypothesis (Ho : hall c = true).
Lemma V3_hz : forall o, AG (hz c g o) 0 (-4) 3 (-4) 3 (-4) 3.
Proof. intros o. clay. unfold hz, rkl, rku, rjl, rju. rewrite Ho, Tw, Th. rewrite !loop3_in by lia. reflexivity. Qed.
Lemma V3_bz1 : AG (bz c g (B1i g) (z_b1 z)) v1 (-4) 3 (-4) 3 (-3) 3.
Proof. clay. unfold bz, rkl, rku, rjl, rju. rewrite Ho, Tw, Th. rewrite !loop3_in by lia. ccong. reflexivity. Qed.
Lemma V3_bz2 : AG (bz c g (B2i g) (z_b2 z)) v2 (-4) 3 (-3) 3 (-4) 3.
Proof. clay. unfold bz, rkl, rku, rjl, rju. rewrite Ho, Tw, Th. rewrite !loop3_in by lia. ccong. reflexivity. Qed.
Lemma V3_bz3 : AG (bz c g (B3i g) (z_b3 z)) v3 (-3) 3 (-4) 3 (-4) 3.
Proof. clay. unfold bz, rkl, rku, rjl, rju. rewrite Ho, Tw, Th. rewrite !loop3_in by lia. ccong. reflexivity. Qed.
Lemma V3_h31 : AG (h3_1 c z e g) 0 (-3) 3 (-3) 3 (-3) 2.
Proof. pose proof V3_J2; pose proof V3_J3; pose proof V3_bz1; pose proof V3_bz2; pose proof V3_bz3; pose proof (V3_hz (z_h2 z)). clay. unfold h3_1; rewrite ?Tw, ?Th; cbv beta zeta; inloop; unfold cur1, cur2, cur3, d1, d2, t1, t2, t3, s21, s31, s12, s32, s13, s23; cbv beta; ccong; unfold Rdiv; ring. Qed.
Lemma V3_b32 : AG (b3_2 c h z e g) v2 (-3) 2 (-3) 2 (-3) 2.
Proof. pose proof V3_J2; pose proof V3_J3; pose proof V3_bz1; pose proof V3_bz2; pose proof V3_bz3; pose proof (V3_hz (z_h2 z)). pose proof V3_h31. clay. unfold b3_2; rewrite ?Tw, ?Th; cbv beta zeta; inloop; unfold cur1, cur2, cur3, d1, d2, t1, t2, t3, s21, s31, s12, s32, s13, s23; cbv beta; ccong; unfold Rdiv; ring. Qed.
Lemma V3_b33 : AG (b3_3 c h z e g) v3 (-3) 2 (-3) 2 (-3) 2.
Proof. pose proof V3_J2; pose proof V3_J3; pose proof V3_bz1; pose proof V3_bz2; pose proof V3_bz3; pose proof (V3_hz (z_h2 z)). pose proof V3_h31. clay. unfold b3_3; rewrite ?Tw, ?Th; cbv beta zeta; inloop; unfold cur1, cur2, cur3, d1, d2, t1, t2, t3, s21, s31, s12, s32, s13, s23; cbv beta; ccong; unfold Rdiv; ring. Qed.
Lemma V3_b31 : AG (b3_1 c z g) v1 (-4) 3 (-4) 3 (-3) 3.
Proof. exact V3_bz1. Qed.
Lemma V3_j31 : AG (j3_1 c h z e g) 0 (-2) 2 (-2) 2 (-3) 2.
Proof. pose proof V3_J2; pose proof V3_J3; pose proof V3_bz1; pose proof V3_bz2; pose proof V3_bz3; pose proof (V3_hz (z_h2 z)). pose proof V3_b32; pose proof V3_b33. clay. unfold j3_1; rewrite ?Tw, ?Th; cbv beta zeta; inloop; unfold cur1, cur2, cur3, d1, d2, t1, t2, t3, s21, s31, s12, s32, s13, s23; cbv beta; ccong; unfold Rdiv; ring. Qed.
Lemma V3_j32 : AG (j3_2 c h z e g) 0 (-2) 2 (-3) 2 (-2) 2.
Proof. pose proof V3_J2; pose proof V3_J3; pose proof V3_bz1; pose proof V3_bz2; pose proof V3_bz3; pose proof (V3_hz (z_h2 z)). pose proof V3_b31; pose proof V3_b33. clay. unfold j3_2; rewrite ?Tw, ?Th; cbv beta zeta; inloop; unfold cur1, cur2, cur3, d1, d2, t1, t2, t3, s21, s31, s12, s32, s13, s23; cbv beta; ccong; unfold Rdiv; ring. Qed.
Lemma V3_j33 : AG (j3_3 c h z e g) 0 (-3) 2 (-2) 2 (-2) 2.
Proof. pose proof V3_J2; pose proof V3_J3; pose proof V3_bz1; pose proof V3_bz2; pose proof V3_bz3; pose proof (V3_hz (z_h2 z)). pose proof V3_b31; pose proof V3_b32. clay. unfold j3_3; rewrite ?Tw, ?Th; cbv beta zeta; inloop; unfold cur1, cur2, cur3, d1, d2, t1, t2, t3, s21, s31, s12, s32, s13, s23; cbv beta; ccong; unfold Rdiv; ring. Qed.
Lemma V3_h32 : AG (h3_2 c h z e g) 0 (-2) 2 (-2) 1 (-2) 2.
Proof. pose proof V3_J2; pose proof V3_J3; pose proof V3_bz1; pose proof V3_bz2; pose proof V3_bz3; pose proof (V3_hz (z_h2 z)). pose proof V3_b31; pose proof V3_b33; pose proof V3_j31; pose proof V3_j33. clay. unfold h3_2; rewrite ?Tw, ?Th; cbv beta zeta; inloop; unfold cur1, cur2, cur3, d1, d2, t1, t2, t3, s21, s31, s12, s32, s13, s23; cbv beta; ccong; unfold Rdiv; ring. Qed.
Lemma V3_b31' : AG (b3_1' c h z e g) v1 (-2) 1 (-2) 1 (-2) 1.
Proof. pose proof V3_J2; pose proof V3_J3; pose proof V3_bz1; pose proof V3_bz2; pose proof V3_bz3; pose proof (V3_hz (z_h2 z)). pose proof V3_b31; pose proof V3_h32. clay. unfold b3_1'; rewrite ?Tw, ?Th; cbv beta zeta; inloop; unfold cur1, cur2, cur3, d1, d2, t1, t2, t3, s21, s31, s12, s32, s13, s23; cbv beta; ccong; unfold Rdiv; ring. Qed.
Lemma V3_b33' : AG (b3_3' c h z e g) v3 (-2) 1 (-2) 1 (-2) 1.
Proof. pose proof V3_J2; pose proof V3_J3; pose proof V3_bz1; pose proof V3_bz2; pose proof V3_bz3; pose proof (V3_hz (z_h2 z)). pose proof V3_b33; pose proof V3_h32. clay. unfold b3_3'; rewrite ?Tw, ?Th; cbv beta zeta; inloop; unfold cur1, cur2, cur3, d1, d2, t1, t2, t3, s21, s31, s12, s32, s13, s23; cbv beta; ccong; unfold Rdiv; ring. Qed.
Lemma V3_j31' : AG (j3_1' c h z e g) 0 (-1) 1 (-1) 1 (-2) 1.
Proof. pose proof V3_J2; pose proof V3_J3; pose proof V3_bz1; pose proof V3_bz2; pose proof V3_bz3; pose proof (V3_hz (z_h2 z)). pose proof V3_b32; pose proof V3_b33'. clay. unfold j3_1'; rewrite ?Tw, ?Th; cbv beta zeta; inloop; unfold cur1, cur2, cur3, d1, d2, t1, t2, t3, s21, s31, s12, s32, s13, s23; cbv beta; ccong; unfold Rdiv; ring. Qed.
Lemma V3_j32' : AG (j3_2' c h z e g) 0 (-1) 1 (-2) 1 (-1) 1.
Proof. pose proof V3_J2; pose proof V3_J3; pose proof V3_bz1; pose proof V3_bz2; pose proof V3_bz3; pose proof (V3_hz (z_h2 z)). pose proof V3_b31'; pose proof V3_b33'. clay. unfold j3_2'; rewrite ?Tw, ?Th; cbv beta zeta; inloop; unfold cur1, cur2, cur3, d1, d2, t1, t2, t3, s21, s31, s12, s32, s13, s23; cbv beta; ccong; unfold Rdiv; ring. Qed.
Lemma V3_h33 : AG (h3_3 c h z e g) 0 (-1) 0 (-1) 1 (-1) 1.
Proof. pose proof V3_J2; pose proof V3_J3; pose proof V3_bz1; pose proof V3_bz2; pose proof V3_bz3; pose proof (V3_hz (z_h2 z)). pose proof V3_b32; pose proof V3_b31'; pose proof V3_j31'; pose proof V3_j32'. clay. unfold h3_3; rewrite ?Tw, ?Th; cbv beta zeta; inloop; unfold cur1, cur2, cur3, d1, d2, t1, t2, t3, s21, s31, s12, s32, s13, s23; cbv beta; ccong; unfold Rdiv; ring. Qed.
End HallOn.
Lemma V3_e1 : emf1 c z e g k j i = 0.
Proof.
  pose proof V3_J1 as PJ1; pose proof V3_J2 as PJ2; pose proof V3_J3 as PJ3. pose proof (V3_ez (z_e1 z)) as Z0.
  assert (Z1 : AG (if ohm c then O1 c z e g (ez c g (z_e1 z)) else ez c g (z_e1 z)) 0 0 0 0 0 0 0).
  { clay. destruct (ohm c); [|apply Z0; lia]. unfold O1. rewrite Tw, ?Th. rewrite !loop3_in by lia. ccong. try ring. }
  unfold emf1, step2. cbv zeta. set (Y := if ohm c then O1 c z e g (ez c g (z_e1 z)) else ez c g (z_e1 z)) in *. clearbody Y.
  assert (Z2 : AG (if hall c then H1 c z e g Y else Y) 0 0 0 0 0 0 0).
  { clay. destruct (hall c) eqn:Ho; [|apply Z1; lia]. unfold H1. rewrite Tw, ?Th. pose proof (V3_h31 Ho). rewrite !loop3_in by lia. ccong. try ring. }
  set (V := if hall c then H1 c z e g Y else Y) in *. clearbody V.
  destruct (ambi c); [|apply Z2; lia]. unfold A1. rewrite Tw, ?Th. rewrite !loop3_in by lia. unfold ad1, ad3_1, ad; cbv zeta; unfold s21, s31, s12, s32, s13, s23, av1, av2. ccong. unfold Rdiv. try ring.
Qed.
Lemma V3_e2 : emf2 c h z e g k j i = 0.
Proof.
  pose proof V3_J1 as PJ1; pose proof V3_J2 as PJ2; pose proof V3_J3 as PJ3. pose proof (V3_ez (z_e2 z)) as Z0.
  assert (Z1 : AG (if ohm c then O2 c z e g (ez c g (z_e2 z)) else ez c g (z_e2 z)) 0 0 0 0 0 0 0).
  { clay. destruct (ohm c); [|apply Z0; lia]. unfold O2. rewrite Tw, ?Th. rewrite !loop3_in by lia. ccong. try ring. }
  unfold emf2, step2. cbv zeta. set (Y := if ohm c then O2 c z e g (ez c g (z_e2 z)) else ez c g (z_e2 z)) in *. clearbody Y.
  assert (Z2 : AG (if hall c then H2 c h z e g Y else Y) 0 0 0 0 0 0 0).
  { clay. destruct (hall c) eqn:Ho; [|apply Z1; lia]. unfold H2. rewrite Tw, ?Th. pose proof (V3_h32 Ho). rewrite !loop3_in by lia. ccong. try ring. }
  set (V := if hall c then H2 c h z e g Y else Y) in *. clearbody V.
  destruct (ambi c); [|apply Z2; lia]. unfold A2. rewrite Tw, ?Th. rewrite !loop3_in by lia. unfold ad1, ad3_2, ad; cbv zeta; unfold s21, s31, s12, s32, s13, s23, av1, av2. ccong. unfold Rdiv. try ring.
Qed.
Lemma V3_e3 : emf3 c h z e g k j i = 0.
Proof.
  pose proof V3_J1 as PJ1; pose proof V3_J2 as PJ2; pose proof V3_J3 as PJ3. pose proof (V3_ez (z_e3 z)) as Z0.
  assert (Z1 : AG (if ohm c then O3 c z e g (ez c g (z_e3 z)) else ez c g (z_e3 z)) 0 0 0 0 0 0 0).
  { clay. destruct (ohm c); [|apply Z0; lia]. unfold O3. rewrite Tw, ?Th. rewrite !loop3_in by lia. ccong. try ring. }
  unfold emf3, step2. cbv zeta. set (Y := if ohm c then O3 c z e g (ez c g (z_e3 z)) else ez c g (z_e3 z)) in *. clearbody Y.
  assert (Z2 : AG (if hall c then H3 c h z e g Y else Y) 0 0 0 0 0 0 0).
  { clay. destruct (hall c) eqn:Ho; [|apply Z1; lia]. unfold H3. rewrite Tw, ?Th. pose proof (V3_h33 Ho). rewrite !loop3_in by lia. ccong. try ring. }
  set (V := if hall c then H3 c h z e g Y else Y) in *. clearbody V.
  destruct (ambi c); [|apply Z2; lia]. unfold A3. rewrite Tw, ?Th. rewrite !loop3_in by lia. unfold ad1, ad3_3, ad; cbv zeta; unfold s21, s31, s12, s32, s13, s23, av1, av2. ccong. unfold Rdiv. try ring.
Qed.
End Uni3.

Section Uni2.
Variables (c : dcfg) (h : R) (z : rscratch) (e : etas) (g : grid3) (k j i : Z) (v1 v2 v3 : R).
Hypothesis (Tw : two c = true) (Th : three c = false).
Hypothesis (Ci : (is g <= i <= ie g + 1)%Z) (Cj : (js g <= j <= je g + 1)%Z) (Ck : k = ks g) (K1 : ks g = ke g).
Notation AG F v a b c0 d e0 f0 := (cst k j i F v a b c0 d e0 f0).
Hypothesis (V2_b1 : AG (b1c g) v1 0 0 (-4) 3 (-4) 3).
Hypothesis (V2_b2 : AG (b2c g) v2 0 0 (-4) 3 (-4) 3).
Hypothesis (V2_b3 : AG (b3c g) v3 0 0 (-4) 3 (-4) 3).
Hypothesis (V2_B1 : AG (B1i g) v1 0 0 (-4) 3 (-3) 3).
Hypothesis (V2_B2 : AG (B2i g) v2 0 0 (-3) 3 (-4) 3).
Hypothesis (V2_B3 : AG (B3i g) v3 0 0 (-4) 3 (-4) 3).
Lemma V2_J1 : AG (J1 c z g) 0 0 0 (-3) 3 (-4) 3.
Proof. clay. unfold J1; rewrite ?Tw, ?Th; cbv beta zeta; inloop; unfold cur1, cur2, cur3, d1, d2, t1, t2, t3, s21, s31, s12, s32, s13, s23; cbv beta; ccong; unfold Rdiv; ring. Qed.
Lemma V2_J2 : AG (J2 c z g) 0 0 0 (-4) 3 (-3) 3.
Proof. clay. unfold J2; rewrite ?Tw, ?Th; cbv beta zeta; inloop; unfold cur1, cur2, cur3, d1, d2, t1, t2, t3, s21, s31, s12, s32, s13, s23; cbv beta; ccong; unfold Rdiv; ring. Qed.
Lemma V2_J3 : AG (J3 c z g) 0 0 0 (-3) 3 (-3) 3.
Proof. clay. unfold J3; rewrite ?Tw, ?Th; cbv beta zeta; inloop; unfold cur1, cur2, cur3, d1, d2, t1, t2, t3, s21, s31, s12, s32, s13, s23; cbv beta; ccong; unfold Rdiv; ring. Qed.
Lemma V2_ez : forall o, AG (ez c g o) 0 0 0 (-4) 3 (-4) 3.
Proof. intros o. clay. unfold ez, rkl, rku, rjl, rju. rewrite Tw, Th. rewrite !loop3_in by lia. reflexivity. Qed.
Section HallOn.
Hypothesis (Ho : hall c = true).
Lemma V2_hz : forall o, AG (hz c g o) 0 0 0 (-4) 3 (-4) 3.
Proof. intros o. clay. unfold hz, rkl, rku, rjl, rju. rewrite Ho, Tw, Th. rewrite !loop3_in by lia. reflexivity. Qed.
Lemma V2_bz1 : AG (bz c g (B1i g) (z_b1 z)) v1 0 0 (-4) 3 (-3) 3.
Proof. clay. unfold bz, rkl, rku, rjl, rju. rewrite Ho, Tw, Th. rewrite !loop3_in by lia. ccong. reflexivity. Qed.
Lemma V2_bz2 : AG (bz c g (B2i g) (z_b2 z)) v2 0 0 (-3) 3 (-4) 3.
Proof. clay. unfold bz, rkl, rku, rjl, rju. rewrite Ho, Tw, Th. rewrite !loop3_in by lia. ccong. reflexivity. Qed.
Lemma V2_bz3 : AG (bz c g (B3i g) (z_b3 z)) v3 0 0 (-4) 3 (-4) 3.
Proof. clay. unfold bz, rkl, rku, rjl, rju. rewrite Ho, Tw, Th. rewrite !loop3_in by lia. ccong. reflexivity. Qed.
Lemma V2_h21 : AG (h2_1 c z e g) 0 0 0 (-3) 3 (-3) 2.
Proof. pose proof V2_J2; pose proof V2_J3; pose proof V2_bz1; pose proof V2_bz2; pose proof V2_bz3; pose proof (V2_hz (z_h2 z)). clay. unfold h2_1; rewrite ?Tw, ?Th; cbv beta zeta; inloop; unfold cur1, cur2, cur3, d1, d2, t1, t2, t3, s21, s31, s12, s32, s13, s23; cbv beta; ccong; unfold Rdiv; ring. Qed.
Lemma V2_b23 : AG (b2_3 c h z e g) v3 0 0 (-3) 2 (-3) 2.
Proof. pose proof V2_J2; pose proof V2_J3; pose proof V2_bz1; pose proof V2_bz2; pose proof V2_bz3; pose proof (V2_hz (z_h2 z)). pose proof V2_h21. clay. unfold b2_3; rewrite ?Tw, ?Th; cbv beta zeta; inloop; unfold cur1, cur2, cur3, d1, d2, t1, t2, t3, s21, s31, s12, s32, s13, s23; cbv beta; ccong; unfold Rdiv; ring. Qed.
Lemma V2_j21 : AG (j2_1 c h z e g) 0 0 0 (-2) 2 (-3) 2.
Proof. pose proof V2_J2; pose proof V2_J3; pose proof V2_bz1; pose proof V2_bz2; pose proof V2_bz3; pose proof (V2_hz (z_h2 z)). pose proof V2_b23. clay. unfold j2_1; rewrite ?Tw, ?Th; cbv beta zeta; inloop; unfold cur1, cur2, cur3, d1, d2, t1, t2, t3, s21, s31, s12, s32, s13, s23; cbv beta; ccong; unfold Rdiv; ring. Qed.
Lemma V2_j22 : AG (j2_2 c h z e g) 0 0 0 (-3) 2 (-2) 2.
Proof. pose proof V2_J2; pose proof V2_J3; pose proof V2_bz1; pose proof V2_bz2; pose proof V2_bz3; pose proof (V2_hz (z_h2 z)). pose proof V2_b23. clay. unfold j2_2; rewrite ?Tw, ?Th; cbv beta zeta; inloop; unfold cur1, cur2, cur3, d1, d2, t1, t2, t3, s21, s31, s12, s32, s13, s23; cbv beta; ccong; unfold Rdiv; ring. Qed.
Lemma V2_j23 : AG (j2_3 c z g) 0 0 0 (-2) 2 (-2) 2.
Proof. pose proof V2_J2; pose proof V2_J3; pose proof V2_bz1; pose proof V2_bz2; pose proof V2_bz3; pose proof (V2_hz (z_h2 z)). clay. unfold j2_3; rewrite ?Tw, ?Th; cbv beta zeta; inloop; unfold cur1, cur2, cur3, d1, d2, t1, t2, t3, s21, s31, s12, s32, s13, s23; cbv beta; ccong; unfold Rdiv; ring. Qed.
Lemma V2_h22 : AG (h2_2 c h z e g) 0 0 0 (-2) 1 (-2) 2.
Proof. pose proof V2_J2; pose proof V2_J3; pose proof V2_bz1; pose proof V2_bz2; pose proof V2_bz3; pose proof (V2_hz (z_h2 z)). pose proof V2_b23; pose proof V2_j21; pose proof V2_j23. clay. unfold h2_2; rewrite ?Tw, ?Th; cbv beta zeta; inloop; unfold cur1, cur2, cur3, d1, d2, t1, t2, t3, s21, s31, s12, s32, s13, s23; cbv beta; ccong; unfold Rdiv; ring. Qed.
Lemma V2_b23' : AG (b2_3' c h z e g) v3 0 0 (-2) 1 (-2) 1.
Proof. pose proof V2_J2; pose proof V2_J3; pose proof V2_bz1; pose proof V2_bz2; pose proof V2_bz3; pose proof (V2_hz (z_h2 z)). pose proof V2_b23; pose proof V2_h22. clay. unfold b2_3'; rewrite ?Tw, ?Th; cbv beta zeta; inloop; unfold cur1, cur2, cur3, d1, d2, t1, t2, t3, s21, s31, s12, s32, s13, s23; cbv beta; ccong; unfold Rdiv; ring. Qed.
Lemma V2_j21' : AG (j2_1' c h z e g) 0 0 0 (-1) 1 (-2) 1.
Proof. pose proof V2_J2; pose proof V2_J3; pose proof V2_bz1; pose proof V2_bz2; pose proof V2_bz3; pose proof (V2_hz (z_h2 z)). pose proof V2_b23'. clay. unfold j2_1'; rewrite ?Tw, ?Th; cbv beta zeta; inloop; unfold cur1, cur2, cur3, d1, d2, t1, t2, t3, s21, s31, s12, s32, s13, s23; cbv beta; ccong; unfold Rdiv; ring. Qed.
Lemma V2_j22' : AG (j2_2' c h z e g) 0 0 0 (-2) 1 (-1) 1.
Proof. pose proof V2_J2; pose proof V2_J3; pose proof V2_bz1; pose proof V2_bz2; pose proof V2_bz3; pose proof (V2_hz (z_h2 z)). pose proof V2_b23'. clay. unfold j2_2'; rewrite ?Tw, ?Th; cbv beta zeta; inloop; unfold cur1, cur2, cur3, d1, d2, t1, t2, t3, s21, s31, s12, s32, s13, s23; cbv beta; ccong; unfold Rdiv; ring. Qed.
Lemma V2_h23 : AG (h2_3 c h z e g) 0 0 0 (-1) 1 (-1) 1.
Proof. pose proof V2_J2; pose proof V2_J3; pose proof V2_bz1; pose proof V2_bz2; pose proof V2_bz3; pose proof (V2_hz (z_h2 z)). pose proof V2_j21'; pose proof V2_j22'. clay. unfold h2_3; rewrite ?Tw, ?Th; cbv beta zeta; inloop; unfold cur1, cur2, cur3, d1, d2, t1, t2, t3, s21, s31, s12, s32, s13, s23; cbv beta; ccong; unfold Rdiv; ring. Qed.
End HallOn.
Lemma V2_e1 : emf1 c z e g k j i = 0.
Proof.
  pose proof V2_J1 as PJ1; pose proof V2_J2 as PJ2; pose proof V2_J3 as PJ3. pose proof (V2_ez (z_e1 z)) as Z0.
  assert (Z1 : AG (if ohm c then O1 c z e g (ez c g (z_e1 z)) else ez c g (z_e1 z)) 0 0 0 0 0 0 0).
  { clay. destruct (ohm c); [|apply Z0; lia]. unfold O1. rewrite Tw, ?Th. rewrite !loop3_in by lia. ccong. try ring. }
  unfold emf1, step2. cbv zeta. set (Y := if ohm c then O1 c z e g (ez c g (z_e1 z)) else ez c g (z_e1 z)) in *. clearbody Y.
  assert (Z2 : AG (if hall c then H1 c z e g Y else Y) 0 0 0 0 0 0 0).
  { clay. destruct (hall c) eqn:Ho; [|apply Z1; lia]. unfold H1. rewrite Tw, ?Th. pose proof (V2_h21 Ho). rewrite !loop3_in by lia. ccong. try ring. }
  set (V := if hall c then H1 c z e g Y else Y) in *. clearbody V.
  destruct (ambi c); [|apply Z2; lia]. unfold A1. rewrite Tw, ?Th. rewrite !loop3_in by lia. unfold ad1, ad2_1, ad; cbv zeta; unfold s21, s31, s12, s32, s13, s23, av1, av2. ccong. unfold Rdiv. try ring.
Qed.
Lemma V2_e2 : emf2 c h z e g k j i = 0.
Proof.
  pose proof V2_J1 as PJ1; pose proof V2_J2 as PJ2; pose proof V2_J3 as PJ3. pose proof (V2_ez (z_e2 z)) as Z0.
  assert (Z1 : AG (if ohm c then O2 c z e g (ez c g (z_e2 z)) else ez c g (z_e2 z)) 0 0 0 0 0 0 0).
  { clay. destruct (ohm c); [|apply Z0; lia]. unfold O2. rewrite Tw, ?Th. rewrite !loop3_in by lia. ccong. try ring. }
  unfold emf2, step2. cbv zeta. set (Y := if ohm c then O2 c z e g (ez c g (z_e2 z)) else ez c g (z_e2 z)) in *. clearbody Y.
  assert (Z2 : AG (if hall c then H2 c h z e g Y else Y) 0 0 0 0 0 0 0).
  { clay. destruct (hall c) eqn:Ho; [|apply Z1; lia]. unfold H2. rewrite Tw, ?Th. pose proof (V2_h22 Ho). rewrite !loop3_in by lia. ccong. try ring. }
  set (V := if hall c then H2 c h z e g Y else Y) in *. clearbody V.
  destruct (ambi c); [|apply Z2; lia]. unfold A2. rewrite Tw, ?Th. rewrite !loop3_in by lia. unfold ad1, ad2_2, ad; cbv zeta; unfold s21, s31, s12, s32, s13, s23, av1, av2. ccong. unfold Rdiv. try ring.
Qed.
Lemma V2_e3 : emf3 c h z e g k j i = 0.
Proof.
  pose proof V2_J1 as PJ1; pose proof V2_J2 as PJ2; pose proof V2_J3 as PJ3. pose proof (V2_ez (z_e3 z)) as Z0.
  assert (Z1 : AG (if ohm c then O3 c z e g (ez c g (z_e3 z)) else ez c g (z_e3 z)) 0 0 0 0 0 0 0).
  { clay. destruct (ohm c); [|apply Z0; lia]. unfold O3. rewrite Tw, ?Th. rewrite !loop3_in by lia. ccong. try ring. }
  unfold emf3, step2. cbv zeta. set (Y := if ohm c then O3 c z e g (ez c g (z_e3 z)) else ez c g (z_e3 z)) in *. clearbody Y.
  assert (Z2 : AG (if hall c then H3 c h z e g Y else Y) 0 0 0 0 0 0 0).
  { clay. destruct (hall c) eqn:Ho; [|apply Z1; lia]. unfold H3. rewrite Tw, ?Th. pose proof (V2_h23 Ho). rewrite !loop3_in by lia. ccong. try ring. }
  set (V := if hall c then H3 c h z e g Y else Y) in *. clearbody V.
  destruct (ambi c); [|apply Z2; lia]. unfold A3. rewrite Tw, ?Th. rewrite !loop3_in by lia. unfold ad1, ad2_3, ad; cbv zeta; unfold s21, s31, s12, s32, s13, s23, av1, av2. ccong. unfold Rdiv. try ring.
Qed.
End Uni2.

Section Uni1.
Variables (c : dcfg) (h : R) (z : rscratch) (e : etas) (g : grid3) (k j i : Z) (v1 v2 v3 : R).
Hypothesis (Tw : two c = false) (Th : three c = false).
Hypothesis (Ci : (is g <= i <= ie g + 1)%Z) (Cj : j = js g) (J1e : js g = je g) (Ck : k = ks g) (K1 : ks g = ke g).
Notation AG F v a b c0 d e0 f0 := (cst k j i F v a b c0 d e0 f0).
Hypothesis (V1_b1 : AG (b1c g) v1 0 0 0 0 (-4) 3).
Hypothesis (V1_b2 : AG (b2c g) v2 0 0 0 0 (-4) 3).
Hypothesis (V1_b3 : AG (b3c g) v3 0 0 0 0 (-4) 3).
Hypothesis (V1_B1 : AG (B1i g) v1 0 0 0 0 (-3) 3).
Hypothesis (V1_B2 : AG (B2i g) v2 0 0 0 0 (-4) 3).
Hypothesis (V1_B3 : AG (B3i g) v3 0 0 0 0 (-4) 3).
Lemma V1_J2 : AG (J2 c z g) 0 0 0 0 0 (-3) 3.
Proof. clay. unfold J2; rewrite ?Tw, ?Th; cbv beta zeta; inloop; unfold cur1, cur2, cur3, d1, d2, t1, t2, t3, s21, s31, s12, s32, s13, s23; cbv beta; ccong; unfold Rdiv; ring. Qed.
Lemma V1_J3 : AG (J3 c z g) 0 0 0 0 0 (-3) 3.
Proof. clay. unfold J3; rewrite ?Tw, ?Th; cbv beta zeta; inloop; unfold cur1, cur2, cur3, d1, d2, t1, t2, t3, s21, s31, s12, s32, s13, s23; cbv beta; ccong; unfold Rdiv; ring. Qed.
Lemma V1_ez : forall o, AG (ez c g o) 0 0 0 0 0 (-4) 3.
Proof. intros o. clay. unfold ez, rkl, rku, rjl, rju. rewrite Tw, Th. rewrite !loop3_in by lia. reflexivity. Qed.
Section HallOn.
Hypothesis (Ho : hall c = true).
Lemma V1_hz : forall o, AG (hz c g o) 0 0 0 0 0 (-4) 3.
Proof. intros o. clay. unfold hz, rkl, rku, rjl, rju. rewrite Ho, Tw, Th. rewrite !loop3_in by lia. reflexivity. Qed.
Lemma V1_bz1 : AG (bz c g (B1i g) (z_b1 z)) v1 0 0 0 0 (-3) 3.
Proof. clay. unfold bz, rkl, rku, rjl, rju. rewrite Ho, Tw, Th. rewrite !loop3_in by lia. ccong. reflexivity. Qed.
Lemma V1_bz2 : AG (bz c g (B2i g) (z_b2 z)) v2 0 0 0 0 (-4) 3.
Proof. clay. unfold bz, rkl, rku, rjl, rju. rewrite Ho, Tw, Th. rewrite !loop3_in by lia. ccong. reflexivity. Qed.
Lemma V1_bz3 : AG (bz c g (B3i g) (z_b3 z)) v3 0 0 0 0 (-4) 3.
Proof. clay. unfold bz, rkl, rku, rjl, rju. rewrite Ho, Tw, Th. rewrite !loop3_in by lia. ccong. reflexivity. Qed.
Lemma V1_h12 : AG (h1_2 c z e g) 0 0 0 0 0 (-2) 2.
Proof. pose proof V1_J2; pose proof V1_J3; pose proof V1_bz1; pose proof V1_bz2; pose proof V1_bz3; pose proof (V1_hz (z_h2 z)). clay. unfold h1_2; rewrite ?Tw, ?Th; cbv beta zeta; inloop; unfold cur1, cur2, cur3, d1, d2, t1, t2, t3, s21, s31, s12, s32, s13, s23; cbv beta; ccong; unfold Rdiv; ring. Qed.
Lemma V1_c13 : AG (c1_3 c h z e g) v3 0 0 0 0 (-2) 1.
Proof. pose proof V1_J2; pose proof V1_J3; pose proof V1_bz1; pose proof V1_bz2; pose proof V1_bz3; pose proof (V1_hz (z_h2 z)). pose proof V1_h12. clay. unfold c1_3; rewrite ?Tw, ?Th; cbv beta zeta; inloop; unfold cur1, cur2, cur3, d1, d2, t1, t2, t3, s21, s31, s12, s32, s13, s23; cbv beta; ccong; unfold Rdiv; ring. Qed.
Lemma V1_j12 : AG (j1_2 c h z e g) 0 0 0 0 0 (-1) 1.
Proof. pose proof V1_J2; pose proof V1_J3; pose proof V1_bz1; pose proof V1_bz2; pose proof V1_bz3; pose proof (V1_hz (z_h2 z)). pose proof V1_c13. clay. unfold j1_2; rewrite ?Tw, ?Th; cbv beta zeta; inloop; unfold cur1, cur2, cur3, d1, d2, t1, t2, t3, s21, s31, s12, s32, s13, s23; cbv beta; ccong; unfold Rdiv; ring. Qed.
Lemma V1_h13 : AG (h1_3 c h z e g) 0 0 0 0 0 (-1) 1.
Proof. pose proof V1_J2; pose proof V1_J3; pose proof V1_bz1; pose proof V1_bz2; pose proof V1_bz3; pose proof (V1_hz (z_h2 z)). pose proof V1_j12. clay. unfold h1_3; rewrite ?Tw, ?Th; cbv beta zeta; inloop; unfold cur1, cur2, cur3, d1, d2, t1, t2, t3, s21, s31, s12, s32, s13, s23; cbv beta; ccong; unfold Rdiv; ring. Qed.
End HallOn.
Lemma V1_e1 : emf1 c z e g k j i = 0.
Proof.
  pose proof V1_J2 as PJ2; pose proof V1_J3 as PJ3. pose proof (V1_ez (z_e1 z)) as Z0.
  assert (Z1 : AG (if ohm c then O1 c z e g (ez c g (z_e1 z)) else ez c g (z_e1 z)) 0 0 0 0 0 0 0).
  { clay. destruct (ohm c); [|apply Z0; lia]. unfold O1. rewrite Tw, ?Th. ccong. try ring. }
  unfold emf1, step2. cbv zeta. set (Y := if ohm c then O1 c z e g (ez c g (z_e1 z)) else ez c g (z_e1 z)) in *. clearbody Y.
  assert (Z2 : AG (if hall c then H1 c z e g Y else Y) 0 0 0 0 0 0 0).
  { clay. destruct (hall c) eqn:Ho; [|apply Z1; lia]. unfold H1. rewrite Tw, ?Th. ccong. try ring. }
  set (V := if hall c then H1 c z e g Y else Y) in *. clearbody V.
  destruct (ambi c); [|apply Z2; lia]. unfold A1. rewrite Tw, ?Th. unfold ad1, ad2_1, ad; cbv zeta; unfold s21, s31, s12, s32, s13, s23, av1, av2. ccong. unfold Rdiv. try ring.
Qed.
Lemma V1_e2 : emf2 c h z e g k j i = 0.
Proof.
  pose proof V1_J2 as PJ2; pose proof V1_J3 as PJ3. pose proof (V1_ez (z_e2 z)) as Z0.
  assert (Z1 : AG (if ohm c then O2 c z e g (ez c g (z_e2 z)) else ez c g (z_e2 z)) 0 0 0 0 0 0 0).
  { clay. destruct (ohm c); [|apply Z0; lia]. unfold O2. rewrite Tw, ?Th. rewrite !loop3_in by lia. ccong. try ring. }
  unfold emf2, step2. cbv zeta. set (Y := if ohm c then O2 c z e g (ez c g (z_e2 z)) else ez c g (z_e2 z)) in *. clearbody Y.
  assert (Z2 : AG (if hall c then H2 c h z e g Y else Y) 0 0 0 0 0 0 0).
  { clay. destruct (hall c) eqn:Ho; [|apply Z1; lia]. unfold H2. rewrite Tw, ?Th. pose proof (V1_h12 Ho). rewrite !loop3_in by lia. ccong. try ring. }
  set (V := if hall c then H2 c h z e g Y else Y) in *. clearbody V.
  destruct (ambi c); [|apply Z2; lia]. unfold A2. rewrite Tw, ?Th. rewrite !loop3_in by lia. unfold ad1, ad2_2, ad; cbv zeta; unfold s21, s31, s12, s32, s13, s23, av1, av2. ccong. unfold Rdiv. try ring.
Qed.
Lemma V1_e3 : emf3 c h z e g k j i = 0.
Proof.
  pose proof V1_J2 as PJ2; pose proof V1_J3 as PJ3. pose proof (V1_ez (z_e3 z)) as Z0.
  assert (Z1 : AG (if ohm c then O3 c z e g (ez c g (z_e3 z)) else ez c g (z_e3 z)) 0 0 0 0 0 0 0).
  { clay. destruct (ohm c); [|apply Z0; lia]. unfold O3. rewrite Tw, ?Th. rewrite !loop3_in by lia. ccong. try ring. }
  unfold emf3, step2. cbv zeta. set (Y := if ohm c then O3 c z e g (ez c g (z_e3 z)) else ez c g (z_e3 z)) in *. clearbody Y.
  assert (Z2 : AG (if hall c then H3 c h z e g Y else Y) 0 0 0 0 0 0 0).
  { clay. destruct (hall c) eqn:Ho; [|apply Z1; lia]. unfold H3. rewrite Tw, ?Th. pose proof (V1_h13 Ho). rewrite !loop3_in by lia. ccong. try ring. }
  set (V := if hall c then H3 c h z e g Y else Y) in *. clearbody V.
  destruct (ambi c); [|apply Z2; lia]. unfold A3. rewrite Tw, ?Th. rewrite !loop3_in by lia. unfold ad1, ad2_3, ad; cbv zeta; unfold s21, s31, s12, s32, s13, s23, av1, av2. ccong. unfold Rdiv. try ring.
Qed.
End Uni1.


Lemma emf_uniform : forall c h z e g b1 b2 b3 k j i, shaped c g -> field_is c g b1 b2 b3 -> corner c g k j i ->
  emf1 c z e g k j i = 0 /\ emf2 c h z e g k j i = 0 /\ emf3 c h z e g k j i = 0.
Proof.
  intros c h z e g v1 v2 v3 k j i ((L1 & L2 & L3) & D2 & D3 & D32) F (Ci & Cj & Ck).
  assert (A : forall p q r, (if three c then (-4 <= p - k <= 3)%Z else p = k) -> (if two c then (-4 <= q - j <= 3)%Z else q = j) -> (-4 <= r - i <= 3)%Z ->
    b1c g p q r = v1 /\ b2c g p q r = v2 /\ b3c g p q r = v3 /\ ((-4 < r - i)%Z -> B1i g p q r = v1) /\ ((two c = true -> (-4 < q - j)%Z) -> B2i g p q r = v2) /\ ((three c = true -> (-4 < p - k)%Z) -> B3i g p q r = v3)).
  { intros p q r Hp Hq Hr. destruct (F p q r) as (F1 & F2 & F3 & F4 & F5 & F6).
    - unfold dzone, nghost. destruct (two c), (three c); lia.
    - unfold nghost in *. split; [exact F1|]. split; [exact F2|]. split; [exact F3|]. split; [intros; apply F4; lia|]. split; intros H; [apply F5|apply F6]; intros T; specialize (H T); rewrite T in *; lia. }
  destruct (three c) eqn:Th.
  - assert (Tw : two c = true) by auto. rewrite Tw in *.
    repeat match goal with |- _ /\ _ => split end; [apply (V3_e1 c z e g k j i v1 v2 v3)|apply (V3_e2 c h z e g k j i v1 v2 v3)|apply (V3_e3 c h z e g k j i v1 v2 v3)]; auto;
      intros p q r Hp Hq Hr; apply A; try lia; intros; lia.
  - destruct (two c) eqn:Tw.
    + specialize (D3 eq_refl). repeat match goal with |- _ /\ _ => split end; [apply (V2_e1 c z e g k j i v1 v2 v3)|apply (V2_e2 c h z e g k j i v1 v2 v3)|apply (V2_e3 c h z e g k j i v1 v2 v3)]; auto;
        intros p q r Hp Hq Hr; apply A; try lia; intros; try discriminate; lia.
    + specialize (D3 eq_refl). specialize (D2 eq_refl). repeat match goal with |- _ /\ _ => split end; [apply (V1_e1 c z e g k j i v2 v3)|apply (V1_e2 c h z e g k j i v1 v2 v3)|apply (V1_e3 c h z e g k j i v1 v2 v3)]; auto;
        intros p q r Hp Hq Hr; apply A; try lia; intros; try discriminate; lia.
Qed.
(** ** Nothing happens to a uniform field, nor to the gas in it *)
Theorem C80_uniform : forall c h z e g b1 b2 b3, shaped c g -> field_is c g b1 b2 b3 -> let G := resistivity c h z e g in
  forall k j i, active3 g k j i -> U G k j i = U g k j i /\ B1i G k j i = B1i g k j i /\ B2i G k j i = B2i g k j i /\ B3i G k j i = B3i g k j i.
Proof.
  intros c h z e g v1 v2 v3 S F G k j i A. pose proof S as ((L1 & L2 & L3) & D2 & D3 & D32).
  pose proof (fun p q r => emf_uniform c h z e g v1 v2 v3 p q r S F) as Q.
  set (E1 := emf1 c z e g) in *. set (E2 := emf2 c h z e g) in *. set (E3 := emf3 c h z e g) in *. destruct A as (Hk & Hj & Hi).
  assert (C0 : forall dk dj di, offset c 0 1 dk dj di -> E1 (k + dk)%Z (j + dj)%Z (i + di)%Z = 0 /\ E2 (k + dk)%Z (j + dj)%Z (i + di)%Z = 0 /\ E3 (k + dk)%Z (j + dj)%Z (i + di)%Z = 0).
  { intros. apply Q. apply act_corner; auto. now repeat split. }
  assert (T0 : forall x, (x + 0 = x)%Z) by (intros; lia).
  assert (Ei : forall d, (0 <= d <= 1)%Z -> E2 k j (i + d)%Z = 0 /\ E3 k j (i + d)%Z = 0 /\ E1 k j (i + d)%Z = 0).
  { intros d Hd. destruct (C0 0%Z 0%Z d) as (P1 & P2 & P3); [unfold offset; destruct (two c), (three c); lia|]. rewrite !T0 in P1, P2, P3. auto. }
  assert (Ej : two c = true -> forall d, (0 <= d <= 1)%Z -> E1 k (j + 1)%Z (i + d)%Z = 0 /\ E2 k (j + 1)%Z (i + d)%Z = 0 /\ E3 k (j + 1)%Z (i + d)%Z = 0).
  { intros Tw d Hd. destruct (C0 0%Z 1%Z d) as (P1 & P2 & P3); [unfold offset; rewrite Tw; destruct (three c); lia|]. rewrite !T0 in P1, P2, P3. auto. }
  assert (Ek : three c = true -> forall b d, (0 <= b <= 1)%Z -> (0 <= d <= 1)%Z -> E1 (k + 1)%Z (j + b)%Z (i + d)%Z = 0 /\ E2 (k + 1)%Z (j + b)%Z (i + d)%Z = 0 /\ E3 (k + 1)%Z (j + b)%Z (i + d)%Z = 0).
  { intros Th b d Hb Hd. apply C0. unfold offset. rewrite Th, (D32 Th). lia. }
  destruct (Ei 0%Z ltac:(lia)) as (I2 & I3 & I1). destruct (Ei 1%Z ltac:(lia)) as (J2 & J3 & J1). rewrite !T0 in I1, I2, I3.
  assert (Z0 : dzone c g k j i /\ dzone c g k j (i + 1) /\ (two c = true -> dzone c g k (j + 1) i) /\ (three c = true -> dzone c g (k + 1) j i)).
  { unfold dzone, nghost. destruct (two c), (three c); try specialize (D2 eq_refl); try specialize (D3 eq_refl); try (specialize (D32 eq_refl); discriminate); repeat split; try lia; try discriminate. }
  destruct Z0 as (Z0 & Z1 & Z2 & Z3).
  destruct (F _ _ _ Z0) as (F1 & F2 & F3 & F4 & F5 & F6). destruct (F _ _ _ Z1) as (_ & _ & _ & G4 & _).
  assert (X4 : B1i g k j i = v1) by (apply F4; unfold nghost; lia). assert (X4' : B1i g k j (i + 1)%Z = v1) by (apply G4; unfold nghost; lia).
  assert (X5 : B2i g k j i = v2) by (apply F5; unfold nghost; lia). assert (X6 : B3i g k j i = v3) by (apply F6; unfold nghost; lia).
  assert (X5' : two c = true -> B2i g k (j + 1)%Z i = v2). { intros Tw. destruct (F _ _ _ (Z2 Tw)) as (_ & _ & _ & _ & H & _). apply H. unfold nghost. lia. }
  assert (X6' : three c = true -> B3i g (k + 1)%Z j i = v3). { intros Th. destruct (F _ _ _ (Z3 Th)) as (_ & _ & _ & _ & _ & H). apply H. unfold nghost. lia. }
  clear F4 F5 F6 G4.
  assert (A : active3 g k j i) by now repeat split.
  assert (f1 : B1i G k j i = v1 /\ (two c = true -> B1i G k j (i + 1)%Z = v1)).
  { unfold G. destruct (two c) eqn:Tw; [|rewrite B1_same by auto; split; [exact X4|discriminate]]. rewrite !B1_face by (auto; lia). fold E2 E3.
    destruct (Ej eq_refl 0%Z ltac:(lia)) as (_ & P2 & P3). destruct (Ej eq_refl 1%Z ltac:(lia)) as (_ & P2' & P3'). rewrite !T0 in P2, P3.
    rewrite X4, X4', I2, I3, J2, J3, P3, P3'. unfold a3. destruct (three c) eqn:Th; [|split; intros; ring].
    destruct (Ek eq_refl 0%Z 0%Z ltac:(lia) ltac:(lia)) as (_ & K2 & _). destruct (Ek eq_refl 0%Z 1%Z ltac:(lia) ltac:(lia)) as (_ & K2' & _). rewrite !T0 in K2. rewrite !T0 in K2'. rewrite K2, K2'. split; intros; ring. }
  assert (f2 : two c = true -> B2i G k j i = v2 /\ B2i G k (j + 1)%Z i = v2).
  { intros Tw. unfold G. rewrite !B2_face by (auto; lia). fold E1 E3. destruct (Ej Tw 0%Z ltac:(lia)) as (P1 & _ & P3). destruct (Ej Tw 1%Z ltac:(lia)) as (P1' & _ & P3'). rewrite !T0 in P1. rewrite !T0 in P3.
    rewrite X5, (X5' Tw), I1, I3, J3, P1, P3, P3'. unfold a3. destruct (three c) eqn:Th; [|split; intros; ring].
    destruct (Ek eq_refl 0%Z 0%Z ltac:(lia) ltac:(lia)) as (K1 & _ & _). destruct (Ek eq_refl 1%Z 0%Z ltac:(lia) ltac:(lia)) as (K1' & _ & _). rewrite !T0 in K1. rewrite !T0 in K1'. rewrite K1, K1'. split; intros; ring. }
  assert (f3 : three c = true -> B3i G k j i = v3 /\ B3i G (k + 1)%Z j i = v3).
  { intros Th. pose proof (D32 Th) as Tw. unfold G. rewrite !B3_face by (auto; lia). fold E1 E2. destruct (Ej Tw 0%Z ltac:(lia)) as (P1 & P2 & _). rewrite !T0 in P1. rewrite !T0 in P2.
    destruct (Ek Th 0%Z 0%Z ltac:(lia) ltac:(lia)) as (K1 & K2 & _). destruct (Ek Th 1%Z 0%Z ltac:(lia) ltac:(lia)) as (K1' & _ & _). destruct (Ek Th 0%Z 1%Z ltac:(lia) ltac:(lia)) as (_ & K2' & _).
    rewrite !T0 in K1. rewrite !T0 in K2. rewrite !T0 in K1'. rewrite !T0 in K2'.
    rewrite X6, (X6' Th), I1, I2, J2, P1, K1, K2, K1', K2'. split; intros; ring. }
  assert (c1 : cB1 (U G k j i) = v1).
  { unfold G. rewrite (B1_cell c h z e g S k j i A). fold G. destruct (two c) eqn:Tw; [|exact F1]. destruct f1 as (-> & R). rewrite (R eq_refl). unfold half. field. }
  assert (c2 : cB2 (U G k j i) = v2).
  { unfold G. rewrite (B2_cell c h z e g S k j i A). fold G E3. destruct (two c) eqn:Tw; [|rewrite F2, I3, J3; ring]. destruct (f2 eq_refl) as (-> & ->). unfold half. field. }
  assert (c3 : cB3 (U G k j i) = v3).
  { unfold G. rewrite (B3_cell c h z e g S k j i A). fold G E1 E2. destruct (three c) eqn:Th; [destruct (f3 eq_refl) as (-> & ->); unfold half; field|].
    rewrite F3, I1, I2, J2. unfold a2. destruct (two c) eqn:Tw; [|ring]. destruct (Ej eq_refl 0%Z ltac:(lia)) as (P1 & _ & _). rewrite !T0 in P1. rewrite P1. ring. }
  split; [|split; [|split]].
  - assert (ce : cE (U G k j i) = cE (U g k j i)).
    { unfold G. destruct (barotropic c) eqn:Bt; [now apply (C80_only_field_energy c h z e g S)|].
      rewrite (E_cell c h z e g S k j i A Bt). unfold nf1, nf2, nf3. fold E1 E2 E3. rewrite I2, I3, J2, J3, I1. unfold a2, a3.
      destruct (two c) eqn:Tw.
      - destruct (Ej eq_refl 0%Z ltac:(lia)) as (P1 & P2 & P3). destruct (Ej eq_refl 1%Z ltac:(lia)) as (P1' & P2' & P3'). rewrite !T0 in P1. rewrite !T0 in P2. rewrite !T0 in P3. rewrite P1, P3, P3'.
        destruct (three c) eqn:Th; [|unfold half; ring].
        destruct (Ek eq_refl 0%Z 0%Z ltac:(lia) ltac:(lia)) as (K1 & K2 & _). destruct (Ek eq_refl 1%Z 0%Z ltac:(lia) ltac:(lia)) as (K1' & _ & _). destruct (Ek eq_refl 0%Z 1%Z ltac:(lia) ltac:(lia)) as (_ & K2' & _).
        rewrite !T0 in K1. rewrite !T0 in K2. rewrite !T0 in K1'. rewrite !T0 in K2'. rewrite K1, K2, K1', K2'. ring.
      - destruct (three c) eqn:Th; [specialize (D32 eq_refl); discriminate|]. unfold half. ring. }
    assert (ER : forall u u', cd u = cd u' -> cM1 u = cM1 u' -> cM2 u = cM2 u' -> cM3 u = cM3 u' -> cE u = cE u' -> cB1 u = cB1 u' -> cB2 u = cB2 u' -> cB3 u = cB3 u' -> cs u = cs u' -> u = u').
    { intros [] []. cbn. intros. subst. reflexivity. }
    apply ER; try reflexivity; congruence.
  - destruct f1 as (-> & _). auto.
  - destruct (two c) eqn:Tw; [destruct (f2 eq_refl) as (-> & _); auto|]. unfold G. rewrite (B2_copy c h z e g S k j i A Tw). fold G. congruence.
  - destruct (three c) eqn:Th; [destruct (f3 eq_refl) as (-> & _); auto|]. unfold G. rewrite (B3_copy c h z e g S k j i A Th). fold G. congruence.
Qed.
Print Assumptions C80_uniform.

(** ** Hypotheses that can be met *)
Definition ex_ocfg : dcfg := DCfg true true true false (2 / 3) 0 0 0 0 1 2 3 0.
Definition ex_etas : etas := Etas (fun k j i => if Z.even i then 1 else 2) (fun k j i => if Z.even j then 2 else 3) (fun k j i => if Z.even k then 1 else 5).
Example ex_oshaped : shaped ex_ocfg ex_dgrid /\ dx1 ex_dgrid <> 0 /\ dx2 ex_dgrid <> 0 /\ dx3 ex_dgrid <> 0 /\ active3 ex_dgrid 4 5 4 /\ hall ex_ocfg = true /\ ohm ex_ocfg = true /\ ambi ex_ocfg = true.
Proof.
  split; [exact ex_dshaped|]. cbn [dx1 dx2 dx3 ex_dgrid]. split; [lra|]. split; [lra|]. split; [lra|]. split; [unfold active3; cbn; lia|].
  unfold hall, ohm, ambi. cbn [Q_Hall eta_Ohm Q_AD ex_ocfg]. destruct (Rlt_dec 0 2); [|lra]. destruct (Rlt_dec 0 1); [|lra]. destruct (Rlt_dec 0 3); [|lra]. auto.
Qed.
Example ex_operiodic : dperiodic ex_ocfg ex_dgrid /\ eperiodic ex_ocfg ex_dgrid ex_etas /\ dcentred ex_ocfg ex_dgrid.
Proof.
  split; [exact ex_dperiodic|]. split.
  - intros k j i _. cbn [e_O e_H e_A ex_etas ex_dgrid ie is je js ke ks]. change (5 - 4 + 1)%Z with 2%Z. rewrite !Z.even_add. cbn.
    destruct (Z.even i), (Z.even j), (Z.even k); cbn; repeat split; reflexivity.
  - intros k j i _. cbn [U B1i B2i B3i ex_dgrid two three ex_ocfg]. unfold ex_dcell. cbv zeta.
    destruct (Z.even j), (Z.even k), (Z.even (i + j + k)); cbn; unfold half; repeat split; field.
Qed.
Definition ex_flat : grid3 :=
  Grid3 4 5 4 5 4 5 (1 / 10) 1 1 1 0 0 0 (fun k j i => Cons (if Z.even i then 1 else 2) 2 0 0 40 1 2 3 nil) (fun _ _ _ => 1) (fun _ _ _ => 2) (fun _ _ _ => 3)
    (fun _ _ _ => 0) (fun _ _ _ => 0) (fun _ _ _ => 0) (fun _ _ _ => 0).
Example ex_ouniform : shaped ex_ocfg ex_flat /\ field_is ex_ocfg ex_flat 1 2 3.
Proof. split; [exact ex_dshaped|]. intros k j i _. cbn. repeat split. Qed.
Example ex_olocal : enear ex_ocfg ex_etas ex_etas 4 4 4 4 4 6 (-4) 4.
Proof.
  intros dk dj di _. cbn [e_O e_H e_A ex_etas]. replace (6 + di)%Z with (4 + di + 2 * 1)%Z by lia. rewrite (Z.even_add (4 + di)), Z.even_mul.
  destruct (Z.even (4 + di)); repeat split; reflexivity.
Qed.
