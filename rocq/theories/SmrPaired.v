(** * The records made by init_grid satisfy the assumptions of RestrictCorrect; length of its message (C72) *)
From Coq Require Import Reals ZArith Bool Arith Lia Lra ZifyBool List.
From Verif Require Import CStr MeshModel SmrModel SmrOverlap SmrFacts SmrProps.
Import ListNotations.
Open Scope Z_scope.

Definition e3on (c : cfg) (pNx : vec) (a : axis) : bool := c_mhd c && (1 <? pNx X2) && negb (axis_eqb a X3).
Definition e2on (c : cfg) (pNx : vec) (a : axis) : bool := c_mhd c && (1 <? pNx X3) && negb (axis_eqb a X2).
Definition e1on (c : cfg) (pNx : vec) (a : axis) : bool := c_mhd c && (1 <? pNx X3) && negb (axis_eqb a X1).
Definition hit (a b : axis) (s t : bool) : bool := axis_eqb a b && Bool.eqb s t.
Definition area (G : box) (a : axis) : Z := fst (n12z G a) * snd (n12z G a).
(** Doubles that one boundary adds to the restriction message. *)
Definition fwords (c : cfg) (pNx : vec) (G : box) (a : axis) : Z :=
  let (n1z, n2z) := n12z G a in
  n1z * n2z * NVAR c +
  (if 0 <? n1z * n2z then
    (if c_mhd c && (1 <? pNx X2) && negb (axis_eqb a X3) then (n1z + 1) * n2z else 0) +
    (if c_mhd c && (1 <? pNx X3) && negb (axis_eqb a X3) then n1z * (n2z + 1) else 0) +
    (if c_mhd c && (1 <? pNx X3) && axis_eqb a X3 then n1z * (n2z + 1) + (n1z + 1) * n2z else 0) else 0).

Lemma cface_flags : forall ng c pNx G a s o b t,
  some (o_flx (cface ng c pNx G a s o) b t) = (hit a b s t && (0 <? area G a)) || some (o_flx o b t) /\
  some (o_emf3 (cface ng c pNx G a s o) b t) = (hit a b s t && (0 <? area G a) && e3on c pNx a) || some (o_emf3 o b t) /\
  some (o_emf2 (cface ng c pNx G a s o) b t) = (hit a b s t && (0 <? area G a) && e2on c pNx a) || some (o_emf2 o b t) /\
  some (o_emf1 (cface ng c pNx G a s o) b t) = (hit a b s t && (0 <? area G a) && e1on c pNx a) || some (o_emf1 o b t) /\
  o_nRC (cface ng c pNx G a s o) = o_nRC o + fwords c pNx G a.
Proof.
  intros. unfold cface, hit, area, e3on, e2on, e1on, fwords. destruct (n12z G a) as [n1 n2]. cbn [fst snd].
  destruct (0 <? n1 * n2); destruct (c_mhd c); destruct (1 <? pNx X2); destruct (1 <? pNx X3); destruct a; cbn;
    unfold set_arr; destruct b; destruct s, t; cbn; repeat split; rewrite ?orb_false_r; try reflexivity; lia.
Qed.

Section fold.
  Context (ng : Z) (c : cfg) (root pNx : vec) (ch : domain) (gc : gidx) (G2 G3 : box).
  Definition test (a : axis) (s : bool) : bool :=
    if s then (br G2 a =? br G3 a) && negb ((dm_Disp ch a + dm_Nx ch a) / irefine (dm_level ch) =? root a) && (Z.of_nat (gi_ax gc a) =? dm_NG ch a - 1)
    else (bl G2 a =? bl G3 a) && negb (dm_Disp ch a =? 0) && (gi_ax gc a =? 0)%nat.
  Lemma cdims_flags : forall l o b t,
    let o' := fold_left (cdim ng c root pNx ch gc G2 G3) l o in
    some (o_flx o' b t) = (existsb (axis_eqb b) l && test b t && (0 <? area G3 b)) || some (o_flx o b t) /\
    some (o_emf3 o' b t) = (existsb (axis_eqb b) l && test b t && (0 <? area G3 b) && e3on c pNx b) || some (o_emf3 o b t) /\
    some (o_emf2 o' b t) = (existsb (axis_eqb b) l && test b t && (0 <? area G3 b) && e2on c pNx b) || some (o_emf2 o b t) /\
    some (o_emf1 o' b t) = (existsb (axis_eqb b) l && test b t && (0 <? area G3 b) && e1on c pNx b) || some (o_emf1 o b t).
  Proof.
    induction l as [|a l IH]; intros o b t; cbn [fold_left]; [cbn; auto|]. cbv zeta in *.
    destruct (IH (cdim ng c root pNx ch gc G2 G3 o a) b t) as (I1 & I2 & I3 & I4). rewrite I1, I2, I3, I4. clear IH I1 I2 I3 I4.
    assert (K : some (o_flx (cdim ng c root pNx ch gc G2 G3 o a) b t) = (axis_eqb b a && test b t && (0 <? area G3 b)) || some (o_flx o b t) /\
                some (o_emf3 (cdim ng c root pNx ch gc G2 G3 o a) b t) = (axis_eqb b a && test b t && (0 <? area G3 b) && e3on c pNx b) || some (o_emf3 o b t) /\
                some (o_emf2 (cdim ng c root pNx ch gc G2 G3 o a) b t) = (axis_eqb b a && test b t && (0 <? area G3 b) && e2on c pNx b) || some (o_emf2 o b t) /\
                some (o_emf1 (cdim ng c root pNx ch gc G2 G3 o a) b t) = (axis_eqb b a && test b t && (0 <? area G3 b) && e1on c pNx b) || some (o_emf1 o b t)).
    { unfold cdim. cbv zeta. change ((bl G2 a =? bl G3 a) && negb (dm_Disp ch a =? 0) && (gi_ax gc a =? 0)%nat) with (test a false).
      change ((br G2 a =? br G3 a) && negb ((dm_Disp ch a + dm_Nx ch a) / irefine (dm_level ch) =? root a) && (Z.of_nat (gi_ax gc a) =? dm_NG ch a - 1)) with (test a true).
      destruct (axis_eqb b a) eqn:EB.
      - assert (a = b) by (destruct a, b; cbn in EB; congruence). subst a. destruct (test b false) eqn:T1; destruct (test b true) eqn:T2;
          repeat match goal with |- context [cface ng c pNx G3 b ?s ?o'] => lazymatch o' with context [cface] => fail | _ => destruct (cface_flags ng c pNx G3 b s o' b t) as (C1 & C2 & C3 & C4 & _); set (ofin := cface ng c pNx G3 b s o') in * end end;
          try (destruct (cface_flags ng c pNx G3 b true ofin b t) as (D1 & D2 & D3 & D4 & _); rewrite D1, D2, D3, D4);
          rewrite ?C1, ?C2, ?C3, ?C4; unfold hit; replace (axis_eqb b b) with true by (destruct b; reflexivity);
          destruct t; rewrite ?T1, ?T2; cbn; auto.
      - assert (H : forall s, hit a b s t = false) by (intros s; unfold hit; replace (axis_eqb a b) with false by (destruct a, b; cbn in *; congruence); reflexivity).
        destruct (test a false); destruct (test a true); cbn [andb orb];
          rewrite ?(proj1 (cface_flags ng c pNx G3 a true _ b t)), ?(proj1 (cface_flags ng c pNx G3 a false _ b t)),
            ?(proj1 (proj2 (cface_flags ng c pNx G3 a true _ b t))), ?(proj1 (proj2 (cface_flags ng c pNx G3 a false _ b t))),
            ?(proj1 (proj2 (proj2 (cface_flags ng c pNx G3 a true _ b t)))), ?(proj1 (proj2 (proj2 (cface_flags ng c pNx G3 a false _ b t)))),
            ?(proj1 (proj2 (proj2 (proj2 (cface_flags ng c pNx G3 a true _ b t))))), ?(proj1 (proj2 (proj2 (proj2 (cface_flags ng c pNx G3 a false _ b t)))));
          rewrite ?H; cbn; auto. }
    destruct K as (K1 & K2 & K3 & K4). rewrite K1, K2, K3, K4. cbn [existsb].
    destruct (axis_eqb b a), (existsb (axis_eqb b) l), (test b t), (0 <? area G3 b), (e3on c pNx b), (e2on c pNx b), (e1on c pNx b); cbn; auto.
  Qed.
  Definition tw (a : axis) (s : bool) : Z := if test a s then fwords c pNx G3 a else 0.
  Lemma cdims_words : forall l o,
    o_nRC (fold_left (cdim ng c root pNx ch gc G2 G3) l o) = o_nRC o + fold_right Z.add 0 (map (fun a => tw a false + tw a true) l).
  Proof.
    induction l as [|a l IH]; intros o; cbn [fold_left map fold_right]; [lia|]. rewrite IH. clear IH.
    assert (K : o_nRC (cdim ng c root pNx ch gc G2 G3 o a) = o_nRC o + (tw a false + tw a true)); [|lia].
    unfold cdim. cbv zeta. change ((bl G2 a =? bl G3 a) && negb (dm_Disp ch a =? 0) && (gi_ax gc a =? 0)%nat) with (test a false).
    change ((br G2 a =? br G3 a) && negb ((dm_Disp ch a + dm_Nx ch a) / irefine (dm_level ch) =? root a) && (Z.of_nat (gi_ax gc a) =? dm_NG ch a - 1)) with (test a true).
    unfold tw. destruct (test a false); destruct (test a true);
      rewrite ?(proj2 (proj2 (proj2 (proj2 (cface_flags ng c pNx G3 a true _ X1 true))))), ?(proj2 (proj2 (proj2 (proj2 (cface_flags ng c pNx G3 a false _ X1 true))))); lia.
  Qed.
End fold.

Lemma some_false : forall {A : Type} (o : option A), some o = false -> o = None.
Proof. intros A [x|]; cbn; congruence. Qed.
Lemma in_axes : forall nDim a, (1 <= nDim <= 3)%nat -> existsb (axis_eqb a) (axes nDim) = match a with X1 => true | X2 => (2 <=? nDim)%nat | X3 => (3 <=? nDim)%nat end.
Proof. intros n a H. assert (n = 1 \/ n = 2 \/ n = 3)%nat by lia. destruct H0 as [->|[->| ->]]; destruct a; reflexivity. Qed.

(** What cgrid makes: the region, the flags and the number of doubles. *)
Lemma cgrid_inv : forall ng c root nDim pa gp ch gc oc, aligned nDim pa gp ch gc -> cgrid ng c root nDim pa gp ch gc = Some oc ->
  exists tst : axis -> bool -> bool,
    (forall a, 0 <= len oc a) /\
    (forall a, ratio nDim a = 1 -> len oc a = 1 /\ o_s oc a = 0) /\
    (forall a s, some (o_flx oc a s) = existsb (axis_eqb a) (axes nDim) && tst a s && (0 <? slow oc a * fast oc a)) /\
    (forall a s, some (o_emf3 oc a s) = c_mhd c && (2 <=? nDim)%nat && negb (axis_eqb a X3) && some (o_flx oc a s)) /\
    (forall a s, some (o_emf2 oc a s) = c_mhd c && (3 <=? nDim)%nat && negb (axis_eqb a X2) && some (o_flx oc a s)) /\
    (forall a s, some (o_emf1 oc a s) = c_mhd c && (3 <=? nDim)%nat && negb (axis_eqb a X1) && some (o_flx oc a s)) /\
    (forall a, len oc a = 0 -> tst a false && tst a true = false) /\
    o_nRC oc = len oc X1 * len oc X2 * len oc X3 * NVAR c +
      (if c_mhd c && (0 <? len oc X1 * len oc X2 * len oc X3) then
         if (nDim =? 3)%nat then (len oc X1 + 1) * len oc X2 * len oc X3 + len oc X1 * (len oc X2 + 1) * len oc X3 + len oc X1 * len oc X2 * (len oc X3 + 1)
         else if (nDim =? 2)%nat then (len oc X1 + 1) * len oc X2 + len oc X1 * (len oc X2 + 1) else 0 else 0) +
      fold_right Z.add 0 (map (fun a => let w := slow oc a * fast oc a * NVAR c +
           (if c_mhd c && (0 <? slow oc a * fast oc a) then
              (if (2 <=? nDim)%nat && negb (axis_eqb a X3) then slow oc a * (fast oc a + 1) else 0) +
              (if (3 <=? nDim)%nat && negb (axis_eqb a X3) then (slow oc a + 1) * fast oc a else 0) +
              (if (3 <=? nDim)%nat && axis_eqb a X3 then (slow oc a + 1) * fast oc a + slow oc a * (fast oc a + 1) else 0) else 0) in
         (if tst a false then w else 0) + (if tst a true then w else 0)) (axes nDim)).
Proof.
  intros ng c root nDim pa gp ch gc oc [ND A] H. unfold cgrid in H.
  destruct (fst (checkOverlap (sides pa) (child_sides ch))); [|discriminate]. cbn [negb] in H.
  destruct (checkOverlapTouch (grid_box pa gp) (child_grid_sides ch gc)) as [y G] eqn:E. destruct y; [|discriminate]. cbn [negb] in H. cbv zeta in H.
  match goal with H : Some (fold_left (cdim _ _ _ ?pN _ _ ?g2 _) _ ?o) = _ |- _ => set (pNx := pN) in *; set (o0 := o) in * end.
  injection H as <-.
  destruct (region_cdims ng c root pNx ch gc (child_grid_sides ch gc) G (axes nDim) o0) as [S1 S2].
  pose proof (cdims_flags ng c root pNx ch gc (child_grid_sides ch gc) G (axes nDim) o0) as FL. cbv zeta in FL.
  pose proof (cdims_words ng c root pNx ch gc (child_grid_sides ch gc) G (axes nDim) o0) as WD.
  set (oc := fold_left _ (axes nDim) o0) in *.
  assert (LE : forall a, len oc a = ext G a) by (intros a; unfold len; rewrite S1, S2; unfold o0; cbn [o_s o_e]; unfold ext; lia).
  assert (PX : (1 <? pNx X2) = (2 <=? nDim)%nat /\ (1 <? pNx X3) = (3 <=? nDim)%nat).
  { pose proof (A X2) as A2. pose proof (A X3) as A3. cbv zeta in A2, A3. rewrite in_axes in A2, A3 by exact ND. unfold pNx. destruct (2 <=? nDim)%nat, (3 <=? nDim)%nat; split; lia. }
  destruct PX as [PX2 PX3].
  (* the box *)
  assert (BX : forall a, 0 <= ext G a /\ (ratio nDim a = 1 -> bl G a = 0 /\ br G a = 1) /\ (ext G a = 0 -> bl G a = bl (child_grid_sides ch gc) a -> br G a = br (child_grid_sides ch gc) a -> False)).
  { intros a. unfold checkOverlapTouch in E. cbv zeta in E. injection E as Y1 <-. rewrite Y1. unfold overlap_box, ext. cbn [bl br].
    assert (Y3 : (bl (grid_box pa gp) a <=? br (child_grid_sides ch gc) a) && (br (grid_box pa gp) a >=? bl (child_grid_sides ch gc) a) = true).
    { unfold all3 in Y1. rewrite !andb_true_iff in Y1. rewrite andb_true_iff. destruct a; intuition. }
    specialize (A a). cbv zeta in A. unfold ratio. unfold grid_box, child_grid_sides in *. cbn [bl br] in *.
    destruct (existsb (axis_eqb a) (axes nDim)).
    - destruct A as (A1 & A2 & A3 & A4 & A5 & A6 & A7).
      pose proof (div2_even _ A4). pose proof (div2_even _ (Z.divide_add_r _ _ _ A4 A5)).
      destruct (Z.ltb_spec 1 (dm_Nx ch a)); [|lia]. lia.
    - destruct A as (A1 & A2 & A3 & A4 & A5 & A6 & A7 & A8). rewrite A1, A2, A3, A5 in *. cbn in *. lia. }
  assert (AR : forall a, area G a = slow oc a * fast oc a /\ fst (n12z G a) = fast oc a /\ snd (n12z G a) = slow oc a).
  { intros a. unfold area, slow, fast. rewrite !LE. destruct a; cbn; lia. }
  exists (test root ch gc (child_grid_sides ch gc) G).
  split; [intros a; rewrite LE; apply BX|]. split.
  { intros a R1. destruct (BX a) as (_ & B & _). specialize (B R1). split; [rewrite LE; unfold ext; lia|]. rewrite S1. unfold o0. cbn [o_s].
    specialize (A a). cbv zeta in A. unfold ratio in R1. destruct (existsb (axis_eqb a) (axes nDim)); [discriminate|].
    change (bl (grid_box pa gp) a) with (gDisp pa a (gi_ax gp a)). unfold pNx, gis. destruct A as (A1 & A2 & _). rewrite A1, A2. cbn. lia. }
  assert (E1 : forall a s, some (o_flx oc a s) = existsb (axis_eqb a) (axes nDim) && test root ch gc (child_grid_sides ch gc) G a s && (0 <? slow oc a * fast oc a)).
  { intros a s. destruct (FL a s) as (F1 & _). rewrite F1. destruct (AR a) as (-> & _). unfold o0. cbn. rewrite orb_false_r. reflexivity. }
  split; [exact E1|].
  split. { intros a s. destruct (FL a s) as (_ & F & _). rewrite F, E1. destruct (AR a) as (-> & _). unfold o0, e3on. rewrite PX2. cbn [some o_emf3]. rewrite orb_false_r.
    destruct (existsb (axis_eqb a) (axes nDim)), (test root ch gc (child_grid_sides ch gc) G a s), (0 <? slow oc a * fast oc a), (c_mhd c), (2 <=? nDim)%nat, (axis_eqb a X3); reflexivity. }
  split. { intros a s. destruct (FL a s) as (_ & _ & F & _). rewrite F, E1. destruct (AR a) as (-> & _). unfold o0, e2on. rewrite PX3. cbn [some o_emf2]. rewrite orb_false_r.
    destruct (existsb (axis_eqb a) (axes nDim)), (test root ch gc (child_grid_sides ch gc) G a s), (0 <? slow oc a * fast oc a), (c_mhd c), (3 <=? nDim)%nat, (axis_eqb a X2); reflexivity. }
  split. { intros a s. destruct (FL a s) as (_ & _ & _ & F). rewrite F, E1. destruct (AR a) as (-> & _). unfold o0, e1on. rewrite PX3. cbn [some o_emf1]. rewrite orb_false_r.
    destruct (existsb (axis_eqb a) (axes nDim)), (test root ch gc (child_grid_sides ch gc) G a s), (0 <? slow oc a * fast oc a), (c_mhd c), (3 <=? nDim)%nat, (axis_eqb a X1); reflexivity. }
  split. { intros a L. destruct (BX a) as (_ & _ & B). rewrite LE in L. specialize (B L). unfold test.
    destruct (bl (child_grid_sides ch gc) a =? bl G a) eqn:Q1; [|reflexivity]. destruct (br (child_grid_sides ch gc) a =? br G a) eqn:Q2; [|cbn [andb]; apply andb_false_r]. exfalso. lia. }
  rewrite WD. unfold o0. cbn [o_nRC]. rewrite !LE.
  assert (NV := NVAR_pos c).
  replace (0 <? ext G X1 * ext G X2 * ext G X3 * NVAR c) with (0 <? ext G X1 * ext G X2 * ext G X3) by (destruct (Z.ltb_spec 0 (ext G X1 * ext G X2 * ext G X3)); symmetry; [apply Z.ltb_lt|apply Z.ltb_ge]; nia).
  f_equal.
  - destruct (c_mhd c && (0 <? ext G X1 * ext G X2 * ext G X3)); [|lia]. destruct (nDim =? 3)%nat; [lia|]. destruct (nDim =? 2)%nat; lia.
  - f_equal. apply map_ext. intros a. cbv zeta. unfold tw, fwords. destruct (AR a) as (_ & R1 & R2). destruct (n12z G a) as [n1 n2]. cbn [fst snd] in R1, R2. subst n1 n2. rewrite PX2, PX3.
    rewrite (Z.mul_comm (slow oc a) (fast oc a)). destruct (test root ch gc (child_grid_sides ch gc) G a false), (test root ch gc (child_grid_sides ch gc) G a true); destruct (0 <? fast oc a * slow oc a), (c_mhd c), (2 <=? nDim)%nat, (3 <=? nDim)%nat, (axis_eqb a X3); cbn; lia.
Qed.

Theorem C72_paired : forall ng c root nDim pa gp ch gc oc of, aligned nDim pa gp ch gc ->
  cgrid ng c root nDim pa gp ch gc = Some oc -> pgrid ng c root nDim pa gp ch gc = Some of -> paired c nDim oc of.
Proof.
  intros ng c root nDim pa gp ch gc oc of A HC HP.
  pose proof (C72_overlap ng c root nDim pa gp ch gc A) as O. rewrite HC, HP in O. destruct O as (_ & _ & FG & O).
  destruct (cgrid_inv _ _ _ _ _ _ _ _ _ A HC) as (tst & I1 & I2 & I3 & I4 & I5 & I6 & I7 & _).
  pose proof (proj1 A) as ND.
  constructor.
  - exact ND.
  - intros a. destruct (O a) as (O1 & O2 & _). auto.
  - intros a R1. destruct (I2 a R1) as (J1 & J2). split; [exact J1|]. split; [|exact J2].
    destruct (O a) as (_ & _ & O3). destruct A as [_ A]. specialize (A a). cbv zeta in A. unfold ratio in *. destruct (existsb (axis_eqb a) (axes nDim)); [discriminate|].
    destruct A as (A1 & A2 & A3 & A4 & _). rewrite J2, A1, A2, A3, A4 in O3. unfold gis in O3. cbn in O3. lia.
  - exact FG.
  - intros a s R1. apply some_false. rewrite I3. unfold ratio in R1. destruct (existsb (axis_eqb a) (axes nDim)); [discriminate|reflexivity].
  - intros L a s. repeat split; apply some_false; rewrite ?I4, ?I5, ?I6; replace (2 <=? nDim)%nat with false by lia; replace (3 <=? nDim)%nat with false by lia; rewrite andb_false_r; reflexivity.
  - intros L s. apply some_false. rewrite I6. replace (3 <=? nDim)%nat with false by lia. rewrite andb_false_r. reflexivity.
  - intros L M s. rewrite !I4, I6, M. replace (2 <=? nDim)%nat with true by lia. cbn [axis_eqb negb andb]. repeat split. rewrite I3. rewrite in_axes by exact ND. destruct (3 <=? nDim)%nat; reflexivity.
  - intros M a s. repeat split; apply some_false; rewrite ?I4, ?I5, ?I6, M; reflexivity.
  - intros L M s. rewrite !I5, !I6, M, L. cbn. auto.
  - intros a s b F NE. rewrite I3 in F. pose proof (I1 X1). pose proof (I1 X2). pose proof (I1 X3).
    assert (Q : 0 < slow oc a * fast oc a) by lia. clear F. destruct a; cbn in Q; destruct b; try congruence; nia.
  - intros a L. specialize (I7 a L). rewrite !I3. destruct (tst a false), (tst a true); try discriminate; rewrite ?andb_false_r; reflexivity.
Qed.
Print Assumptions C72_paired.

Lemma len_flxs : forall c nDim oc F a b1 b2 s, 0 <= len oc b1 -> 0 <= len oc b2 ->
  Z.of_nat (length (flxs c nDim oc F a b1 b2 s)) = if some (o_flx oc a s) then len oc b1 * len oc b2 * NVAR c else 0.
Proof.
  intros. unfold flxs. destruct (some (o_flx oc a s)); [|reflexivity].
  rewrite map_length, !length_cells2, !length_offs, !Nat2Z.inj_mul, length_vars, !Z2Nat.id by lia. reflexivity.
Qed.
Lemma len_emfl : forall h n2 n1, 0 <= n2 -> 0 <= n1 -> Z.of_nat (length (emfl h n2 n1)) = n2 * n1.
Proof. intros. unfold emfl. rewrite map_length, length_cells2, !length_offs, Nat2Z.inj_mul, !Z2Nat.id by lia. reflexivity. Qed.
Lemma len_if : forall (b : bool) (l : list R), Z.of_nat (length (if b then l else [])) = if b then Z.of_nat (length l) else 0.
Proof. intros []; reflexivity. Qed.
(** The child writes exactly the number of doubles that both sides have recorded. *)
Theorem C72_message : forall ng c root nDim pa gp ch gc oc of g f, aligned nDim pa gp ch gc ->
  cgrid ng c root nDim pa gp ch gc = Some oc -> pgrid ng c root nDim pa gp ch gc = Some of ->
  Z.of_nat (length (pack_RC c nDim of g f)) = o_nRC oc /\ Z.of_nat (length (pack_RC c nDim of g f)) = o_nRC of.
Proof.
  intros ng c root nDim pa gp ch gc oc of g f A HC HP.
  pose proof (C72_paired _ _ _ _ _ _ _ _ _ _ A HC HP) as P.
  assert (K : Z.of_nat (length (pack_RC c nDim of g f)) = o_nRC oc).
  2:{ split; [exact K|]. rewrite K. pose proof (C72_overlap ng c root nDim pa gp ch gc A) as O. rewrite HC, HP in O. apply O. }
  destruct (cgrid_inv _ _ _ _ _ _ _ _ _ A HC) as (tst & I1 & I2 & I3 & I4 & I5 & I6 & I7 & ->).
  pose proof (proj1 A) as ND. pose proof (I1 X1). pose proof (I1 X2). pose proof (I1 X3). pose proof (NVAR_pos c).
  unfold pack_RC. rewrite (pack_cons_eq _ _ _ _ _ P), !(pack_flx1_eq _ _ _ _ _ _ P), !(pack_flx2_eq _ _ _ _ _ _ P), !(pack_flx3_eq _ _ _ _ _ _ P).
  rewrite !app_length, !Nat2Z.inj_add, !len_flxs by auto.
  rewrite map_length, length_cells2, Nat2Z.inj_mul, length_vars. unfold base3. rewrite length_cells3, !length_offs, !Nat2Z.inj_mul, !Z2Nat.id by auto.
  rewrite !len_if. rewrite !app_length, !Nat2Z.inj_add.
  assert (EQ : forall b : bool, forall (l : list R), (if b then l else []) = if b then l else []) by reflexivity.
  assert (M : forall a s t, 0 <= t -> (slow oc a * fast oc a = 0 -> t = 0) -> (if some (o_flx oc a s) then t else 0) = if existsb (axis_eqb a) (axes nDim) then if tst a s then t else 0 else 0).
  { intros a s t Ht T0. rewrite I3. destruct (existsb (axis_eqb a) (axes nDim)); [|reflexivity]. destruct (tst a s); [|reflexivity]. cbn [andb].
    destruct (Z.ltb_spec 0 (slow oc a * fast oc a)); [reflexivity|]. symmetry. apply T0. destruct a; cbn in *; nia. }
  assert (LF : forall n3 n2 n1 : Z, 0 <= n3 -> 0 <= n2 -> 0 <= n1 -> Z.of_nat (length (base n3 n2 n1)) = n3 * n2 * n1).
  { intros. unfold base. rewrite length_cells3, !length_offs, !Nat2Z.inj_mul, !Z2Nat.id by auto. reflexivity. }
  assert (N1D : nDim = 1%nat \/ (2 <= nDim)%nat) by lia. destruct N1D as [->|TD].
  - (* one dimension *)
    assert (L2 : len oc X2 = 1) by (apply I2; reflexivity). assert (L3 : len oc X3 = 1) by (apply I2; reflexivity). rewrite L2, L3.
    assert (F0 : forall s, some (o_flx oc X2 s) = false /\ some (o_flx oc X3 s) = false) by (intros s; rewrite !I3; cbn; auto).
    assert (F1 : forall s, some (o_flx oc X1 s) = tst X1 s) by (intros s; rewrite I3; cbn; rewrite L2, L3; cbn; apply andb_true_r).
    assert (PE : forall s, pack_emf1 1 of f s = [] /\ pack_emf2 1 of f s = [] /\ pack_emf3 of f s = []).
    { intros s. unfold pack_emf1, pack_emf2, pack_emf3. destruct (pd_flags _ _ _ _ P X1 s) as (_ & _ & _ & <-). destruct (pd_flags _ _ _ _ P X2 s) as (_ & _ & _ & <-). destruct (pd_flags _ _ _ _ P X3 s) as (_ & <- & _ & _).
      rewrite !I4, I6. cbn. rewrite andb_false_r. auto. }
    destruct (PE false) as (-> & -> & ->). destruct (PE true) as (-> & -> & ->). destruct (F0 false) as (-> & ->). destruct (F0 true) as (-> & ->). rewrite !F1.
    unfold pack_fld. cbn [Nat.eqb length Z.of_nat Nat.leb axes firstn map fold_right slow fast axis_eqb negb andb]. rewrite L2, L3.
    destruct (c_mhd c); destruct (tst X1 false), (tst X1 true); cbn [andb]; repeat match goal with |- context [if (0 <? ?x) then _ else _] => destruct (0 <? x) end; cbn [andb]; lia.
  - rewrite !(pack_emf1_eq _ _ _ _ _ _ P TD), !(pack_emf2_eq _ _ _ _ _ _ P TD), !(pack_emf3_eq _ _ _ _ _ _ P TD).
    rewrite (pack_fld_eq _ _ _ _ _ P TD). unfold pk1, pk2, pk3.
    assert (HH : forall (b : bool) (l : list R), Z.of_nat (length (if b then [] else l)) = if b then 0 else Z.of_nat (length l)) by (intros []; reflexivity).
    repeat (rewrite ?app_length, ?Nat2Z.inj_add, ?len_if, ?HH). rewrite !map_length, !LF, !len_emfl by lia.
    rewrite !I4, !I6. replace (2 <=? nDim)%nat with true by lia. rewrite !andb_true_r.
    cbn [axis_eqb negb].
    assert (N23 : nDim = 2%nat \/ nDim = 3%nat) by lia. destruct N23 as [-> | ->]; cbn [Nat.eqb Nat.leb axes firstn map fold_right slow fast axis_eqb negb andb]; rewrite ?andb_false_r, ?andb_true_r.
    + assert (L3 : len oc X3 = 1) by (apply I2; reflexivity). rewrite L3 in *.
      assert (F0 : forall s, some (o_flx oc X3 s) = false) by (intros s; rewrite !I3; reflexivity). rewrite !F0. rewrite !I3. cbn [existsb axes firstn axis_eqb orb andb slow fast]. rewrite L3.
      generalize dependent (len oc X1). generalize dependent (len oc X2). clear. intros y Hy x Hx.
      assert (CX : x = 0 \/ 0 < x) by lia. assert (CY : y = 0 \/ 0 < y) by lia.
      destruct CX as [->|CX], CY as [->|CY];
      repeat match goal with |- context [?u =? 0] => first [replace (u =? 0) with true by lia | replace (u =? 0) with false by lia] end;
      repeat match goal with |- context [0 <? ?u] => first [replace (0 <? u) with true by (symmetry; apply Z.ltb_lt; nia) | replace (0 <? u) with false by (symmetry; apply Z.ltb_ge; nia)] end;
      rewrite ?andb_true_r, ?andb_false_r; destruct (c_mhd c); cbn [andb];
      destruct (tst X1 false), (tst X1 true), (tst X2 false), (tst X2 true); cbn [andb]; try lia.
    + rewrite !I3. cbn [existsb axes firstn axis_eqb orb andb slow fast].
      generalize dependent (len oc X1). generalize dependent (len oc X2). generalize dependent (len oc X3). clear. intros z Hz y Hy x Hx.
      assert (CX : x = 0 \/ 0 < x) by lia. assert (CY : y = 0 \/ 0 < y) by lia. assert (CZ : z = 0 \/ 0 < z) by lia.
      destruct CX as [->|CX], CY as [->|CY], CZ as [->|CZ]; 
      repeat match goal with |- context [?u =? 0] => first [replace (u =? 0) with true by lia | replace (u =? 0) with false by lia] end;
      try (assert (0 < x * y * z) by (apply Z.mul_pos_pos; [apply Z.mul_pos_pos|]; assumption));
      repeat match goal with |- context [0 <? ?u] => first [replace (0 <? u) with true by (symmetry; apply Z.ltb_lt; first [assumption | apply Z.mul_pos_pos; assumption]) | replace (0 <? u) with false by (symmetry; apply Z.ltb_ge; lia)] end;
      rewrite ?andb_true_r, ?andb_false_r; destruct (c_mhd c); cbn [andb];
      generalize (tst X1 false), (tst X1 true), (tst X2 false), (tst X2 true), (tst X3 false), (tst X3 true); intros [] [] [] [] [] []; cbn [andb]; lia.
Qed.
Print Assumptions C72_message.
