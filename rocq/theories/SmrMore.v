(** * Restriction: volume integrals, the undivided child, and what goes wrong (C42) *)
From Coq Require Import Reals ZArith Bool Arith Lia Lra ZifyBool List.
From Verif Require Import CStr MeshModel SmrModel SmrOverlap SmrFacts SmrProps SmrApply SmrPaired SmrRestrict SmrPlane SmrTheorems SmrField SmrCT.
From Verif Require IntegSpec IntegFacts.
Import IntegSpec (sumZ) IntegFacts.
Import ListNotations.
Open Scope Z_scope.
Local Open Scope R_scope.

(** ** Volume integrals *)
Lemma sumZ_pairs : forall s t h n, (0 <= n)%Z -> sumZ s (s + n - 1) (fun x => h (t + 2 * (x - s))%Z + h (t + 2 * (x - s) + 1)%Z) = sumZ t (t + 2 * n - 1) h.
Proof.
  intros s t h n N. pattern n. apply natlike_ind; [| |exact N].
  - rewrite !sumZ_empty by lia. reflexivity.
  - intros x X IH. rewrite sumZ_last by lia. replace (s + Z.succ x - 1 - 1)%Z with (s + x - 1)%Z by lia. rewrite IH.
    rewrite (sumZ_last t (t + 2 * Z.succ x - 1)) by lia. rewrite (sumZ_last t (t + 2 * Z.succ x - 1 - 1)) by lia.
    replace (t + 2 * Z.succ x - 1 - 1 - 1)%Z with (t + 2 * x - 1)%Z by lia.
    replace (t + 2 * (s + Z.succ x - 1 - s))%Z with (t + 2 * Z.succ x - 1 - 1)%Z by lia. replace (t + 2 * Z.succ x - 1 - 1 + 1)%Z with (t + 2 * Z.succ x - 1)%Z by lia. ring.
Qed.
Lemma sumZ_one : forall s h, sumZ s s h = h s. Proof. intros. rewrite sumZ_last by lia. rewrite sumZ_empty by lia. ring. Qed.

Lemma total_mean : forall c nDim oc of gf v, paired c nDim oc of ->
  IZR (ratio nDim X3 * ratio nDim X2 * ratio nDim X1) * total (o_s oc) (o_e oc) (fun k j i => avgU nDim of gf (k - o_s oc X3, j - o_s oc X2, i - o_s oc X1)%Z v) =
  total (o_s of) (o_e of) (fun k j i => gU gf k j i v).
Proof.
  intros c nDim oc of gf v P. dims P. unfold total.
  assert (E2 : forall a, ratio nDim a = 2%Z -> forall h, sumZ (o_s of a) (o_e of a) h = sumZ (o_s oc a) (o_e oc a) (fun x => h (o_s of a + 2 * (x - o_s oc a))%Z + h (o_s of a + 2 * (x - o_s oc a) + 1)%Z)).
  { intros a Ra h. destruct (pd_len _ _ _ _ P a) as [LA NA]. rewrite Ra in LA. rewrite <- (sumZ_pairs (o_s oc a) (o_s of a) h (len oc a) NA) || idtac.
    replace (o_e oc a) with (o_s oc a + len oc a - 1)%Z by (unfold len; lia). rewrite sumZ_pairs by exact NA. f_equal. unfold len in *. lia. }
  assert (E1 : forall a, ratio nDim a = 1%Z -> forall h, sumZ (o_s of a) (o_e of a) h = sumZ (o_s oc a) (o_e oc a) (fun x => h (o_s of a + (x - o_s oc a))%Z)).
  { intros a Ra h. destruct (pd_len _ _ _ _ P a) as [LA NA]. destruct (pd_flat _ _ _ _ P a Ra) as (L1' & Z1 & Z2). rewrite Ra in LA. unfold len in *.
    replace (o_e of a) with (o_s of a) by lia. replace (o_e oc a) with (o_s oc a) by lia. rewrite !sumZ_one. f_equal. lia. }
  destruct (ratio_cases nDim D) as [(-> & R1 & R2 & R3)|[(-> & R1 & R2 & R3)|(-> & R1 & R2 & R3)]].
  - rewrite R1, R2, R3 in *. rewrite (E1 X3 eq_refl). rewrite <- sumZ_scal. apply sumZ_ext. intros k _. rewrite (E1 X2 eq_refl). rewrite <- sumZ_scal. apply sumZ_ext. intros j _. rewrite (E2 X1 eq_refl). rewrite <- sumZ_scal. apply sumZ_ext. intros i _.
    unfold avgU. covers. means. cbn. field.
  - rewrite R1, R2, R3 in *. rewrite (E1 X3 eq_refl). rewrite <- sumZ_scal. apply sumZ_ext. intros k _. rewrite (E2 X2 eq_refl). rewrite <- sumZ_scal. apply sumZ_ext. intros j _. rewrite !(E2 X1 eq_refl). rewrite <- sumZ_scal, <- sumZ_plus. apply sumZ_ext. intros i _.
    unfold avgU. covers. means. cbn. field.
  - rewrite R1, R2, R3 in *. rewrite (E2 X3 eq_refl). rewrite <- sumZ_scal. apply sumZ_ext. intros k _. rewrite !(E2 X2 eq_refl). rewrite <- sumZ_scal, <- sumZ_plus. apply sumZ_ext. intros j _. rewrite !(E2 X1 eq_refl). rewrite <- sumZ_scal, <- !sumZ_plus. apply sumZ_ext. intros i _.
    unfold avgU. covers. means. cbn. field.
Qed.

(** *** C42: restriction.  Every coarse cell of the overlap gets the mean of the fine cells in it, so that (cells being [ratio] times
    smaller along each axis) the volume integrals over the overlap are the same. *)
Theorem C42_restrict : forall ng c root nDim pa gp ch gc oc of last r1 r2 r3 fc ff g gf,
  aligned nDim pa gp ch gc -> cgrid ng c root nDim pa gp ch gc = Some oc -> pgrid ng c root nDim pa gp ch gc = Some of -> wide c nDim oc ->
  exists g', correct_RC c nDim oc last r1 r2 r3 fc g (pack_RC c nDim of gf ff) = Some (g', []) /\
    forall v, In v (vars c) -> c_mhd c = false \/ nDim = 1%nat \/ plain nDim v ->
      (forall k j i, inside oc k j i -> gU g' k j i v = avgU nDim of gf (k - o_s oc X3, j - o_s oc X2, i - o_s oc X1)%Z v) /\
      IZR (ratio nDim X3 * ratio nDim X2 * ratio nDim X1) * total (o_s oc) (o_e oc) (fun k j i => gU g' k j i v) = total (o_s of) (o_e of) (fun k j i => gU gf k j i v).
Proof.
  intros ng c root nDim pa gp ch gc oc of last r1 r2 r3 fc ff g gf A HC HP W.
  pose proof (C72_paired _ _ _ _ _ _ _ _ _ _ A HC HP) as P.
  assert (K : exists g', correct_RC c nDim oc last r1 r2 r3 fc g (pack_RC c nDim of gf ff) = Some (g', []) /\
     forall v, c_mhd c = false \/ nDim = 1%nat \/ plain nDim v -> forall k j i, gU g' k j i v = newU c nDim oc of r1 r2 r3 fc ff g gf k j i v).
  { assert (M : c_mhd c = true /\ (2 <= nDim)%nat \/ (c_mhd c = false \/ nDim = 1%nat)) by (pose proof (proj1 A); destruct (c_mhd c); [|auto]; assert (2 <= nDim \/ nDim = 1)%nat by lia; tauto).
    destruct M as [[M ND]|M].
    - destruct (correct_mhd c nDim oc of last r1 r2 r3 fc g gf ff P W M ND) as (g' & Q & H & _). exists g'. split; [exact Q|]. intros v [V|[V|V]] k j i; [congruence|lia|]. apply H. exact V.
    - destruct (correct_hyd c nDim oc of last r1 r2 r3 fc g gf ff P M) as (g' & Q & H & _). exists g'. split; [exact Q|]. intros. apply H. }
  destruct K as (g' & Q & H). exists g'. split; [exact Q|]. intros v V M.
  assert (I : forall k j i, inside oc k j i -> gU g' k j i v = avgU nDim of gf (k - o_s oc X3, j - o_s oc X2, i - o_s oc X1)%Z v).
  { intros k j i O. rewrite (H v M). unfold newU. rewrite (cor_inside _ _ _ _ _ _ _ _ _ _ _ _ O). apply in3_inside in O. apply in_vars_spec in V. rewrite O, V. cbn [andb]. ring. }
  split; [exact I|]. rewrite <- (total_mean c nDim oc of gf v P). f_equal. unfold total. apply sumZ_ext. intros k K. apply sumZ_ext. intros j J. apply sumZ_ext. intros i I'. apply I. unfold inside. lia.
Qed.
Print Assumptions C42_restrict.

(** *** C42: the cell-centred field.  If the Grids overlap and every boundary of the overlap next to the cell is corrected, the
    cell-centred field is the mean of the face-centred one. *)
Theorem C42_centred : forall ng c root nDim pa gp ch gc oc of last r1 r2 r3 fc ff g gf,
  aligned nDim pa gp ch gc -> cgrid ng c root nDim pa gp ch gc = Some oc -> pgrid ng c root nDim pa gp ch gc = Some of ->
  c_mhd c = true -> (2 <= nDim)%nat -> wide c nDim oc -> (forall a, (0 < len oc a)%Z) ->
  (forall k j i, okc1 g k j i /\ okc2 g k j i /\ (nDim = 3%nat -> okc3 g k j i)) ->
  exists g', correct_RC c nDim oc last r1 r2 r3 fc g (pack_RC c nDim of gf ff) = Some (g', []) /\
    forall k j i, seen oc k j i -> okc1 g' k j i /\ okc2 g' k j i /\ (nDim = 3%nat -> okc3 g' k j i).
Proof.
  intros ng c root nDim pa gp ch gc oc of last r1 r2 r3 fc ff g gf A HC HP M TD W L O.
  pose proof (C72_paired _ _ _ _ _ _ _ _ _ _ A HC HP) as P.
  destruct (correct_mhd c nDim oc of last r1 r2 r3 fc g gf ff P W M TD) as (g' & Q & _ & _ & _ & _ & _ & H). exists g'. split; [exact Q|].
  intros k j i SE. destruct (H L k j i SE) as (H1 & H2 & H3). destruct (O k j i) as (O1 & O2 & O3).
  split; [apply H1; left; exact O1|split; [apply H2; left; exact O2|intros N; apply (H3 N); left; apply O3; exact N]].
Qed.
Print Assumptions C42_centred.

(** ** A fine Domain that is not divided *)
(** Its Grid is the Domain; the parent Grid is in the root Domain; the level of the parent is one less. *)
Definition undivided (root : vec) (pa : domain) (gp : gidx) (ch : domain) (gc : gidx) : Prop :=
  dm_level ch = S (dm_level pa) /\
  forall a, dm_NG ch a = 1%Z /\ gi_ax gc a = O /\ (0 <= gDisp pa a (gi_ax gp a))%Z /\ (gDisp pa a (gi_ax gp a) + gNx pa a (gi_ax gp a) <= root a * irefine (dm_level pa))%Z.
Definition gfirst (ng : Z) (pa : domain) (gp : gidx) : vec := fun a => gis ng (gNx pa a (gi_ax gp a)).
Definition glast (ng : Z) (pa : domain) (gp : gidx) : vec := fun a => (gis ng (gNx pa a (gi_ax gp a)) + gNx pa a (gi_ax gp a) - 1)%Z.

Theorem C42_undivided : forall ng c root nDim pa gp ch gc oc, aligned nDim pa gp ch gc -> undivided root pa gp ch gc ->
  cgrid ng c root nDim pa gp ch gc = Some oc ->
  closed nDim (gfirst ng pa gp) (glast ng pa gp) oc /\ within (gfirst ng pa gp) (glast ng pa gp) oc.
Proof.
  intros ng c root nDim pa gp ch gc oc [ND A] [LV U] H. unfold cgrid in H.
  destruct (fst (checkOverlap (sides pa) (child_sides ch))); [|discriminate]. cbn [negb] in H.
  destruct (checkOverlapTouch (grid_box pa gp) (child_grid_sides ch gc)) as [y G] eqn:E. destruct y; [|discriminate]. cbn [negb] in H. cbv zeta in H.
  match goal with H : Some (fold_left (cdim _ _ _ ?pN _ _ ?g2 _) _ ?o) = _ |- _ => set (pNx := pN) in *; set (o0 := o) in * end.
  injection H as <-.
  destruct (region_cdims ng c root pNx ch gc (child_grid_sides ch gc) G (axes nDim) o0) as [S1 S2].
  pose proof (cdims_flags ng c root pNx ch gc (child_grid_sides ch gc) G (axes nDim) o0) as FL. cbv zeta in FL.
  set (oc := fold_left _ (axes nDim) o0) in *.
  assert (LE : forall a, len oc a = ext G a) by (intros a; unfold len; rewrite S1, S2; unfold o0; cbn [o_s o_e]; unfold ext; lia).
  unfold checkOverlapTouch in E. cbv zeta in E. injection E as Y1 Y2. rewrite Y1 in Y2. unfold overlap_box in Y2.
  assert (BL : forall a, bl G a = Z.max (gDisp pa a (gi_ax gp a)) (gDisp ch a (gi_ax gc a) / 2)) by (intros a; rewrite <- Y2; reflexivity).
  assert (BR : forall a, br G a = Z.min (gDisp pa a (gi_ax gp a) + gNx pa a (gi_ax gp a)) (br (child_grid_sides ch gc) a)) by (intros a; rewrite <- Y2; reflexivity).
  assert (OV : forall a, (gDisp pa a (gi_ax gp a) <= br (child_grid_sides ch gc) a)%Z /\ (gDisp ch a (gi_ax gc a) / 2 <= gDisp pa a (gi_ax gp a) + gNx pa a (gi_ax gp a))%Z).
  { intros a. unfold all3 in Y1. cbn [grid_box child_grid_sides bl br] in Y1. cbn [child_grid_sides br]. destruct a; lia. }
  assert (POS : forall a, (1 <= gNx pa a (gi_ax gp a))%Z). { intros a. specialize (A a). cbv zeta in A. destruct (existsb (axis_eqb a) (axes nDim)); lia. }
  assert (CE : forall a, (gDisp ch a (gi_ax gc a) / 2 <= br (child_grid_sides ch gc) a)%Z).
  { intros a. cbn [child_grid_sides br]. specialize (A a). cbv zeta in A. destruct (existsb (axis_eqb a) (axes nDim)).
    - destruct A as (_ & A2 & A3 & _). replace (1 <? dm_Nx ch a)%Z with true by lia. apply Z.div_le_mono; lia.
    - destruct A as (_ & _ & A3 & A4 & A5 & _). rewrite A5, A3. cbn. lia. }
  assert (OS : forall a, o_s oc a = (bl G a - gDisp pa a (gi_ax gp a) + gis ng (gNx pa a (gi_ax gp a)))%Z) by (intros a; rewrite S1; reflexivity).
  assert (OE : forall a, o_e oc a = (br G a - gDisp pa a (gi_ax gp a) + gis ng (gNx pa a (gi_ax gp a)) - 1)%Z) by (intros a; rewrite S2; reflexivity).
  split.
  - split. { intros a. unfold gfirst, glast. specialize (POS a). lia. }
    intros a s Ra. unfold ratio in Ra. destruct (existsb (axis_eqb a) (axes nDim)) eqn:AX; [|discriminate].
    destruct (FL a s) as (F1 & _). rewrite F1, AX. cbn [andb]. unfold o0 at 1. cbn [o_flx some]. rewrite orb_false_r.
    destruct (0 <? area G a)%Z eqn:AR.
    + rewrite andb_true_r. destruct (test root ch gc (child_grid_sides ch gc) G a s) eqn:T; [left; reflexivity|]. right. left.
      destruct (U a) as (U1 & U2 & U3 & U4). unfold test in T. rewrite U2 in T.
      assert (CD : gDisp ch a (gi_ax gc a) = dm_Disp ch a) by (rewrite U2; reflexivity).
      assert (CN : gNx ch a (gi_ax gc a) = dm_Nx ch a). { unfold gNx. rewrite U1, U2, Z.quot_1_r, Z.rem_1_r. cbn. lia. }
      destruct s.
      * rewrite OE, BR. unfold glast. rewrite U1 in T. replace (Z.of_nat 0 =? 1 - 1)%Z with true in T by reflexivity. rewrite andb_true_r in T.
        cbn [child_grid_sides br] in *. rewrite CD, CN in *.
        specialize (A a). cbv zeta in A. rewrite AX in A. destruct A as (_ & _ & A3 & _). replace (1 <? dm_Nx ch a)%Z with true in * by lia.
        apply andb_false_iff in T. destruct T as [T|T].
        -- rewrite BR in T. cbn [child_grid_sides br] in T. replace (1 <? dm_Nx ch a)%Z with true in T by lia. rewrite CD, CN in T. lia.
        -- assert (IR : irefine (dm_level ch) = (2 * irefine (dm_level pa))%Z) by (rewrite LV; unfold irefine; rewrite Nat2Z.inj_succ, Z.pow_succ_r; lia).
           assert (IP : (0 < irefine (dm_level pa))%Z) by (unfold irefine; apply Z.pow_pos_nonneg; lia).
           assert (Q : (root a = (dm_Disp ch a + dm_Nx ch a) / irefine (dm_level ch))%Z) by lia.
           rewrite IR, <- Z.div_div in Q by lia.
           assert (L : (root a * irefine (dm_level pa) <= (dm_Disp ch a + dm_Nx ch a) / 2)%Z) by (rewrite Q, Z.mul_comm; apply Z.mul_div_le; lia). lia.
      * rewrite OS, BL. unfold gfirst. replace (0 =? 0)%nat with true in T by reflexivity. rewrite andb_true_r in T. cbn [child_grid_sides bl] in T. rewrite BL, CD in *.
        apply andb_false_iff in T. destruct T as [T|T]; [lia|]. assert (Q : dm_Disp ch a = 0%Z) by lia. rewrite Q in *. replace (0 / 2)%Z with 0%Z in * by reflexivity. lia.
    + right. right. 
      assert (NN : forall b, (0 <= ext G b)%Z) by (intros b; unfold ext; rewrite BL, BR; specialize (OV b); specialize (CE b); specialize (POS b); lia).
      assert (Z0 : exists b, b <> a /\ ext G b = 0%Z).
      { unfold area, n12z in AR. pose proof (NN X1). pose proof (NN X2). pose proof (NN X3).
        destruct a; cbn [fst snd] in AR.
        - assert (Q : ext G X2 = 0%Z \/ ext G X3 = 0%Z) by nia. destruct Q; [exists X2|exists X3]; split; congruence || assumption.
        - assert (Q : ext G X1 = 0%Z \/ ext G X3 = 0%Z) by nia. destruct Q; [exists X1|exists X3]; split; congruence || assumption.
        - assert (Q : ext G X1 = 0%Z \/ ext G X2 = 0%Z) by nia. destruct Q; [exists X1|exists X2]; split; congruence || assumption. }
      destruct Z0 as (b & B1 & B2). exists b. split; [exact B1|]. rewrite LE. exact B2.
  - intros a. rewrite OS, OE, BL, BR. unfold gfirst, glast. specialize (OV a). specialize (CE a). specialize (POS a). lia.
Qed.
Print Assumptions C42_undivided.

(** ** A case that meets the hypotheses *)
(** Any fluxes and EMFs, stored on the boundaries of the overlap. *)
Definition store_of (o : ovl) (F : fluxes) (E : vfield) : flx :=
  Flx (fun a s x y v => match a with X1 => F X1 (o_s o X3 + x)%Z (o_s o X2 + y)%Z (bface o X1 s) v | X2 => F X2 (o_s o X3 + x)%Z (bface o X2 s) (o_s o X1 + y)%Z v | X3 => F X3 (bface o X3 s) (o_s o X2 + x)%Z (o_s o X1 + y)%Z v end)
      (fun a s x y => match a with X2 => f1 E (o_s o X3 + x)%Z (bface o X2 s) (o_s o X1 + y)%Z | _ => f1 E (bface o X3 s) (o_s o X2 + x)%Z (o_s o X1 + y)%Z end)
      (fun a s x y => match a with X1 => f2 E (o_s o X3 + x)%Z (o_s o X2 + y)%Z (bface o X1 s) | _ => f2 E (bface o X3 s) (o_s o X2 + x)%Z (o_s o X1 + y)%Z end)
      (fun a s x y => match a with X1 => f3 E (o_s o X3 + x)%Z (o_s o X2 + y)%Z (bface o X1 s) | _ => f3 E (o_s o X3 + x)%Z (bface o X2 s) (o_s o X1 + y)%Z end).
(** Any data, advanced. *)
Definition step_of (nDim : nat) (r1 r2 r3 : R) (U : Z -> Z -> Z -> var -> R) (F : fluxes) (B E : vfield) : gst :=
  Gst (fun k j i v => U k j i v - out nDim r1 r2 r3 F k j i v) (fun k j i => f1 B k j i + curl1 nDim r2 r3 E k j i)
      (fun k j i => f2 B k j i + curl2 nDim r1 r3 E k j i) (fun k j i => f3 B k j i + curl3 r1 r2 E k j i).
Example C42_data_example : forall c nDim o F E r1 r2 r3 U B first last,
  stored_flx o (store_of o F E) F /\ stored_emf nDim o (store_of o F E) E /\
  (forall k j i, advanced c nDim r1 r2 r3 U F (step_of nDim r1 r2 r3 U F B E) k j i) /\ transported nDim first last r1 r2 r3 B E (step_of nDim r1 r2 r3 U F B E).
Proof.
  intros. split; [intros s x y v; cbn; auto|]. split; [intros s x y; cbn; auto 10|]. split; [intros k j i v _; reflexivity|]. split; [|split]; intros; reflexivity.
Qed.
(** A level-1 Domain of 16x16 cells in the middle of a root Domain of 16x16 cells; 8x8 coarse cells of overlap, all four boundaries corrected. *)
Definition sq_root : vec := v3 16 16 1.
Definition sq_pa : domain := Dom 0 0 (v3 16 16 1) (v3 0 0 0) (v3 1 1 1) [].
Definition sq_ch : domain := Dom 1 1 (v3 16 16 1) (v3 8 8 0) (v3 1 1 1) [].
Definition sq_cfg : cfg := Cfg false true 1.
Ltac al := split; [lia|]; intros []; cbn; repeat split; try lia; try (apply Z.mod_divide; [lia|reflexivity]).
Example C42_geometry_example : aligned 2 sq_pa (Gi 0 0 0) sq_ch (Gi 0 0 0) /\ undivided sq_root sq_pa (Gi 0 0 0) sq_ch (Gi 0 0 0) /\
  exists oc of, cgrid 4 sq_cfg sq_root 2 sq_pa (Gi 0 0 0) sq_ch (Gi 0 0 0) = Some oc /\ pgrid 4 sq_cfg sq_root 2 sq_pa (Gi 0 0 0) sq_ch (Gi 0 0 0) = Some of /\
    wide sq_cfg 2 oc /\ facing oc /\ len oc X1 = 8%Z /\ len oc X2 = 8%Z /\ (forall a s, some (o_flx oc a s) = negb (axis_eqb a X3)) /\ (forall k j i, seen oc k j i <-> (forall s, beside oc X3 s k j i = false)).
Proof.
  split; [al|]. split; [split; [reflexivity|]; intros []; cbn; lia|].
  eexists. eexists. split; [reflexivity|]. split; [reflexivity|].
  split. { intros _ _ [] Ra; try discriminate Ra; cbv; discriminate. }
  split. { intros [] [] H1 H2; try reflexivity; cbv in H1, H2; discriminate. }
  split; [reflexivity|]. split; [reflexivity|].
  assert (FL : forall a s, some (o_flx (match cgrid 4 sq_cfg sq_root 2 sq_pa (Gi 0 0 0) sq_ch (Gi 0 0 0) with Some o => o | None => Ovl (v3 0 0 0) (v3 0 0 0) 0 0 (fun _ _ => None) (fun _ _ => None) (fun _ _ => None) (fun _ _ => None) end) a s) = negb (axis_eqb a X3)) by (intros [] []; reflexivity).
  split; [exact FL|]. intros k j i. split.
  - intros H s. match goal with |- ?b = false => destruct b eqn:Q; [|reflexivity] end. apply H in Q. discriminate (eq_trans (eq_sym Q) (FL X3 s)).
  - intros H a s Q. destruct a; [exact (FL X1 s)|exact (FL X2 s)|]. rewrite H in Q. discriminate Q.
Qed.

(** ** Where RestrictCorrect goes wrong *)
(** An overlap one coarse cell wide: the child sends the face-centred field but the parent reads none of it (smr.c:951 packs B1i when ips < ipe,
    the loop of smr.c:245 runs over the faces from ics+1 to ice), so that it takes the rest of the message for
    something else.  Here the boundary between two parent Grids is one coarse cell inside the fine Domain. *)
Definition one_pa : domain := Dom 0 0 (v3 16 16 1) (v3 0 0 0) (v3 2 1 1) [].
Definition one_ch : domain := Dom 1 1 (v3 8 16 1) (v3 14 8 0) (v3 1 1 1) [].
Theorem C42_one_cell_refuted : aligned 2 one_pa (Gi 0 0 0) one_ch (Gi 0 0 0) /\ undivided sq_root one_pa (Gi 0 0 0) one_ch (Gi 0 0 0) /\
  exists oc of, cgrid 4 sq_cfg sq_root 2 one_pa (Gi 0 0 0) one_ch (Gi 0 0 0) = Some oc /\ pgrid 4 sq_cfg sq_root 2 one_pa (Gi 0 0 0) one_ch (Gi 0 0 0) = Some of /\
    len oc X1 = 1%Z /\ forall last r1 r2 r3 fc ff g gf, match correct_RC sq_cfg 2 oc last r1 r2 r3 fc g (pack_RC sq_cfg 2 of gf ff) with Some (_, []) => False | _ => True end.
Proof.
  split; [al|]. split; [split; [reflexivity|]; intros []; cbn; lia|].
  eexists. eexists. split; [reflexivity|]. split; [reflexivity|]. split; [reflexivity|].
  intros. vm_compute. exact I.
Qed.
Print Assumptions C42_one_cell_refuted.

(** Two fine Grids, one above the other, touch a parent Grid along X1.  Both correct the EMF at their common edge, and so the field
    of the parent Grid is not the mean of that of the fine Grids but changes by twice as much.  Here all the EMFs of
    the step are zero but the fine one at the common edge, which both fine Grids have computed. *)
Definition tw_pa : domain := Dom 0 0 (v3 16 16 1) (v3 0 0 0) (v3 2 1 1) [].
Definition tw_ch : domain := Dom 1 1 (v3 8 16 1) (v3 16 8 0) (v3 1 2 1) [].
Definition tw_oc (n : nat) : option ovl := cgrid 4 sq_cfg sq_root 2 tw_pa (Gi 0 0 0) tw_ch (Gi 0 n 0).
Definition tw_of (n : nat) : option ovl := pgrid 4 sq_cfg sq_root 2 tw_pa (Gi 0 0 0) tw_ch (Gi 0 n 0).
Definition zeroV : vfield := VF (fun _ _ _ => 0) (fun _ _ _ => 0) (fun _ _ _ => 0).
Definition zeroF : fluxes := fun _ _ _ _ _ => 0.
(** The fine EMF: [x] along the edge (j, i), zero elsewhere. *)
Definition edge3 (x : R) (j0 i0 : Z) : vfield := VF (fun _ _ _ => 0) (fun _ _ _ => 0) (fun _ j i => if ((j =? j0) && (i =? i0))%Z then x else 0).
Definition still : gst := Gst (fun _ _ _ _ => 0) (fun _ _ _ => 0) (fun _ _ _ => 0) (fun _ _ _ => 0).
(** The region and the flags of an entry, to be computed. *)
Definition facts (o : ovl) : list Z * list bool :=
  (map (o_s o) [X1; X2; X3] ++ map (o_e o) [X1; X2; X3], flat_map (fun a => [some (o_flx o a false); some (o_flx o a true); fl o a false; fl o a true]) [X1; X2; X3]).
Lemma facts_of : forall x o z b, x = Some o -> option_map facts x = Some (z, b) -> facts o = (z, b).
Proof. intros x o z b -> H. cbn [option_map] in H. injection H as H1 H2. rewrite <- H1, <- H2. reflexivity. Qed.
Theorem C42_touch_twice_refuted : forall r1 r2 r3 x last,
  aligned 2 tw_pa (Gi 0 0 0) tw_ch (Gi 0 0 0) /\ aligned 2 tw_pa (Gi 0 0 0) tw_ch (Gi 0 1 0) /\
  exists oA fA oB fB, tw_oc 0 = Some oA /\ tw_of 0 = Some fA /\ tw_oc 1 = Some oB /\ tw_of 1 = Some fB /\
    let gA := step_of 2 (2 * r1) (2 * r2) (2 * r3) (fun _ _ _ _ => 0) zeroF zeroV (edge3 x 12 4) in
    let gB := step_of 2 (2 * r1) (2 * r2) (2 * r3) (fun _ _ _ _ => 0) zeroF zeroV (edge3 x 4 4) in
    exists g1 g2,
      correct_RC sq_cfg 2 oA last r1 r2 r3 (store_of oA zeroF zeroV) still (pack_RC sq_cfg 2 fA gA (store_of fA zeroF (edge3 x 12 4))) = Some (g1, []) /\
      correct_RC sq_cfg 2 oB last r1 r2 r3 (store_of oB zeroF zeroV) g1 (pack_RC sq_cfg 2 fB gB (store_of fB zeroF (edge3 x 4 4))) = Some (g2, []) /\
      avgB1 2 fA (gB1 gA) 0 3 0 = - r2 * x /\ gB1 g2 0 11 12 = 2 * (- r2 * x).
Proof.
  intros r1 r2 r3 x last.
  assert (AL0 : aligned 2 tw_pa (Gi 0 0 0) tw_ch (Gi 0 0 0)) by al. assert (AL1 : aligned 2 tw_pa (Gi 0 0 0) tw_ch (Gi 0 1 0)) by al.
  split; [exact AL0|]. split; [exact AL1|].
  assert (CA : exists o, tw_oc 0 = Some o) by (eexists; reflexivity). assert (PA : exists o, tw_of 0 = Some o) by (eexists; reflexivity).
  assert (CB : exists o, tw_oc 1 = Some o) by (eexists; reflexivity). assert (PB : exists o, tw_of 1 = Some o) by (eexists; reflexivity).
  destruct CA as (oA & CA). destruct PA as (fA & PA). destruct CB as (oB & CB). destruct PB as (fB & PB).
  exists oA, fA, oB, fB. split; [exact CA|]. split; [exact PA|]. split; [exact CB|]. split; [exact PB|].
  pose proof (C72_paired _ _ _ _ _ _ _ _ _ _ AL0 CA PA) as P0. pose proof (C72_paired _ _ _ _ _ _ _ _ _ _ AL1 CB PB) as P1.
  assert (FA := facts_of _ _ [12; 8; 0; 11; 11; 0]%Z [true; false; true; false; false; false; false; false; false; false; false; false] CA eq_refl).
  assert (FB := facts_of _ _ [12; 12; 0; 11; 15; 0]%Z [true; false; true; false; false; false; false; false; false; false; false; false] CB eq_refl).
  assert (GA := facts_of _ _ [4; 4; 0; 3; 11; 0]%Z [true; false; true; false; false; false; false; false; false; false; false; false] PA eq_refl).
  assert (GB := facts_of _ _ [4; 4; 0; 3; 11; 0]%Z [true; false; true; false; false; false; false; false; false; false; false; false] PB eq_refl).
  unfold facts in FA, FB, GA, GB. cbn [map app flat_map] in FA, FB, GA, GB.
  injection FA as A1 A3 A5 A2 A4 A6 _ _ A7 A8 _ _ A9 A10 _ _ A11 A12. injection FB as B1 B3 B5 B2 B4 B6 _ _ B7 B8 _ _ B9 B10 _ _ B11 B12.
  injection GA as C1 C2 C3 _ _ _ _ _ _ _ _ _ _ _ _ _ _ _. injection GB as D1 D2 D3 _ _ _ _ _ _ _ _ _ _ _ _ _ _ _.
  assert (W0 : wide sq_cfg 2 oA). { intros _ _ a Ra. clear - Ra A1 A2 A3 A4. destruct a; try discriminate Ra; unfold len; lia. }
  assert (W1 : wide sq_cfg 2 oB). { intros _ _ a Ra. clear - Ra B1 B2 B3 B4. destruct a; try discriminate Ra; unfold len; lia. }
  cbv zeta. set (gA := step_of 2 (2 * r1) (2 * r2) (2 * r3) (fun _ _ _ _ => 0) zeroF zeroV (edge3 x 12 4)). set (gB := step_of 2 (2 * r1) (2 * r2) (2 * r3) (fun _ _ _ _ => 0) zeroF zeroV (edge3 x 4 4)).
  destruct (correct_mhd sq_cfg 2 oA fA last r1 r2 r3 (store_of oA zeroF zeroV) still gA (store_of fA zeroF (edge3 x 12 4)) P0 W0 eq_refl (le_n 2)) as (g1 & Q1 & _ & H1 & _).
  destruct (correct_mhd sq_cfg 2 oB fB last r1 r2 r3 (store_of oB zeroF zeroV) g1 gB (store_of fB zeroF (edge3 x 4 4)) P1 W1 eq_refl (le_n 2)) as (g2 & Q2 & _ & H2 & _).
  exists g1, g2. split; [exact Q1|]. split; [exact Q2|]. clear Q1 Q2 P0 P1 W0 W1.
  clear CA CB PA PB.
  split.
  - unfold avgB1, gA, step_of, curl1, edge3, zeroV. cbn [gB1 f1 f2 f3 Nat.eqb]. rewrite (cover1 2 _ X3), (cover2 2 _ X2), C1, C2, C3 by reflexivity. change (ratio 2 X1) with 2%Z. means. cbn [Z.eqb Z.add Z.mul Pos.eqb Pos.add Pos.mul Pos.succ andb]. cbn. field.
  - rewrite H2. unfold set1, len. rewrite B1, B2. cbn [negb andb Z.eqb Z.add Z.sub Z.opp Z.pos_sub Pos.succ Pos.add Z.pred_double Z.double Z.succ_double Pos.pred_double].
    rewrite H1. unfold set1, len. rewrite A1, A2. cbn [negb andb Z.eqb Z.add Z.sub Z.opp Z.pos_sub Pos.succ Pos.add Z.pred_double Z.double Z.succ_double Pos.pred_double].
    unfold cB1, c11, c12, c13, fl. rewrite A7, A8, A9, A10, A11, A12, B7, B8, B9, B10, B11, B12. unfold td. cbn [Nat.eqb]. rewrite !andb_false_r. cbn [andb ind]. unfold touch, inb, bface, side, len, d3, Ef3, avgE_slow, k', j'. rewrite A1, A2, A3, A4, A5, A6, B1, B2, B3, B4, B5, B6.
    repeat match goal with |- context [ind ?b _] => let b' := eval vm_compute in b in progress change b with b' end. cbn [ind].
    unfold store_of, edge3, cover. cbn [f_emf3 f3 bface]. unfold zeroV. cbn [f3]. rewrite C1, C2, D1, D2. change (ratio 2 X2) with 2%Z. change (ratio 2 X3) with 1%Z.
    change (upto (0 + 1 * (0 - 0)) (0 + 1 * (0 - 0) + 1 - 1)) with [0%Z].
    repeat match goal with |- context [if ?b then x else 0] => let b' := eval vm_compute in b in change b with b' end.
    unfold mean. cbn. field.
Qed.
Print Assumptions C42_touch_twice_refuted.
