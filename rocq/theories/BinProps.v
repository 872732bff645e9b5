(** * C95: a binary dump can be read back *)
From Coq Require Import String Ascii NArith ZArith Reals Bool Arith Lia List.
From Verif Require Import CStr MeshModel PosModel GasModel VtkModel VtkRead VtkFacts DumpModel DumpSpec DumpProps.
Import ListNotations.
Open Scope nat_scope.

Section Bin.
Variables (i4 : Z -> str) (r8 : R -> str) (coordsys : Z) (particles : bool) (eos : R * R) (time dt : R) (c : vcfg) (pG : pgrid) (lo hi : axis -> Z) (G : vgrid).
Hypothesis I4 : forall n, length (i4 n) = 4.
Hypothesis R8 : forall x, length (r8 x) = 8.
Let N1 := span lo hi X1. Let N2 := span lo hi X2. Let N3 := span lo hi X3.
Definition the_file := bin_dump i4 r8 coordsys particles eos time dt c pG lo hi G.

Lemma var_cube : forall f, bin_var r8 lo hi f = cube (fun k j i => r8 (f (lo X3 + Z.of_nat k) (lo X2 + Z.of_nat j) (lo X1 + Z.of_nat i))%Z) N1 N2 N3.
Proof.
  intros f. unfold bin_var, cube, N1, N2, N3, span. rewrite (zr_seq (lo X3)), flat_map_map. apply flat_map_ext. intros k.
  rewrite (zr_seq (lo X2)), flat_map_map. apply flat_map_ext. intros j. rewrite (zr_seq (lo X1)), flat_map_map. reflexivity.
Qed.
Lemma var_len : forall f, length (bin_var r8 lo hi f) = 8 * (N3 * N2 * N1).
Proof. intros f. rewrite var_cube. apply cube_length. intros. apply R8. Qed.

Definition quantity (q : nat) (k j i : Z) : R := nth q (bin_quantities c G k j i) 0%R.
Definition nq : nat := NVAR c + (if vc_selfg c then 1 else 0) + (if vc_par c then 4 else 0).
Lemma gas_len : forall (u : cons) (w : prim), length (if vc_prim c then prim_words c w else cons_words c u) = NVAR c.
Proof. intros u w. unfold NVAR, prim_words, cons_words. destruct (vc_prim c), (vc_adb c), (vc_mhd c); cbn [app length]; rewrite map_length, seq_length; reflexivity. Qed.
Lemma quantities_split : forall k j i, bin_quantities c G k j i =
  (if vc_prim c then prim_words c (vg_W G k j i) else cons_words c (vg_U G k j i)) ++ (if vc_selfg c then [vg_Phi G k j i] else []) ++
  (if vc_par c then [fst (vg_par G k j i); fst (fst (snd (vg_par G k j i))); snd (fst (snd (vg_par G k j i))); snd (snd (vg_par G k j i))] else []).
Proof.
  intros k j i. unfold bin_quantities, prim_words, cons_words. destruct (vg_par G k j i) as [d [[m1 m2] m3]]. cbn [fst snd].
  destruct (vc_prim c), (vc_adb c), (vc_mhd c); cbn [app]; reflexivity.
Qed.
Lemma body_eq :
  flat_map (fun n => bin_var r8 lo hi (fun k j i => nth n (if vc_prim c then prim_words c (vg_W G k j i) else cons_words c (vg_U G k j i)) 0%R)) (seq 0 (NVAR c)) ++
  (if vc_selfg c then bin_var r8 lo hi (vg_Phi G) else []) ++
  (if vc_par c then
    bin_var r8 lo hi (fun k j i => fst (vg_par G k j i)) ++
    bin_var r8 lo hi (fun k j i => fst (fst (snd (vg_par G k j i)))) ++
    bin_var r8 lo hi (fun k j i => snd (fst (snd (vg_par G k j i)))) ++
    bin_var r8 lo hi (fun k j i => snd (snd (vg_par G k j i)))
   else []) = flat_map (fun q => bin_var r8 lo hi (quantity q)) (seq 0 nq).
Proof.
  assert (EXT : forall f g, (forall k j i, f k j i = g k j i) -> bin_var r8 lo hi f = bin_var r8 lo hi g).
  { intros f g H. unfold bin_var. apply flat_map_ext. intros k. apply flat_map_ext. intros j. apply flat_map_ext. intros i. rewrite H. reflexivity. }
  unfold nq. rewrite !seq_app, !flat_map_app, <- app_assoc. f_equal.
  - rewrite !flat_map_concat_map. f_equal. apply map_ext_in. intros q Q. apply in_seq in Q. apply EXT. intros k j i. unfold quantity. rewrite quantities_split.
    rewrite app_nth1; [reflexivity|]. rewrite gas_len. lia.
  - f_equal.
    + destruct (vc_selfg c) eqn:E; cbn [seq flat_map]; [|reflexivity]. rewrite app_nil_r. apply EXT. intros k j i. unfold quantity. rewrite quantities_split, E.
      rewrite app_nth2; rewrite gas_len; [|lia]. replace (0 + NVAR c - NVAR c) with 0 by lia. reflexivity.
    + destruct (vc_par c) eqn:E; cbn [seq flat_map]; [|reflexivity]. rewrite app_nil_r.
      assert (TAIL : forall m k j i, quantity (0 + (NVAR c + (if vc_selfg c then 1 else 0)) + m) k j i =
        nth m [fst (vg_par G k j i); fst (fst (snd (vg_par G k j i))); snd (fst (snd (vg_par G k j i))); snd (snd (vg_par G k j i))] 0%R).
      { intros m k j i. unfold quantity. rewrite quantities_split, E. rewrite app_nth2; rewrite gas_len; [|lia].
        destruct (vc_selfg c); cbn [app]; [|f_equal; lia]. replace (0 + (NVAR c + 1) + m - NVAR c) with (S m) by lia. reflexivity. }
      f_equal; [|f_equal; [|f_equal]]; apply EXT; intros k j i; symmetry.
      * exact (eq_trans (f_equal (fun z => quantity z k j i) (eq_sym (Nat.add_0_r _))) (TAIL 0 k j i)).
      * exact (eq_trans (f_equal (fun z => quantity z k j i) (eq_sym (Nat.add_1_r _))) (TAIL 1 k j i)).
      * refine (eq_trans (f_equal (fun z => quantity z k j i) _) (TAIL 2 k j i)). lia.
      * refine (eq_trans (f_equal (fun z => quantity z k j i) _) (TAIL 3 k j i)). lia.
Qed.
Lemma vals_len : forall (f : Z -> R) l, length (flat_map (fun z => r8 (f z)) l) = 8 * length l.
Proof. intros f. induction l; cbn [flat_map length]; [reflexivity|]. rewrite app_length, R8, IHl. lia. Qed.
Lemma zr_len : forall a, length (zr (lo a) (hi a)) = span lo hi a.
Proof. intros a. rewrite zr_seq, map_length, seq_length. reflexivity. Qed.
Definition coords : str :=
  flat_map (fun i => r8 (fst (fst (cc_pos pG i (lo X2) (lo X3))))) (zr (lo X1) (hi X1)) ++
  flat_map (fun j => r8 (snd (fst (cc_pos pG (lo X1) j (lo X3))))) (zr (lo X2) (hi X2)) ++
  flat_map (fun k => r8 (snd (cc_pos pG (lo X1) (lo X2) k))) (zr (lo X3) (hi X3)).
Definition head : str :=
  i4 coordsys ++ flat_map i4 [hi X1 - lo X1 + 1; hi X2 - lo X2 + 1; hi X3 - lo X3 + 1; Z.of_nat (NVAR c); Z.of_nat (vc_ns c);
               if vc_selfg c then 1 else 0; if particles then 1 else 0]%Z ++ flat_map r8 [fst eos; snd eos] ++ flat_map r8 [time; dt].
Lemma file_eq : the_file = head ++ coords ++ flat_map (fun q => bin_var r8 lo hi (quantity q)) (seq 0 nq).
Proof. unfold the_file, bin_dump, head, coords. rewrite <- body_eq, <- !app_assoc. reflexivity. Qed.
Lemma head_len : length head = 64.
Proof. unfold head. cbn [flat_map]. rewrite !app_length, !I4, !R8. reflexivity. Qed.
Lemma coords_len : length coords = 8 * (N1 + N2 + N3).
Proof. unfold coords. rewrite !app_length, (vals_len (fun i => fst (fst (cc_pos pG i (lo X2) (lo X3))))), (vals_len (fun j => snd (fst (cc_pos pG (lo X1) j (lo X3))))), (vals_len (fun k => snd (cc_pos pG (lo X1) (lo X2) k))), !zr_len. unfold N1, N2, N3. lia. Qed.
Lemma body_len : length (flat_map (fun q => bin_var r8 lo hi (quantity q)) (seq 0 nq)) = 8 * (nq * (N1 * N2 * N3)).
Proof.
  generalize (seq_length nq 0). generalize (seq 0 nq). intros l L. rewrite <- L. clear L. induction l; cbn [flat_map length]; [lia|].
  rewrite app_length, var_len, IHl. nia.
Qed.
Lemma skip_app : forall A (a b : list A) n, n = length a -> skipn n (a ++ b) = b.
Proof. intros A a b n ->. rewrite skipn_app, skipn_all, Nat.sub_diag. reflexivity. Qed.
Lemma at_app : forall (a b : str) n m len, n = length a + m -> at_ (a ++ b) n len = at_ b m len.
Proof. intros a b n m len ->. unfold at_. rewrite skipn_plus, skip_app by reflexivity. reflexivity. Qed.
Lemma at_first : forall (a b : str) len, length a = len -> at_ (a ++ b) 0 len = a.
Proof. intros a b len <-. unfold at_. cbn [skipn]. rewrite firstn_app, firstn_all, Nat.sub_diag. cbn [firstn]. apply app_nil_r. Qed.
Lemma at_vals : forall (f : Z -> R) l u n r, (n < Z.to_nat (u - l + 1)) -> at_ (flat_map (fun z => r8 (f z)) (zr l u) ++ r) (8 * n) 8 = r8 (f (l + Z.of_nat n)%Z).
Proof.
  intros f l u n r H. rewrite zr_seq, flat_map_map. unfold at_.
  destruct (chunk_skip _ (fun m => r8 (f (l + Z.of_nat m)%Z)) 8 (Z.to_nat (u - l + 1)) n r (fun _ _ => R8 _) H) as [r' E].
  rewrite E. assert (Q := R8 (f (l + Z.of_nat n)%Z)). rewrite <- Q at 1. rewrite firstn_app, firstn_all, Nat.sub_diag. cbn [firstn]. apply app_nil_r.
Qed.
Lemma length_thm : length the_file = 64 + 8 * (N1 + N2 + N3 + nq * (N1 * N2 * N3)).
Proof. rewrite file_eq, !app_length, head_len, coords_len, body_len. lia. Qed.
Lemma value_thm : forall q k j i, q < nq -> k < N3 -> j < N2 -> i < N1 ->
  at_ the_file (64 + 8 * (N1 + N2 + N3 + ((q * N3 + k) * N2 + j) * N1 + i)) 8 = r8 (quantity q (lo X3 + Z.of_nat k) (lo X2 + Z.of_nat j) (lo X1 + Z.of_nat i)).
Proof.
  intros q k j i Q K J I. rewrite file_eq.
  rewrite (at_app head _ _ (8 * (N1 + N2 + N3 + ((q * N3 + k) * N2 + j) * N1 + i))) by (rewrite head_len; lia).
  rewrite (at_app coords _ _ (8 * (N3 * N2 * N1) * q + 8 * ((k * N2 + j) * N1 + i))) by (rewrite coords_len; nia).
  unfold at_. rewrite skipn_plus.
  destruct (chunk_skip _ (fun q => bin_var r8 lo hi (quantity q)) (8 * (N3 * N2 * N1)) nq q [] (fun _ _ => var_len _) Q) as [r' E].
  rewrite app_nil_r in E. rewrite E, var_cube.
  exact (cube_cell _ (fun k j i => r8 (quantity q (lo X3 + Z.of_nat k) (lo X2 + Z.of_nat j) (lo X1 + Z.of_nat i))%Z) 8 N1 N2 N3 r' k j i (fun _ _ _ _ _ _ => R8 _) K J I).
Qed.
End Bin.

(** The head of the file: 8 ints and 4 Reals. *)
Theorem C95_head : forall i4 r8 coordsys particles eos time dt c pG lo hi G, (forall n, length (i4 n) = 4) -> (forall x, length (r8 x) = 8) ->
  let file := bin_dump i4 r8 coordsys particles eos time dt c pG lo hi G in
  at_ file 0 4 = i4 coordsys /\
  at_ file 4 4 = i4 (hi X1 - lo X1 + 1)%Z /\ at_ file 8 4 = i4 (hi X2 - lo X2 + 1)%Z /\ at_ file 12 4 = i4 (hi X3 - lo X3 + 1)%Z /\
  at_ file 16 4 = i4 (Z.of_nat (NVAR c)) /\ at_ file 20 4 = i4 (Z.of_nat (vc_ns c)) /\
  at_ file 24 4 = i4 (if vc_selfg c then 1 else 0)%Z /\ at_ file 28 4 = i4 (if particles then 1 else 0)%Z /\
  at_ file 32 8 = r8 (fst eos) /\ at_ file 40 8 = r8 (snd eos) /\ at_ file 48 8 = r8 time /\ at_ file 56 8 = r8 dt.
Proof.
  intros i4 r8 coordsys particles eos time dt c pG lo hi G I4 R8 file.
  assert (E : file = _) by exact (file_eq i4 r8 coordsys particles eos time dt c pG lo hi G). rewrite E. clear E file.
  generalize (coords r8 pG lo hi ++ flat_map (fun q => bin_var r8 lo hi (quantity c G q)) (seq 0 (nq c))). intros r. unfold head. cbn [flat_map]. rewrite !app_nil_r, <- !app_assoc.
  Ltac go I4 R8 := first [rewrite at_first by (first [apply I4 | apply R8]); reflexivity
    | match goal with |- at_ (?a ++ ?b) ?n ?l = _ => let L := eval cbv in (n - 4) in rewrite (at_app a b n (n - 4) l) by (rewrite I4; reflexivity); change (n - 4) with L end; go I4 R8
    | match goal with |- at_ (?a ++ ?b) ?n ?l = _ => let L := eval cbv in (n - 8) in rewrite (at_app a b n (n - 8) l) by (rewrite R8; reflexivity); change (n - 8) with L end; go I4 R8].
  repeat match goal with |- _ /\ _ => split end; go I4 R8.
Qed.
Print Assumptions C95_head.

(** The coordinates of the cell centres. *)
Theorem C95_coordinates : forall i4 r8 coordsys particles eos time dt c pG lo hi G n, (forall n, length (i4 n) = 4) -> (forall x, length (r8 x) = 8) ->
  let file := bin_dump i4 r8 coordsys particles eos time dt c pG lo hi G in
  let centre a m := (p_MinX pG a + (IZR (m - p_s pG a) + 1/2) * p_dx pG a)%R in
  (n < span lo hi X1 -> at_ file (64 + 8 * n) 8 = r8 (centre X1 (lo X1 + Z.of_nat n)%Z)) /\
  (n < span lo hi X2 -> at_ file (64 + 8 * (span lo hi X1 + n)) 8 = r8 (centre X2 (lo X2 + Z.of_nat n)%Z)) /\
  (n < span lo hi X3 -> at_ file (64 + 8 * (span lo hi X1 + span lo hi X2 + n)) 8 = r8 (centre X3 (lo X3 + Z.of_nat n)%Z)).
Proof.
  intros i4 r8 coordsys particles eos time dt c pG lo hi G n I4 R8 file centre.
  assert (E : file = _) by exact (file_eq i4 r8 coordsys particles eos time dt c pG lo hi G). rewrite E. clear E file.
  assert (HL := head_len i4 r8 coordsys particles eos time dt c lo hi I4 R8). set (h := head _ _ _ _ _ _ _ _ _ _) in *. clearbody h.
  generalize (flat_map (fun q => bin_var r8 lo hi (quantity c G q)) (seq 0 (nq c))). intros r. unfold coords. rewrite <- !app_assoc.
  assert (V1 := vals_len r8 lo hi R8 (fun i => fst (fst (cc_pos pG i (lo X2) (lo X3)))) (zr (lo X1) (hi X1))).
  assert (V2 := vals_len r8 lo hi R8 (fun j => snd (fst (cc_pos pG (lo X1) j (lo X3)))) (zr (lo X2) (hi X2))).
  rewrite zr_len in V1, V2. repeat split; intros H; unfold span in H.
  - rewrite (at_app h _ _ (8 * n)) by lia. exact (at_vals r8 R8 (fun i => fst (fst (cc_pos pG i (lo X2) (lo X3)))) (lo X1) (hi X1) n _ H).
  - rewrite (at_app h _ _ (8 * span lo hi X1 + 8 * n)) by lia. rewrite (at_app _ _ _ (8 * n)) by (rewrite V1; reflexivity).
    exact (at_vals r8 R8 (fun j => snd (fst (cc_pos pG (lo X1) j (lo X3)))) (lo X2) (hi X2) n _ H).
  - rewrite (at_app h _ _ (8 * span lo hi X1 + (8 * span lo hi X2 + 8 * n))) by lia. rewrite (at_app _ _ _ (8 * span lo hi X2 + 8 * n)) by (rewrite V1; reflexivity).
    rewrite (at_app _ _ _ (8 * n)) by (rewrite V2; reflexivity).
    exact (at_vals r8 R8 (fun k => snd (cc_pos pG (lo X1) (lo X2) k)) (lo X3) (hi X3) n _ H).
Qed.
Print Assumptions C95_coordinates.

(** Quantity number q of every cell. *)
Theorem C95_values : forall i4 r8 coordsys particles eos time dt c pG lo hi G q k j i x, (forall n, length (i4 n) = 4) -> (forall x, length (r8 x) = 8) ->
  let file := bin_dump i4 r8 coordsys particles eos time dt c pG lo hi G in
  (lo X3 <= k <= hi X3)%Z -> (lo X2 <= j <= hi X2)%Z -> (lo X1 <= i <= hi X1)%Z -> nth_error (bin_quantities c G k j i) q = Some x ->
  at_ file (64 + 8 * (span lo hi X1 + span lo hi X2 + span lo hi X3 +
    ((q * span lo hi X3 + Z.to_nat (k - lo X3)) * span lo hi X2 + Z.to_nat (j - lo X2)) * span lo hi X1 + Z.to_nat (i - lo X1))) 8 = r8 x.
Proof.
  intros i4 r8 coordsys particles eos time dt c pG lo hi G q k j i x I4 R8 file K J I Q.
  assert (NQ : length (bin_quantities c G k j i) = nq c).
  { rewrite quantities_split, !app_length, gas_len. unfold nq. destruct (vc_selfg c), (vc_par c); cbn [length]; lia. }
  assert (QL : q < nq c) by (rewrite <- NQ; apply nth_error_Some; congruence).
  assert (L := value_thm i4 r8 coordsys particles eos time dt c pG lo hi G I4 R8 q (Z.to_nat (k - lo X3)) (Z.to_nat (j - lo X2)) (Z.to_nat (i - lo X1)) QL ltac:(unfold span; lia) ltac:(unfold span; lia) ltac:(unfold span; lia)).
  unfold the_file in L. fold file in L. rewrite !Z2Nat.id in L by lia. replace (lo X3 + (k - lo X3))%Z with k in L by lia. replace (lo X2 + (j - lo X2))%Z with j in L by lia. replace (lo X1 + (i - lo X1))%Z with i in L by lia.
  rewrite L. unfold quantity. rewrite (nth_error_nth _ _ 0%R Q). reflexivity.
Qed.
Print Assumptions C95_values.

(** The file is as long as its header announces, if the particles are written when there are any. *)
Theorem C95_length_partial : forall i4 r8 coordsys particles eos time dt c pG lo hi G, (forall n, length (i4 n) = 4) -> (forall x, length (r8 x) = 8) ->
  vc_par c = particles ->
  length (bin_dump i4 r8 coordsys particles eos time dt c pG lo hi G) =
  announced (span lo hi X1) (span lo hi X2) (span lo hi X3) (NVAR c) (if vc_selfg c then 1 else 0) (if particles then 1 else 0).
Proof.
  intros i4 r8 coordsys particles eos time dt c pG lo hi G I4 R8 P. assert (L := length_thm i4 r8 coordsys particles eos time dt c pG lo hi G I4 R8).
  unfold the_file in L. rewrite L. unfold announced, nq. rewrite <- P. destruct (vc_selfg c), (vc_par c); lia.
Qed.
Print Assumptions C95_length_partial.
(** With particles and without pargrid=1 in the output block the header still announces them. *)
Theorem C95_length_refuted : exists c, forall i4 r8 coordsys eos time dt pG lo hi G, (forall n, length (i4 n) = 4) -> (forall x, length (r8 x) = 8) ->
  (forall a, lo a <= hi a)%Z ->
  let file := bin_dump i4 r8 coordsys true eos time dt c pG lo hi G in
  at_ file 28 4 = i4 1%Z /\
  length file < announced (span lo hi X1) (span lo hi X2) (span lo hi X3) (NVAR c) (if vc_selfg c then 1 else 0) 1.
Proof.
  exists (VC true false false false 0 false). intros i4 r8 coordsys eos time dt pG lo hi G I4 R8 B file. split.
  - apply (C95_head i4 r8 coordsys true eos time dt (VC true false false false 0 false) pG lo hi G I4 R8).
  - assert (L := length_thm i4 r8 coordsys true eos time dt (VC true false false false 0 false) pG lo hi G I4 R8). unfold the_file in L. fold file in L. rewrite L.
    unfold announced, nq. cbn [vc_selfg vc_par NVAR vc_adb vc_mhd vc_ns]. assert (1 <= span lo hi X1 * span lo hi X2 * span lo hi X3); [|lia].
    assert (forall a, 1 <= span lo hi a) by (intros a; unfold span; specialize (B a); lia). assert (H1 := H X1). assert (H2 := H X2). assert (H3 := H X3). nia.
Qed.
Print Assumptions C95_length_refuted.

(** ** Example: a file of an 8x4 Grid. *)
Definition bin_ex (x : R) : str := repeat "x"%char 8.
Definition bin_ex_cfg : vcfg := VC true true true false 2 false.
Definition bin_ex_hi (a : axis) : Z := match a with X1 => 11 | X2 => 7 | X3 => 0 end.
Definition bin_ex_lo (a : axis) : Z := match a with X1 => 4 | X2 => 4 | X3 => 0 end.
Example ex_bin : (forall x, length (bin_ex x) = 8) /\ (forall n : Z, length (repeat "i"%char 4) = 4) /\
  NVAR bin_ex_cfg = 10 /\ span bin_ex_lo bin_ex_hi X1 = 8 /\ (forall G, nth_error (bin_quantities bin_ex_cfg G 0 5 6) 4 = Some (cE (vg_U G 0 5 6)%Z)) /\
  (forall G, nth_error (bin_quantities bin_ex_cfg G 0 5 6) 10 = Some (vg_Phi G 0 5 6)%Z).
Proof. repeat split. Qed.
