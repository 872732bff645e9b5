(** * C96: images show every cell at its place with the shade of its value; the extremes reported *)
From Coq Require Import ZArith Reals Bool Arith Lia Lra List.
From Verif Require Import CStr MeshModel PosModel GasModel UtilModel UtilProps VtkModel PdfModel ImageModel ImageSpec.
From Verif Require PdfProps.
Import ListNotations.
Open Scope R_scope.

(** ** Layout *)
Lemma nth_flat : forall A B (f : A -> list B) L l q r, (forall a, In a l -> length (f a) = L) -> (r < L)%nat ->
  nth_error (flat_map f l) (q * L + r) = match nth_error l q with Some a => nth_error (f a) r | None => None end.
Proof.
  intros A B f L. induction l as [|a l IH]; intros q r H R; cbn [flat_map].
  - destruct q, r; cbn; try reflexivity; destruct (_ + _)%nat; reflexivity.
  - destruct q; cbn [nth_error].
    + rewrite nth_error_app1; [reflexivity|]. rewrite H; [cbn; lia|left; reflexivity].
    + rewrite nth_error_app2; rewrite H; [|left; reflexivity| |left; reflexivity]; [|lia]. rewrite <- IH; [f_equal; lia| |exact R]. intros b I. apply H. right. exact I.
Qed.
Lemma zr_nth : forall n m, (m < Z.to_nat n)%nat -> nth_error (zr 0 (n - 1)) m = Some (Z.of_nat m).
Proof.
  intros n m H. unfold zr. rewrite nth_error_map. replace (Z.to_nat (n - 1 - 0 + 1)) with (Z.to_nat n) by lia.
  rewrite (nth_error_nth' _ 0%nat) by (rewrite seq_length; exact H). rewrite seq_nth by exact H. reflexivity.
Qed.
Lemma zr_len0 : forall n, length (zr 0 (n - 1)) = Z.to_nat n.
Proof. intros n. unfold zr. rewrite map_length, seq_length. lia. Qed.
Lemma nth_rev : forall A (l : list A) m, (m < length l)%nat -> nth_error (rev l) m = nth_error l (length l - 1 - m).
Proof.
  intros A l m H. destruct l as [|a l']; [cbn in H; lia|]. rewrite (nth_error_nth' _ a) by (rewrite rev_length; exact H).
  rewrite (nth_error_nth' (a :: l') a) by lia. rewrite rev_nth by exact H. do 2 f_equal. lia.
Qed.
Lemma pixels_len : forall nx1 nx2, length (pixels nx1 nx2) = (Z.to_nat nx1 * Z.to_nat nx2)%nat.
Proof.
  intros nx1 nx2. unfold pixels. rewrite <- (zr_len0 nx2), <- (rev_length (zr 0 (nx2 - 1))). generalize (rev (zr 0 (nx2 - 1))). intros l.
  induction l; cbn [flat_map length]; [symmetry; apply Nat.mul_0_r|]. rewrite app_length, map_length, zr_len0, IHl. lia.
Qed.
Lemma place_eq : forall nx1 nx2 j i, (0 <= j < nx2)%Z -> (0 <= i < nx1)%Z -> place nx1 nx2 j i = ((Z.to_nat nx2 - 1 - Z.to_nat j) * Z.to_nat nx1 + Z.to_nat i)%nat.
Proof.
  intros nx1 nx2 j i J I. unfold place. rewrite Z2Nat.inj_add by nia. f_equal. rewrite Z2Nat.inj_mul by lia. f_equal. lia.
Qed.
Lemma pixels_at : forall nx1 nx2 j i, (0 <= j < nx2)%Z -> (0 <= i < nx1)%Z -> nth_error (pixels nx1 nx2) (place nx1 nx2 j i) = Some (j, i).
Proof.
  intros nx1 nx2 j i J I. rewrite place_eq by assumption. unfold pixels.
  rewrite (nth_flat _ _ _ (Z.to_nat nx1)); [|intros; rewrite map_length, zr_len0; reflexivity|lia].
  rewrite nth_rev by (rewrite zr_len0; lia). rewrite zr_len0. replace (Z.to_nat nx2 - 1 - (Z.to_nat nx2 - 1 - Z.to_nat j))%nat with (Z.to_nat j) by lia.
  rewrite zr_nth by lia. rewrite Z2Nat.id by lia. rewrite nth_error_map, zr_nth by lia. cbn [option_map]. rewrite Z2Nat.id by lia. reflexivity.
Qed.
Lemma pixels_in : forall nx1 nx2 p, In p (pixels nx1 nx2) -> (0 <= fst p < nx2)%Z /\ (0 <= snd p < nx1)%Z.
Proof.
  intros nx1 nx2 p H. unfold pixels in H. apply in_flat_map in H. destruct H as (j & J & H). apply in_map_iff in H. destruct H as (i & <- & I).
  apply in_rev in J. unfold zr in *. apply in_map_iff in J, I. destruct J as (a & <- & A), I as (b & <- & B). apply in_seq in A, B. cbn [fst snd]. lia.
Qed.
Lemma F2_nth : forall A B (Q : A -> B -> Prop) l r, Forall2 Q l r -> length l = length r /\ forall n a, nth_error l n = Some a -> exists b, nth_error r n = Some b /\ Q a b.
Proof.
  intros A B Q l r F. induction F as [|a b l r H F IH]; split; try reflexivity.
  - intros n a. destruct n; discriminate.
  - cbn [length]. f_equal. apply IH.
  - intros n c. destruct n; cbn [nth_error]; [intros E; injection E as <-; eauto|]. apply IH.
Qed.
Lemma image_ok : forall B (f : R -> res B) (Q : R -> B -> Prop) data nx1 nx2,
  (forall j i, (0 <= j < nx2)%Z -> (0 <= i < nx1)%Z -> exists b, f (data j i) = Ok b /\ Q (data j i) b) ->
  exists img, res_map (fun p => f (data (fst p) (snd p))) (pixels nx1 nx2) = Ok img /\ length img = (Z.to_nat nx1 * Z.to_nat nx2)%nat /\
  forall j i, (0 <= j < nx2)%Z -> (0 <= i < nx1)%Z -> exists b, nth_error img (place nx1 nx2 j i) = Some b /\ Q (data j i) b.
Proof.
  intros B f Q data nx1 nx2 H.
  destruct (PdfProps.res_map_ok _ _ (fun p => f (data (fst p) (snd p))) (fun p b => Q (data (fst p) (snd p)) b) (pixels nx1 nx2)) as (img & E & F).
  { intros p P. apply pixels_in in P. apply H; apply P. }
  exists img. split; [exact E|]. destruct (F2_nth _ _ _ _ _ F) as [L N]. split; [rewrite <- L; apply pixels_len|].
  intros j i J I. exact (N _ _ (pixels_at nx1 nx2 j i J I)).
Qed.

(** ** Conversion to int *)
Lemma c_int_pos : forall a, 0 <= a < IZR (2 ^ 31) -> exists z, c_int a = Ok z /\ IZR z <= a < IZR z + 1 /\ (0 <= z)%Z.
Proof.
  intros a H. unfold c_int. destruct (Rle_dec 0 a); [|lra]. destruct (base_Int_part a) as [B1 B2].
  assert (0 <= Int_part a)%Z by (assert (-1 < Int_part a)%Z; [apply lt_IZR; lra|lia]).
  assert (Int_part a < 2 ^ 31)%Z by (apply lt_IZR; lra).
  cbv zeta. exists (Int_part a). destruct ((INT_MIN <=? Int_part a) && (Int_part a <=? INT_MAX))%Z eqn:IB; [|unfold INT_MIN, INT_MAX in IB; lia].
  repeat split; lra || assumption || lia.
Qed.
Lemma c_int_neg : forall a, - IZR (2 ^ 31) < a < 0 -> exists z, c_int a = Ok z /\ (z <= 0)%Z.
Proof.
  intros a H. unfold c_int. destruct (Rle_dec 0 a); [lra|]. destruct (base_Int_part (- a)) as [B1 B2].
  assert (0 <= Int_part (- a))%Z by (assert (-1 < Int_part (- a))%Z; [apply lt_IZR; lra|lia]).
  assert (Int_part (- a) < 2 ^ 31)%Z by (apply lt_IZR; lra).
  cbv zeta. exists (- Int_part (- a))%Z. destruct ((INT_MIN <=? - Int_part (- a)) && (- Int_part (- a) <=? INT_MAX))%Z eqn:IB; [|unfold INT_MIN, INT_MAX in IB; lia].
  split; [reflexivity|lia].
Qed.

(** ** Gray images *)
Lemma eps_small : 0 < FLT_EPSILON < / 256.
Proof. unfold FLT_EPSILON. assert (0 < 2 ^ 23) by (apply pow_lt; lra). split; [apply Rinv_0_lt_compat; assumption|]. apply Rinv_lt_contravar; [apply Rmult_lt_0_compat; lra|]. simpl. lra. Qed.
Lemma gray_ok : forall lo hi x, lo < hi -> 256 * Rabs (x - lo) < IZR (2 ^ 31) * (hi - lo) ->
  exists g, gray lo ((hi - lo) * (1 + FLT_EPSILON)) x = Ok g /\ shade lo hi x g.
Proof.
  intros lo hi x LH B. assert (E := eps_small). set (m := (hi - lo) * (1 + FLT_EPSILON)).
  assert (M : hi - lo < m) by (unfold m; nra). assert (M2 : 255 * m < 256 * (hi - lo)) by (unfold m; nra).
  unfold gray. cbv zeta. set (a := 256 / m * (x - lo)).
  assert (AM : a * m = 256 * (x - lo)) by (unfold a; field; lra).
  assert (SH : 256 * ((x - lo) / ((hi - lo) * (1 + / 2 ^ 23))) = a) by (change (/ 2 ^ 23) with FLT_EPSILON; unfold a, m; clearbody m a; generalize dependent FLT_EPSILON; intros e E; intros; field; lra).
  unfold shade. rewrite SH. clear SH. clearbody a. clearbody m.
  destruct (Rle_dec 0 a) as [P|N].
  - destruct (c_int_pos a) as (z & C & Z1 & Z0).
    { split; [exact P|]. assert (256 * (x - lo) < IZR (2 ^ 31) * (hi - lo)) by (assert (x - lo <= Rabs (x - lo)) by apply Rle_abs; lra). assert (0 < IZR (2 ^ 31)) by (apply IZR_lt; lia). nra. }
    rewrite C. cbn [bind].
    assert (XL : lo <= x) by nra.
    assert (G : (if (0 <? z)%Z then z else 0%Z) = z) by (destruct (Z.ltb_spec 0 z); lia). rewrite G.
    eexists; split; [reflexivity|]. destruct (Z.ltb_spec z 255) as [L|L].
    + assert (Z255 : IZR z + 1 <= 255) by (rewrite <- plus_IZR; apply IZR_le; lia).
      split; [lia|]. split; [|split].
      * intros XX. assert (a <= 0) by nra. assert (z < 1)%Z by (apply lt_IZR; lra). lia.
      * intros XX. exfalso. nra.
      * intros _. exact Z1.
    + assert (Z255 : 255 <= IZR z) by (apply IZR_le; lia). split; [lia|]. split; [|split].
      * intros XX. exfalso. nra.
      * intros _. reflexivity.
      * intros XX. split; [lra|]. assert (a < 256) by nra. lra.
  - assert (NA : a < 0) by lra. assert (XL : x < lo) by nra.
    destruct (c_int_neg a) as (z & C & Z0).
    { split; [|exact NA]. assert (256 * (lo - x) < IZR (2 ^ 31) * (hi - lo)) by (assert (lo - x <= Rabs (x - lo)) by (rewrite Rabs_minus_sym; apply Rle_abs); lra). assert (0 < IZR (2 ^ 31)) by (apply IZR_lt; lia). nra. }
    rewrite C. cbn [bind]. assert (G : (if (0 <? z)%Z then z else 0%Z) = 0%Z) by (destruct (Z.ltb_spec 0 z); lia). rewrite G.
    eexists; split; [reflexivity|]. cbn [Z.ltb Z.compare]. split; [lia|]. split; [|split]; intros; try reflexivity; exfalso; lra.
Qed.

(** With a given scale: every cell is at its place with the shade of its value, as long as no value is 2^23 times as far from the lower end as the upper end is. *)
Theorem C96_pgm_partial : forall sdmin sdmax data nx1 nx2 lo hi, ends_of sdmin sdmax data nx1 nx2 = (lo, hi) -> lo < hi ->
  (forall j i, (0 <= j < nx2)%Z -> (0 <= i < nx1)%Z -> Rabs (data j i - lo) < IZR (2 ^ 23) * (hi - lo)) ->
  exists img, output_pgm sdmin sdmax data nx1 nx2 = Ok img /\ length img = (Z.to_nat nx1 * Z.to_nat nx2)%nat /\
  forall j i, (0 <= j < nx2)%Z -> (0 <= i < nx1)%Z -> exists g, nth_error img (place nx1 nx2 j i) = Some g /\ shade lo hi (data j i) g.
Proof.
  intros sdmin sdmax data nx1 nx2 lo hi E LH B. unfold output_pgm. rewrite E.
  assert (EP := eps_small). destruct (Rlt_dec 0 ((hi - lo) * (1 + FLT_EPSILON))) as [_|N]; [|exfalso; apply N; apply Rmult_lt_0_compat; lra].
  apply (image_ok _ (gray lo ((hi - lo) * (1 + FLT_EPSILON))) (shade lo hi)). intros j i J I. apply gray_ok; [exact LH|].
  specialize (B j i J I). change (2 ^ 31)%Z with (256 * 2 ^ 23)%Z. rewrite mult_IZR. lra.
Qed.
Print Assumptions C96_pgm_partial.

(** Without a given scale: always.  The darkest pixel is 0, the brightest 255; data that are all equal give a black image. *)
Theorem C96_pgm_autoscale : forall data nx1 nx2, (1 <= nx1)%Z -> (1 <= nx2)%Z ->
  exists img lo hi, output_pgm None None data nx1 nx2 = Ok img /\ length img = (Z.to_nat nx1 * Z.to_nat nx2)%nat /\
  (exists j i, (0 <= j < nx2)%Z /\ (0 <= i < nx1)%Z /\ data j i = lo /\ nth_error img (place nx1 nx2 j i) = Some 0%Z) /\
  (exists j i, (0 <= j < nx2)%Z /\ (0 <= i < nx1)%Z /\ data j i = hi /\ nth_error img (place nx1 nx2 j i) = Some (if Rlt_dec lo hi then 255 else 0)%Z) /\
  forall j i, (0 <= j < nx2)%Z -> (0 <= i < nx1)%Z -> lo <= data j i <= hi /\
    exists g, nth_error img (place nx1 nx2 j i) = Some g /\ if Rlt_dec lo hi then shade lo hi (data j i) g else g = 0%Z.
Proof.
  intros data nx1 nx2 H1 H2. assert (MM := C48_minmax2 data nx2 nx1 H2 H1). destruct (minmax2 data nx2 nx1) as [lo hi] eqn:E.
  destruct MM as ((ja & ia & JA & IA & EA) & (jb & ib & JB & IB & EB) & RNG).
  assert (EO : ends_of None None data nx1 nx2 = (lo, hi)) by (unfold ends_of; rewrite E; reflexivity).
  destruct (Rlt_dec lo hi) as [L|N].
  - destruct (C96_pgm_partial None None data nx1 nx2 lo hi EO L) as (img & O & LEN & PX).
    { intros j i J I. specialize (RNG j i J I). rewrite Rabs_right by lra. assert (1 < IZR (2 ^ 23)) by (apply IZR_lt; lia). nra. }
    exists img, lo, hi. split; [exact O|]. split; [exact LEN|]. split; [|split].
    + exists ja, ia. repeat (split; [assumption|]). destruct (PX ja ia JA IA) as (g & G & (S0 & S1 & S2 & S3)). rewrite G, (S1 (Req_le _ _ EA)). reflexivity.
    + exists jb, ib. repeat (split; [assumption|]). destruct (PX jb ib JB IB) as (g & G & (S0 & S1 & S2 & S3)). rewrite G, (S2 (Req_le _ _ (eq_sym EB))). destruct (Rlt_dec lo hi); [reflexivity|contradiction].
    + intros j i J I. split; [apply RNG; assumption|]. destruct (Rlt_dec lo hi); [|contradiction]. apply PX; assumption.
  - assert (EQ : lo = hi) by (specialize (RNG ja ia JA IA); lra).
    exists (flat_map (fun j => map (fun i => 0%Z) (zr 0 (nx1 - 1))) (zr 0 (nx2 - 1))), lo, hi.
    assert (O : output_pgm None None data nx1 nx2 = Ok (flat_map (fun j => map (fun i => 0%Z) (zr 0 (nx1 - 1))) (zr 0 (nx2 - 1)))).
    { unfold output_pgm. rewrite EO. destruct (Rlt_dec 0 ((hi - lo) * (1 + FLT_EPSILON))) as [P|]; [exfalso; rewrite EQ in P; lra|reflexivity]. }
    assert (Z0 : forall j i, (0 <= j < nx2)%Z -> (0 <= i < nx1)%Z -> nth_error (flat_map (fun j : Z => map (fun i : Z => 0%Z) (zr 0 (nx1 - 1))) (zr 0 (nx2 - 1))) (place nx1 nx2 j i) = Some 0%Z).
    { intros j i J I. rewrite place_eq by assumption. rewrite (nth_flat _ _ _ (Z.to_nat nx1)); [|intros; rewrite map_length, zr_len0; reflexivity|lia].
      rewrite zr_nth by lia. rewrite nth_error_map, zr_nth by lia. reflexivity. }
    split; [exact O|]. split.
    { rewrite <- (zr_len0 nx2). generalize (zr 0 (nx2 - 1)). intros l. induction l; cbn [flat_map length]; [symmetry; apply Nat.mul_0_r|]. rewrite app_length, map_length, zr_len0, IHl. lia. }
    split; [|split].
    + exists ja, ia. repeat (split; [assumption|]). apply Z0; assumption.
    + exists jb, ib. repeat (split; [assumption|]). destruct (Rlt_dec lo hi); [contradiction|]. apply Z0; assumption.
    + intros j i J I. split; [apply RNG; assumption|]. exists 0%Z. split; [apply Z0; assumption|]. destruct (Rlt_dec lo hi); [contradiction|reflexivity].
Qed.
Print Assumptions C96_pgm_autoscale.
(** Larger values are never darker. *)
Theorem C96_shade_monotone : forall lo hi x y g h, lo < hi -> shade lo hi x g -> shade lo hi y h -> x <= y -> (g <= h)%Z.
Proof.
  intros lo hi x y g h LH (G0 & G1 & G2 & G3) (K0 & K1 & K2 & K3) XY.
  destruct (Rle_dec hi y); [rewrite (K2 ltac:(assumption)); lia|]. destruct (Rle_dec x lo); [rewrite (G1 ltac:(assumption)); lia|].
  assert (A := G3 ltac:(lra)). assert (B := K3 ltac:(lra)).
  assert (M : 0 < (hi - lo) * (1 + / 2 ^ 23)) by (apply Rmult_lt_0_compat; [lra|]; assert (0 < / 2 ^ 23) by (apply Rinv_0_lt_compat, pow_lt; lra); lra).
  assert ((x - lo) / ((hi - lo) * (1 + / 2 ^ 23)) <= (y - lo) / ((hi - lo) * (1 + / 2 ^ 23))).
  { apply Rmult_le_compat_r; [left; apply Rinv_0_lt_compat; exact M|lra]. }
  assert (IZR g < IZR (h + 1)) by (rewrite plus_IZR; lra). apply lt_IZR in H0. lia.
Qed.
Print Assumptions C96_shade_monotone.
(** A value far beyond a given scale: the conversion to int is undefined before the value is cut off. *)
Theorem C96_pgm_refuted : exists data, (forall j i, data j i = 1) /\ output_pgm (Some 0) (Some (/ 10 ^ 8)) data 1 1 = UB.
Proof.
  exists (fun _ _ => 1). split; [reflexivity|]. unfold output_pgm, ends_of. destruct (minmax2 _ _ _) as [a b].
  assert (EP := eps_small). assert (T : / 10 ^ 8 = 1 / 100000000) by (simpl; field). rewrite T.
  destruct (Rlt_dec 0 ((1 / 100000000 - 0) * (1 + FLT_EPSILON))) as [_|N]; [|exfalso; apply N; apply Rmult_lt_0_compat; lra].
  change (pixels 1 1) with [(0%Z, 0%Z)]. cbn [res_map]. unfold gray. cbv zeta.
  set (x := 256 / ((1 / 100000000 - 0) * (1 + FLT_EPSILON)) * (1 - 0)).
  assert (X : IZR (2 ^ 31) + 1 < x).
  { assert (x * (1 + FLT_EPSILON) = 25600000000) by (unfold x; field; lra). change (2 ^ 31)%Z with 2147483648%Z. nra. }
  assert (U : c_int x = UB).
  { unfold c_int. assert (0 < IZR (2 ^ 31)) by (apply IZR_lt; lia). destruct (Rle_dec 0 x); [|lra]. destruct (base_Int_part x) as [B1 B2].
    assert (2 ^ 31 < Int_part x)%Z by (apply lt_IZR; lra). cbv zeta. destruct ((INT_MIN <=? Int_part x) && (Int_part x <=? INT_MAX))%Z eqn:IB; [unfold INT_MIN, INT_MAX in IB; lia|reflexivity]. }
  rewrite U. reflexivity.
Qed.
Print Assumptions C96_pgm_refuted.

(** ** Colour images *)
Lemma c_int_byte : forall p, 0 <= p <= 1 -> exists v, c_int (p * 255) = Ok v /\ byte_of p v.
Proof.
  intros p H. destruct (c_int_pos (p * 255)) as (v & C & V & V0). { assert (255 < IZR (2 ^ 31)) by (apply IZR_lt; lia). lra. }
  exists v. split; [exact C|]. split; [|lra]. split; [exact V0|]. apply le_IZR. lra.
Qed.
Theorem C96_ppm : forall rgb sdmin sdmax data nx1 nx2 lo hi, palette rgb -> ends_of sdmin sdmax data nx1 nx2 = (lo, hi) -> lo <> hi ->
  exists img, output_ppm rgb sdmin sdmax data nx1 nx2 = Ok img /\ length img = (Z.to_nat nx1 * Z.to_nat nx2)%nat /\
  forall j i, (0 <= j < nx2)%Z -> (0 <= i < nx1)%Z -> exists r g b, nth_error img (place nx1 nx2 j i) = Some (r, g, b) /\
    colour rgb lo hi (data j i) r 0 /\ colour rgb lo hi (data j i) g 1 /\ colour rgb lo hi (data j i) b 2.
Proof.
  intros rgb sdmin sdmax data nx1 nx2 lo hi PAL E NE. unfold output_ppm. rewrite E.
  assert (IM := image_ok _ (fun x => compute_rgb rgb x lo hi) (fun x b => colour rgb lo hi x (fst (fst b)) 0 /\ colour rgb lo hi x (snd (fst b)) 1 /\ colour rgb lo hi x (snd b) 2) data nx1 nx2).
  destruct IM as (img & O & L & PX).
  { intros j i _ _. generalize (data j i). intros x. unfold compute_rgb. destruct (Req_EM_T lo hi) as [EQ|_]; [contradiction|]. cbv zeta.
    set (t := (x - lo) * 255 / (hi - lo)).
    assert (TT : 255 * ((x - lo) / (hi - lo)) = t) by (unfold t; field; lra).
    destruct (Rle_dec t 0) as [T0|T0].
    { assert (C : forall c, (0 <= c < 3)%Z -> exists v, c_int (rgb (0 * 3 + c)%Z * 255) = Ok v /\ colour rgb lo hi x v c).
      { intros c C. destruct (c_int_byte (rgb (0 * 3 + c)%Z)) as (v & A & B); [apply PAL; lia|]. exists v. split; [exact A|]. unfold colour. cbv zeta. rewrite TT.
        split; [intros _; exact B|]. split; intros; exfalso; lra. }
      destruct (C 0%Z) as (r & R1 & R2); [lia|]. destruct (C 1%Z) as (g & G1 & G2); [lia|]. destruct (C 2%Z) as (b & B1 & B2); [lia|].
      change (0 * 3 + 0)%Z with (0 * 3)%Z in R1. rewrite R1. cbn [bind]. rewrite G1. cbn [bind]. rewrite B1. cbn [bind]. eexists; split; [reflexivity|]. cbn [fst snd]. auto. }
    destruct (Rge_dec t 255) as [T1|T1].
    { assert (C : forall c, (0 <= c < 3)%Z -> exists v, c_int (rgb (255 * 3 + c)%Z * 255) = Ok v /\ colour rgb lo hi x v c).
      { intros c C. destruct (c_int_byte (rgb (255 * 3 + c)%Z)) as (v & A & B); [apply PAL; lia|]. exists v. split; [exact A|]. unfold colour. cbv zeta. rewrite TT.
        split; [intros; exfalso; lra|]. split; [intros _; exact B|intros; exfalso; lra]. }
      destruct (C 0%Z) as (r & R1 & R2); [lia|]. destruct (C 1%Z) as (g & G1 & G2); [lia|]. destruct (C 2%Z) as (b & B1 & B2); [lia|].
      change (255 * 3 + 0)%Z with (255 * 3)%Z in R1. rewrite R1. cbn [bind]. rewrite G1. cbn [bind]. rewrite B1. cbn [bind]. eexists; split; [reflexivity|]. cbn [fst snd]. auto. }
    destruct (c_int_pos t) as (m & CM & M1 & M0). { assert (255 < IZR (2 ^ 31)) by (apply IZR_lt; lia). lra. }
    rewrite CM. cbn [bind]. assert (M2 : (m < 255)%Z) by (apply lt_IZR; lra).
    assert (C : forall c, (0 <= c < 3)%Z -> exists v, component rgb t m c = Ok v /\ colour rgb lo hi x v c).
    { intros c C. unfold component, der. replace (m * 3 + c <? 765)%Z with true by (symmetry; apply Z.ltb_lt; lia). cbn [bind].
      assert (P0 := PAL (m * 3 + c)%Z ltac:(lia)). assert (P1 := PAL (m * 3 + c + 3)%Z ltac:(lia)).
      set (p := rgb (m * 3 + c)%Z + (t - IZR m) * (rgb (m * 3 + c + 3)%Z - rgb (m * 3 + c)%Z)).
      destruct (c_int_byte p) as (v & A & B).
      { unfold p. set (u := t - IZR m). assert (0 <= u < 1) by (unfold u; lra). set (q0 := rgb (m * 3 + c)%Z) in *. set (q1 := rgb (m * 3 + c + 3)%Z) in *. clearbody q0 q1 u. nra. }
      exists v. split; [exact A|]. unfold colour. cbv zeta. rewrite TT. split; [intros; exfalso; lra|]. split; [intros; exfalso; lra|]. intros _.
      exists p. split; [|exact B]. exists m. split; [lia|]. split; [exact M1|]. unfold p. replace (3 * m + c)%Z with (m * 3 + c)%Z by lia. replace (3 * (m + 1) + c)%Z with (m * 3 + c + 3)%Z by lia. reflexivity. }
    destruct (C 0%Z) as (r & R1 & R2); [lia|]. destruct (C 1%Z) as (g & G1 & G2); [lia|]. destruct (C 2%Z) as (b & B1 & B2); [lia|].
    rewrite R1. cbn [bind]. rewrite G1. cbn [bind]. rewrite B1. cbn [bind]. eexists; split; [reflexivity|]. cbn [fst snd]. auto. }
  exists img. split; [exact O|]. split; [exact L|]. intros j i J I. destruct (PX j i J I) as ([[r g] b] & N & Q). exists r, g, b. split; [exact N|exact Q].
Qed.
Print Assumptions C96_ppm.
(** A scale of length 0: white above it, black elsewhere. *)
Theorem C96_ppm_flat : forall rgb sdmin sdmax data nx1 nx2 lo, ends_of sdmin sdmax data nx1 nx2 = (lo, lo) ->
  exists img, output_ppm rgb sdmin sdmax data nx1 nx2 = Ok img /\ length img = (Z.to_nat nx1 * Z.to_nat nx2)%nat /\
  forall j i, (0 <= j < nx2)%Z -> (0 <= i < nx1)%Z -> exists v, nth_error img (place nx1 nx2 j i) = Some (v, v, v) /\ (lo < data j i -> v = 255%Z) /\ (data j i <= lo -> v = 0%Z).
Proof.
  intros rgb sdmin sdmax data nx1 nx2 lo E. unfold output_ppm. rewrite E.
  destruct (image_ok _ (fun x => compute_rgb rgb x lo lo) (fun x b => exists v, b = (v, v, v) /\ (lo < x -> v = 255%Z) /\ (x <= lo -> v = 0%Z)) data nx1 nx2) as (img & O & L & PX).
  { intros j i _ _. unfold compute_rgb. destruct (Req_EM_T lo lo); [|congruence]. cbv zeta. eexists; split; [reflexivity|]. eexists. split; [reflexivity|]. destruct (Rlt_dec lo (data j i)); split; intros; try reflexivity; exfalso; lra. }
  exists img. split; [exact O|]. split; [exact L|]. intros j i J I. destruct (PX j i J I) as (b & N & v & -> & Q). exists v. split; assumption.
Qed.
Print Assumptions C96_ppm_flat.

(** ** Extremes *)
Lemma track_inv : forall l g ds, (forall d, In d ds -> fst g <= fst d) -> (forall d, In d ds -> snd d <= snd g) ->
  let r := fold_left track l g in
  (forall d, In d (ds ++ l) -> fst r <= fst d /\ snd d <= snd r) /\ (fst r = fst g \/ exists d, In d l /\ fst r = fst d) /\ (snd r = snd g \/ exists d, In d l /\ snd r = snd d) /\ fst r <= fst g /\ snd g <= snd r.
Proof.
  induction l as [|a l IH]; intros g ds H1 H2 r.
  - subst r. cbn [fold_left]. rewrite app_nil_r. split; [auto|]. split; [auto|]. split; [auto|]. split; apply Rle_refl.
  - subst r. cbn [fold_left].
    assert (M : fst (track g a) <= fst g /\ fst (track g a) <= fst a /\ (fst (track g a) = fst g \/ fst (track g a) = fst a)) by (unfold track, MIN; cbn [fst]; destruct (Rlt_dec (fst a) (fst g)); lra).
    assert (X : snd g <= snd (track g a) /\ snd a <= snd (track g a) /\ (snd (track g a) = snd g \/ snd (track g a) = snd a)) by (unfold track, MAX; cbn [snd]; destruct (Rlt_dec (snd g) (snd a)); lra).
    destruct (IH (track g a) (ds ++ [a])) as (A & B & C & D & F).
    { intros d I. apply in_app_iff in I. destruct I as [I|[<-|[]]]; [specialize (H1 d I); lra|lra]. }
    { intros d I. apply in_app_iff in I. destruct I as [I|[<-|[]]]; [specialize (H2 d I); lra|lra]. }
    split; [|split; [|split; [|split; lra]]].
    + intros d I. apply A. rewrite <- app_assoc. exact I.
    + destruct B as [B|(d & I & B)]; [|right; exists d; split; [right; exact I|exact B]]. destruct M as (_ & _ & [M|M]); [left; lra|right; exists a; split; [left; reflexivity|lra]].
    + destruct C as [C|(d & I & C)]; [|right; exists d; split; [right; exact I|exact C]]. destruct X as (_ & _ & [X|X]); [left; lra|right; exists a; split; [left; reflexivity|lra]].
Qed.
Lemma run_track_concat : forall outs g, fold_left (fun g o => fold_left track o g) outs g = fold_left track (concat outs) g.
Proof. induction outs; intros g; cbn [fold_left concat]; [reflexivity|]. rewrite IHouts, fold_left_app. reflexivity. Qed.
(** Images and one-dimensional tables: the extremes printed at the end of the run are those of all data put out, if these do not exceed 10^20. *)
Theorem C96_extremes_partial : forall outs, concat outs <> [] -> (forall d, In d (concat outs) -> fst d <= 10 ^ 20 /\ - 10 ^ 20 <= snd d) ->
  are_extremes (concat outs) (run_track outs).
Proof.
  intros outs NE B. unfold run_track. rewrite run_track_concat. destruct (track_inv (concat outs) extremes0 []) as (A & F & S & L & U); try (intros d []).
  cbn [app] in A. assert (exists d, In d (concat outs)) by (destruct (concat outs) as [|d l]; [congruence|exists d; left; reflexivity]). destruct H as (d & I).
  unfold extremes0, HUGE_NUMBER in *. cbn [fst snd] in *. set (r := fold_left track (concat outs) _) in *. clearbody r.
  assert (BD := B d I). assert (AD := A d I).
  split; [|split; [intros e E; apply A, E|split; [|intros e E; apply A, E]]].
  - destruct F as [F|F]; [|exact F]. exists d. split; [exact I|]. rewrite F in AD |- *. set (h := 10 ^ 20) in *. clearbody h. lra.
  - destruct S as [S|S]; [|exact S]. exists d. split; [exact I|]. rewrite S in AD |- *. set (h := 10 ^ 20) in *. clearbody h. lra.
Qed.
Print Assumptions C96_extremes_partial.
(** Two- and three-dimensional tables: the same, without a limit on the data, if every output handles one Grid. *)
Theorem C96_extremes_tab_partial : forall d ds, let outs := map (fun x => [x]) (d :: ds) in
  are_extremes (concat outs) (run_track_num 0 outs extremes0).
Proof.
  intros d ds outs. assert (CC : concat outs = d :: ds).
  { unfold outs. clear. generalize (d :: ds). intros l. induction l; cbn [map concat app]; [reflexivity|]. rewrite IHl. reflexivity. } rewrite CC.
  assert (RR : run_track_num 0 outs extremes0 = fold_left track ds d).
  { assert (G : forall l n g, run_track_num (S n) (map (fun x => [x]) l) g = fold_left track l g).
    { induction l; intros n g; cbn [map run_track_num fold_left track_num]; [reflexivity|]. apply IHl. }
    unfold outs. cbn [map run_track_num fold_left track_num]. apply G. }
  rewrite RR. destruct (track_inv ds d [d]) as (A & F & S & L & U); try (intros e [<-|[]]; apply Rle_refl). cbn [app] in A.
  split; [|split; [intros e E; apply A, E|split; [|intros e E; apply A, E]]].
  - destruct F as [F|(e & I & F)]; [exists d; split; [left; reflexivity|exact F]|exists e; split; [right; exact I|exact F]].
  - destruct S as [S|(e & I & S)]; [exists d; split; [left; reflexivity|exact S]|exists e; split; [right; exact I|exact S]].
Qed.
Print Assumptions C96_extremes_tab_partial.
(** Data beyond 10^20, and the first table of several Grids: only the last Grid counts. *)
Theorem C96_extremes_huge_refuted : exists outs, concat outs <> [] /\ ~ are_extremes (concat outs) (run_track outs).
Proof.
  exists [[(2 * HUGE_NUMBER, 2 * HUGE_NUMBER)]]. split; [discriminate|]. intros ((d & I & E) & _).
  assert (H : 0 < HUGE_NUMBER) by (apply pow_lt; lra). cbn [concat app In] in I. destruct I as [<-|[]]. cbn [fst] in E.
  unfold run_track, extremes0, track in E. cbn [fold_left fst snd] in E. unfold MIN in E. destruct (Rlt_dec (2 * HUGE_NUMBER) HUGE_NUMBER); lra.
Qed.
Print Assumptions C96_extremes_huge_refuted.
Theorem C96_extremes_tab_refuted : exists outs, concat outs <> [] /\ (forall d, In d (concat outs) -> 0 <= fst d <= snd d /\ snd d <= 2) /\ ~ are_extremes (concat outs) (run_track_num 0 outs extremes0).
Proof.
  exists [[(0, 2); (1, 1)]]. split; [discriminate|]. split; [cbn [concat app In]; intros d [<-|[<-|[]]]; cbn [fst snd]; lra|].
  intros (_ & H & _). specialize (H (0, 2)). cbn in H. specialize (H (or_introl eq_refl)). lra.
Qed.
Print Assumptions C96_extremes_tab_refuted.

(** ** Examples *)
Definition image_ex (j i : Z) : R := IZR (j + i).
Example ex_image : ends_of (Some 0) (Some 4) image_ex 3 3 = (0, 4) /\ (forall j i, (0 <= j < 3)%Z -> (0 <= i < 3)%Z -> Rabs (image_ex j i - 0) < IZR (2 ^ 23) * (4 - 0)) /\
  palette (fun n => 1 / 2) /\ place 3 3 2 1 = 1%nat.
Proof.
  split; [unfold ends_of; destruct (minmax2 _ _ _); reflexivity|]. split; [|split; [intros n _; lra|reflexivity]].
  intros j i J I. unfold image_ex. rewrite Rminus_0_r, Rabs_right by (apply Rle_ge, IZR_le; lia). apply Rle_lt_trans with 4; [apply IZR_le; lia|].
  assert (1 < IZR (2 ^ 23)) by (apply IZR_lt; lia). lra.
Qed.
Example ex_extremes : concat [[(0, 2); (1, 3)]; [(1, 1)]] <> [] /\ forall d, In d (concat [[(0, 2); (1, 3)]; [(1, 1)]]) -> fst d <= 10 ^ 20 /\ - 10 ^ 20 <= snd d.
Proof. split; [discriminate|]. assert (1 <= 10 ^ 20) by (apply pow_R1_Rle; lra). cbn [concat app In]. intros d [<-|[<-|[<-|[]]]]; cbn [fst snd]; lra. Qed.
