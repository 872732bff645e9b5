(** * C94: every column of a table dump holds what its header says; C95: binary dumps can be read back *)
From Coq Require Import String Ascii NArith ZArith Reals Bool Arith Lia Lra List.
From Verif Require PartProps.
From Verif Require Import CStr CStrFacts MeshModel PosModel GasModel VtkModel VtkFacts DumpModel DumpSpec.
Import ListNotations.
Open Scope Z_scope.

(** ** The column header *)
Fixpoint number (n : Z) (l : list str) : list (Z * str) := match l with [] => [] | a :: l => (n, a) :: number (n + 1) l end.
Lemma number_app : forall l n l', number n (l ++ l') = number n l ++ number (n + Z.of_nat (length l)) l'.
Proof.
  induction l; intros n l'; cbn [app number length]; [f_equal; lia|]. rewrite IHl. cbn [app]. do 3 f_equal. lia.
Qed.
Lemma number_fst : forall l n, map fst (number n l) = map (fun m => n + Z.of_nat m) (seq 0 (length l)).
Proof.
  induction l; intros n; cbn [number map length seq]; [reflexivity|]. f_equal; [cbn; lia|]. rewrite IHl, <- seq_shift, map_map. apply map_ext. intros. lia.
Qed.
Lemma number_snd : forall l n, map snd (number n l) = l.
Proof. induction l; intros n; cbn [number map snd]; [reflexivity|]. f_equal. apply IHl. Qed.
Definition hdr (l : list str) : Z * list (Z * str) := (1 + Z.of_nat (length l), number 1 l).
Lemma col_hdr : forall a l, col a (hdr l) = hdr (l ++ [a]).
Proof. intros a l. unfold col, hdr. rewrite number_app, app_length. cbn [number length]. f_equal. lia. Qed.
Lemma col_if_hdr : forall b a l, col_if b a (hdr l) = hdr (l ++ (if b then [a] else [])).
Proof. intros [] a l; cbn [col_if]; [apply col_hdr|]. rewrite app_nil_r. reflexivity. Qed.
Lemma cols_hdr : forall (f : nat -> str) ns l, fold_left (fun h n => col (f n) h) ns (hdr l) = hdr (l ++ map f ns).
Proof.
  intros f. induction ns; intros l; cbn [fold_left map]; [rewrite app_nil_r; reflexivity|]. rewrite col_hdr, IHns, <- app_assoc. reflexivity.
Qed.
Definition tab_names (c : vcfg) (Nx : axis -> Z) : list str :=
  let p := vc_prim c in
  [S_ "i-zone"] ++ (if 2 <? Nx X2 then [S_ "j-zone"] else []) ++ (if 3 <? Nx X3 then [S_ "k-zone"] else []) ++
  (if p || (1 <? Nx X1) then [S_ "x1"] else []) ++ (if 2 <? Nx X2 then [S_ "x2"] else []) ++ (if 3 <? Nx X3 then [S_ "x3"] else []) ++
  [S_ "d"; if p then S_ "V1" else S_ "M1"; if p then S_ "V2" else S_ "M2"; if p then S_ "V3" else S_ "M3"] ++
  (if vc_adb c then [if p then S_ "P" else S_ "E"] else []) ++
  (if vc_mhd c then [S_ "B1c"; S_ "B2c"; S_ "B3c"] else []) ++
  (if vc_selfg c then [S_ "Phi"] else []) ++
  (if vc_par c then [S_ "dpar"; if p then S_ "V1par" else S_ "M1par"; if p then S_ "V2par" else S_ "M2par"; if p then S_ "V3par" else S_ "M3par"] else []) ++
  map (fun n => S_ "s" ++ dec_N (N.of_nat n)) (seq 0 (vc_ns c)).
Lemma header_names : forall c Nx, tab_header c Nx = number 1 (tab_names c Nx).
Proof.
  intros c Nx. unfold tab_header. cbv zeta. change (1, []) with (hdr []).
  repeat first [rewrite col_hdr | rewrite col_if_hdr]. rewrite cols_hdr. cbn [snd hdr].
  f_equal. unfold tab_names. cbv zeta. rewrite <- !app_assoc. cbn [app]. destruct (vc_mhd c), (vc_par c); reflexivity.
Qed.

Definition thresholds (Nx : axis -> Z) : Prop := 1 < Nx X1 /\ Nx X2 <> 2 /\ Nx X3 <> 2 /\ Nx X3 <> 3.

Lemma mean_ok : forall gd m, mean_of gd m (m * (if Rlt_dec 0 gd then 1 / gd else 0))%R.
Proof. intros gd m. unfold mean_of. destruct (Rlt_dec 0 gd); split; intros; try lra. field. lra. Qed.

(** The columns are numbered from 1 on, the row of every cell has one number for each of them, and that number is what the name promises. *)
Theorem C94_columns_partial : forall c pG Nx G k j i, thresholds Nx ->
  map fst (tab_header c Nx) = map (fun n => 1 + Z.of_nat n) (seq 0 (length (tab_header c Nx))) /\
  Forall2 (promises c pG G k j i) (map snd (tab_header c Nx)) (tab_row c pG Nx G k j i).
Proof.
  intros c pG Nx G k j i (H1 & H2 & H3 & H4). rewrite header_names. split.
  { rewrite number_fst. f_equal. f_equal. rewrite <- (map_length snd (number 1 _)), number_snd. reflexivity. }
  rewrite number_snd. unfold tab_names, tab_row, cc_pos. cbv zeta.
  replace (1 <? Nx X1) with true by (symmetry; apply Z.ltb_lt; lia). rewrite orb_true_r.
  assert (E2 : (2 <? Nx X2) = (1 <? Nx X2)) by (destruct (Z.ltb_spec 2 (Nx X2)), (Z.ltb_spec 1 (Nx X2)); lia || reflexivity).
  assert (E3 : (3 <? Nx X3) = (1 <? Nx X3)) by (destruct (Z.ltb_spec 3 (Nx X3)), (Z.ltb_spec 1 (Nx X3)); lia || reflexivity).
  rewrite E2, E3. clear E2 E3.
  repeat apply Forall2_app.
  - repeat constructor.
  - destruct (1 <? Nx X2); repeat constructor.
  - destruct (1 <? Nx X3); repeat constructor.
  - repeat constructor.
  - destruct (1 <? Nx X2); repeat constructor.
  - destruct (1 <? Nx X3); repeat constructor.
  - assert (D := p_d c pG G k j i). destruct (vc_prim c) eqn:P; repeat (apply Forall2_cons); try (constructor; assumption); assumption.
  - destruct (vc_adb c); [|constructor]. destruct (vc_prim c) eqn:P; repeat (apply Forall2_cons); constructor; assumption.
  - destruct (vc_mhd c); [|constructor]. assert (D1 := p_B1 c pG G k j i). assert (D2 := p_B2 c pG G k j i). assert (D3 := p_B3 c pG G k j i).
    destruct (vc_prim c) eqn:P; repeat (apply Forall2_cons); try assumption; constructor.
  - destruct (vc_selfg c); repeat constructor.
  - destruct (vc_par c); [|constructor]. assert (D := p_dpar c pG G k j i).
    assert (A1 := p_M1par c pG G k j i). assert (A2 := p_M2par c pG G k j i). assert (A3 := p_M3par c pG G k j i).
    assert (B1 := p_V1par c pG G k j i). assert (B2 := p_V2par c pG G k j i). assert (B3 := p_V3par c pG G k j i).
    destruct (vg_par G k j i) as [gd [[v1 v2] v3]]. cbn [fst snd] in *.
    destruct (vc_prim c) eqn:P; repeat (apply Forall2_cons); auto using mean_ok.
  - assert (H : forall n, In n (seq 0 (vc_ns c)) -> (n < vc_ns c)%nat) by (intros n I; apply in_seq in I; lia).
    revert H. generalize (seq 0 (vc_ns c)). intros l. induction l; intros H; cbn [map]; constructor.
    + apply p_scal. apply H. left. reflexivity.
    + apply IHl. intros n I. apply H. right. exact I.
Qed.
Print Assumptions C94_columns_partial.

(** A Grid with two cells along x2: the header has two columns less than the rows, and the density is found in the column of the momentum. *)
Definition tab_ex_cfg : vcfg := VC false false false false 0 false.
Definition tab_ex_Nx (a : axis) : Z := match a with X1 => 8 | X2 => 2 | X3 => 1 end.
Theorem C94_columns_refuted : exists c Nx, 1 < Nx X1 /\ 1 < Nx X2 /\ Nx X3 = 1 /\ forall pG G k j i,
  length (tab_header c Nx) = 6%nat /\ length (tab_row c pG Nx G k j i) = 8%nat /\
  nth_error (tab_header c Nx) 2 = Some (3, S_ "d") /\ nth_error (tab_row c pG Nx G k j i) 4 = Some (Num (cd (vg_U G k j i))) /\
  nth_error (tab_header c Nx) 4 = Some (5, S_ "M2").
Proof.
  exists tab_ex_cfg, tab_ex_Nx. repeat split; try (cbn; lia); reflexivity.
Qed.
Print Assumptions C94_columns_refuted.
Theorem C94_columns_x3_refuted : exists c Nx, 1 < Nx X1 /\ Nx X2 = 8 /\ Nx X3 = 3 /\ forall pG G k j i,
  length (tab_header c Nx) <> length (tab_row c pG Nx G k j i).
Proof.
  exists tab_ex_cfg, (fun a => match a with X3 => 3 | _ => 8 end). repeat split; try (cbn; lia).
Qed.
Print Assumptions C94_columns_x3_refuted.

(** ** One row per cell *)
Lemma zr_seq : forall l u, zr l u = map (fun n => l + Z.of_nat n) (seq 0 (Z.to_nat (u - l + 1))). Proof. reflexivity. Qed.
Lemma flat_map_map : forall A B C (f : B -> list C) (g : A -> B) l, flat_map f (map g l) = flat_map (fun x => f (g x)) l.
Proof. intros. induction l; cbn [map flat_map]; [reflexivity|]. rewrite IHl. reflexivity. Qed.
Lemma map_flat : forall A B (f : A -> B) l, map f l = flat_map (fun x => [f x]) l.
Proof. intros. induction l; cbn [map flat_map app]; [reflexivity|]. rewrite IHl. reflexivity. Qed.
Lemma rows_cube : forall c pG Nx lo hi G, tab_rows c pG Nx lo hi G =
  cube (fun k j i => [tab_row c pG Nx G (lo X3 + Z.of_nat k) (lo X2 + Z.of_nat j) (lo X1 + Z.of_nat i)]) (span lo hi X1) (span lo hi X2) (span lo hi X3).
Proof.
  intros. unfold tab_rows, cube, span. rewrite (zr_seq (lo X3)), flat_map_map. apply flat_map_ext. intros k.
  rewrite (zr_seq (lo X2)), flat_map_map. apply flat_map_ext. intros j. rewrite zr_seq, map_map. apply map_flat.
Qed.
Lemma nth_first : forall A (l : list A) n x, firstn 1 (skipn n l) = [x] -> nth_error l n = Some x.
Proof.
  induction l; intros n x H; destruct n; cbn in *; try discriminate; [injection H; intros; subst; reflexivity|]. apply IHl. exact H.
Qed.
(** Row number ((k-kl)*N2 + (j-jl))*N1 + (i-il) is that of cell (k,j,i); the sizes announced multiply to the number of rows. *)
Theorem C94_rows : forall c pG Nx lo hi G dx, (forall a, lo a <= hi a) -> (forall a, Nx a = 1 -> lo a = hi a) -> (forall a, 1 <= Nx a) ->
  length (tab_rows c pG Nx lo hi G) = (span lo hi X1 * span lo hi X2 * span lo hi X3)%nat /\
  fold_right Z.mul 1 (map (fun t => snd (fst t)) (tab_sizes Nx lo hi dx)) = Z.of_nat (length (tab_rows c pG Nx lo hi G)) /\
  forall k j i, lo X3 <= k <= hi X3 -> lo X2 <= j <= hi X2 -> lo X1 <= i <= hi X1 ->
    nth_error (tab_rows c pG Nx lo hi G) ((Z.to_nat (k - lo X3) * span lo hi X2 + Z.to_nat (j - lo X2)) * span lo hi X1 + Z.to_nat (i - lo X1))%nat
    = Some (tab_row c pG Nx G k j i).
Proof.
  intros c pG Nx lo hi G dx B T P. rewrite rows_cube.
  assert (LEN : length (cube (fun k j i => [tab_row c pG Nx G (lo X3 + Z.of_nat k) (lo X2 + Z.of_nat j) (lo X1 + Z.of_nat i)]) (span lo hi X1) (span lo hi X2) (span lo hi X3)) = (span lo hi X1 * span lo hi X2 * span lo hi X3)%nat).
  { rewrite (cube_length _ _ 1%nat); [lia|]. intros. reflexivity. }
  split; [exact LEN|]. split.
  - rewrite LEN. rewrite !Nat2Z.inj_mul. unfold tab_sizes, span. cbn [flat_map].
    assert (E : forall a, Z.of_nat (Z.to_nat (hi a - lo a + 1)) = hi a - lo a + 1) by (intros a; specialize (B a); lia). rewrite !E.
    assert (O : forall a, (1 <? Nx a) = false -> hi a - lo a + 1 = 1) by (intros a F; apply Z.ltb_ge in F; specialize (P a); specialize (T a ltac:(lia)); lia).
    destruct (1 <? Nx X1) eqn:E1, (1 <? Nx X2) eqn:E2, (1 <? Nx X3) eqn:E3; cbn [app map fst snd fold_right];
      repeat match goal with H : (1 <? Nx ?a) = false |- _ => rewrite (O a H); clear H end; ring.
  - intros k j i K J I. apply nth_first.
    assert (L := cube_cell _ (fun k j i => [tab_row c pG Nx G (lo X3 + Z.of_nat k) (lo X2 + Z.of_nat j) (lo X1 + Z.of_nat i)]) 1 (span lo hi X1) (span lo hi X2) (span lo hi X3) []
      (Z.to_nat (k - lo X3)) (Z.to_nat (j - lo X2)) (Z.to_nat (i - lo X1)) (fun _ _ _ _ _ _ => eq_refl)).
    rewrite app_nil_r, Nat.mul_1_l in L. rewrite L by (unfold span; lia). do 2 f_equal; lia.
Qed.
Print Assumptions C94_rows.

(** ** The text of a row *)
Lemma words_spaces : forall n l, words_from [] (repeat SP n ++ l) = words_from [] l.
Proof. induction n; intros l; cbn [repeat app words_from]; [reflexivity|]. exact (IHn l). Qed.
Lemma words_word : forall s w l, Forall (fun a => isspace a = false) s -> words_from w (s ++ l) = words_from (w ++ s) l.
Proof.
  induction s; intros w l F; cbn [app]; [rewrite app_nil_r; reflexivity|]. inversion F; subst. cbn [words_from]. rewrite H1.
  rewrite IHs by assumption. rewrite <- app_assoc. reflexivity.
Qed.
Lemma words_end : forall w a l, isspace a = true -> w <> [] -> words_from w (a :: l) = w :: words_from [] l.
Proof. intros w a l S N. cbn [words_from]. rewrite S. destruct w; [congruence|reflexivity]. Qed.
Lemma dec_Z_plain : forall z, Forall (fun a => isspace a = false) (dec_Z z) /\ dec_Z z <> [].
Proof.
  assert (D : forall n, Forall (fun a => isspace a = false) (dec_N n)).
  { intros n. eapply Forall_impl; [|apply dec_N_digits]. intros a. apply digit_not_space. }
  destruct z; cbn [dec_Z]; split; auto using dec_N_nonempty; try discriminate.
Qed.
Definition fits (w : Z) (e : entry) : Prop := match e with Zone n => (length (dec_Z n) < Z.to_nat w)%nat | Num _ => True end.
Lemma words_entries : forall pr w row v, plain pr -> v <> [] -> Forall (fits w) row ->
  words_from v (flat_map (entry_text pr w) row ++ [LF]) = v :: map (word_of pr) row.
Proof.
  intros pr w row v PL. revert v. induction row as [|e row IH]; intros v V F.
  - cbn [flat_map app map]. rewrite words_end by (reflexivity || assumption). reflexivity.
  - inversion F; subst. cbn [flat_map map]. rewrite <- app_assoc. destruct e as [n|x]; cbn [entry_text word_of].
    + unfold pad. cbn [fits] in H1. destruct (dec_Z_plain n) as [D1 D2].
      destruct (Z.to_nat w - length (dec_Z n))%nat eqn:E; [lia|]. cbn [repeat]. rewrite <- !app_comm_cons. rewrite words_end by (reflexivity || assumption).
      rewrite <- app_assoc, words_spaces, words_word by assumption. cbn [app]. rewrite IH by assumption. reflexivity.
    + destruct (PL x) as [P1 P2]. rewrite <- app_comm_cons. rewrite words_end by (reflexivity || assumption).
      rewrite words_word by assumption. cbn [app]. rewrite IH by assumption. reflexivity.
Qed.
Lemma words_row : forall pr w e row, plain pr -> Forall (fits w) row -> words (row_text pr w (e :: row)) = map (word_of pr) (e :: row).
Proof.
  intros pr w e row PL F. unfold row_text, words. cbn [flat_map map]. rewrite <- app_assoc. destruct e as [n|x]; cbn [entry_text word_of].
  - unfold pad. destruct (dec_Z_plain n) as [D1 D2]. rewrite <- app_assoc, words_spaces, words_word by assumption. cbn [app]. apply words_entries; assumption.
  - destruct (PL x) as [P1 P2]. rewrite <- app_comm_cons. change (words_from [] (SP :: pr x ++ flat_map (entry_text pr w) row ++ [LF])) with (words_from [] (pr x ++ flat_map (entry_text pr w) row ++ [LF])). rewrite words_word by assumption. cbn [app]. apply words_entries; assumption.
Qed.

Lemma log10_range : forall e n, 10 ^ Z.of_nat e <= n -> n < 10 ^ Z.of_nat (S e) -> (INR e <= log10 (IZR n) < INR e + 1)%R.
Proof.
  intros e n L U. unfold log10. assert (T : (0 < ln 10)%R) by (rewrite <- ln_1; apply ln_increasing; lra).
  assert (PW : forall m, IZR (10 ^ Z.of_nat m) = (10 ^ m)%R) by (intros m; rewrite pow_IZR; reflexivity).
  assert (P : forall m, (0 < 10 ^ m)%R) by (intros m; apply pow_lt; lra).
  assert (LP : forall m, ln (10 ^ m) = (INR m * ln 10)%R).
  { induction m; [cbn [pow INR]; rewrite ln_1; ring|]. rewrite S_INR. cbn [pow]. rewrite ln_mult by (auto; lra). rewrite IHm. ring. }
  assert (L' : (10 ^ e <= IZR n)%R) by (rewrite <- PW; apply IZR_le; exact L).
  assert (U' : (IZR n < 10 ^ S e)%R) by (rewrite <- PW; apply IZR_lt; exact U).
  assert (A1 : (INR e * ln 10 <= ln (IZR n))%R).
  { rewrite <- LP. destruct (Rle_lt_or_eq_dec _ _ L') as [H|H]; [left; apply ln_increasing; auto|rewrite H; right; reflexivity]. }
  assert (A2 : (ln (IZR n) < (INR e + 1) * ln 10)%R).
  { rewrite <- S_INR, <- LP. apply ln_increasing; [|exact U']. specialize (P e). lra. }
  split.
  - apply Rmult_le_reg_r with (ln 10); [exact T|]. unfold Rdiv. rewrite Rmult_assoc, Rinv_l by lra. lra.
  - apply Rmult_lt_reg_r with (ln 10); [exact T|]. unfold Rdiv. rewrite Rmult_assoc, Rinv_l by lra. lra.
Qed.
Lemma zone_width_val : forall e n, (e < 100)%nat -> 10 ^ Z.of_nat e <= n -> n < 10 ^ Z.of_nat (S e) -> zone_width n = Ok (2 + Z.of_nat e).
Proof.
  intros e n E L U. assert (B := log10_range e n L U). unfold zone_width.
  replace (2 + log10 (IZR n))%R with (IZR (2 + Z.of_nat e) + (log10 (IZR n) - INR e))%R by (rewrite plus_IZR, <- INR_IZR_INZ; ring).
  apply PartProps.c_int_mid; [lia|lra].
Qed.
(** The words of a row are its numbers, as long as no index has more digits than the largest number of cells. *)
Theorem C94_words_partial : forall pr c pG Nx wg nghost G k j i e, plain pr -> 1 < Nx X1 -> (e < 100)%nat ->
  10 ^ Z.of_nat e <= tab_nmax wg nghost Nx < 10 ^ Z.of_nat (S e) ->
  (1 < Nx X2 -> 0 <= j < 10 ^ Z.of_nat (S e)) -> (1 < Nx X3 -> 0 <= k < 10 ^ Z.of_nat (S e)) ->
  exists w, zone_width (tab_nmax wg nghost Nx) = Ok w /\
  words (row_text pr w (tab_row c pG Nx G k j i)) = map (word_of pr) (tab_row c pG Nx G k j i).
Proof.
  intros pr c pG Nx wg nghost G k j i e PL N1 E [L U] J K. exists (2 + Z.of_nat e). split; [apply zone_width_val; assumption|].
  assert (DL : forall n, 0 <= n < 10 ^ Z.of_nat (S e) -> fits (2 + Z.of_nat e) (Zone n)).
  { intros n H. cbn [fits]. assert (DZ : dec_Z n = dec_N (Z.to_N n)) by (destruct n; try reflexivity; lia). rewrite DZ.
    assert (B := dec_N_length (S e) (Z.to_N n)). destruct H as [H0 H1]. assert ((Z.to_N n < 10 ^ N.of_nat (S e))%N).
    { apply N2Z.inj_lt. rewrite Z2N.id, N2Z.inj_pow, nat_N_Z by exact H0. exact H1. } specialize (B H). lia. }
  assert (F : Forall (fits (2 + Z.of_nat e)) (tl (tab_row c pG Nx G k j i)) /\ exists a, tab_row c pG Nx G k j i = a :: tl (tab_row c pG Nx G k j i)).
  { unfold tab_row. destruct (cc_pos pG i j k) as [[x1 x2] x3]. cbv zeta. replace (1 <? Nx X1) with true by (symmetry; apply Z.ltb_lt; lia).
    split; [|eexists; reflexivity]. cbn [app tl].
    assert (NN : forall A (f : A -> R) l, Forall (fits (2 + Z.of_nat e)) (map (fun a => Num (f a)) l)) by (intros; induction l; constructor; [exact I|assumption]).
    apply Forall_app. split. { destruct (Z.ltb_spec 1 (Nx X2)); constructor; auto. }
    apply Forall_app. split. { destruct (Z.ltb_spec 1 (Nx X3)); constructor; auto. }
    constructor; [exact I|].
    repeat (apply Forall_app; split); [destruct (1 <? Nx X2)|destruct (1 <? Nx X3)|destruct (vc_prim c)|destruct (vc_adb c)|destruct (vc_mhd c), (vc_prim c)|destruct (vc_selfg c)|
      destruct (vc_par c); [destruct (vg_par G k j i) as [gd [[v1 v2] v3]], (vc_prim c)|]|apply NN]; repeat constructor. }
  destruct F as [F [a A]]. rewrite A. apply words_row; assumption.
Qed.
Print Assumptions C94_words_partial.
(** 9 by 9 cells and 4 ghost zones: the second index of the upper rows has two digits, and the first two columns run together. *)
Theorem C94_words_refuted : forall pr c pG G, plain pr -> let Nx a := match a with X3 => 1 | _ => 9 end in
  exists w, zone_width (tab_nmax false 4 Nx) = Ok w /\
  nth_error (words (row_text pr w (tab_row c pG Nx G 0 12 12))) 0 = Some (S_ "1212").
Proof.
  intros pr c pG G PL Nx. exists 2. split; [apply (zone_width_val 0); cbn; lia|].
  unfold tab_row. destruct (cc_pos pG 12 12 0) as [[x1 x2] x3]. cbv zeta. change (1 <? Nx X1) with true. change (1 <? Nx X2) with true. change (1 <? Nx X3) with false.
  cbn [app]. unfold row_text, words. cbn [flat_map entry_text].
  change (pad 2 (dec_Z 12)) with (S_ "12"). rewrite <- !app_assoc.
  rewrite (words_word (S_ "12")) by (repeat constructor). rewrite (words_word (S_ "12")) by (repeat constructor). cbn [app].
  rewrite words_end by (reflexivity || discriminate). reflexivity.
Qed.
Print Assumptions C94_words_refuted.

(** ** The cells of a dump *)
(** First and last active index along an axis with several cells, and with one cell (init_grid.c). *)
Definition laid (nghost : Z) (Nx s e : axis -> Z) : Prop :=
  forall a, 1 <= Nx a /\ (1 < Nx a -> s a = nghost /\ e a = nghost + Nx a - 1) /\ (Nx a = 1 -> s a = 0 /\ e a = 0).
(** The dump covers exactly the active cells, or with ghost cells the whole array; what [C94_rows] asks of the bounds holds. *)
Theorem C94_range : forall wg nghost Nx s e, 0 <= nghost -> laid nghost Nx s e -> 1 < Nx X1 ->
  (forall a x, dump_lo wg nghost Nx s a <= x <= dump_hi wg nghost Nx e a <->
     if Nx a =? 1 then x = 0 else if wg then 0 <= x < Nx a + 2 * nghost else nghost <= x < nghost + Nx a) /\
  (forall a, dump_lo wg nghost Nx s a <= dump_hi wg nghost Nx e a) /\
  (forall a, Nx a = 1 -> dump_lo wg nghost Nx s a = dump_hi wg nghost Nx e a).
Proof.
  intros wg nghost Nx s e G L N1.
  assert (K : forall a, dump_lo wg nghost Nx s a = (if Nx a =? 1 then 0 else if wg then 0 else nghost) /\
     dump_hi wg nghost Nx e a = (if Nx a =? 1 then 0 else if wg then Nx a + 2 * nghost - 1 else nghost + Nx a - 1)).
  { intro a. destruct (L a) as [P [M O]]. unfold dump_lo, dump_hi, ghosts.
    destruct (Z.eqb_spec (Nx a) 1) as [E|E].
    - destruct (O E) as [-> ->]. destruct a; [lia| |]; replace (1 <? Nx _) with false by (symmetry; apply Z.ltb_ge; lia); rewrite andb_false_r; auto.
    - destruct (M ltac:(lia)) as [-> ->]. replace (match a with X1 => true | _ => 1 <? Nx a end) with true by (destruct a; auto; symmetry; apply Z.ltb_lt; lia).
      destruct wg; cbn [andb]; lia. }
  split; [|split].
  - intros a x. destruct (K a) as [-> ->]. destruct (Nx a =? 1), wg; lia.
  - intros a. destruct (K a) as [-> ->]. destruct (L a) as [P _]. destruct (Z.eqb_spec (Nx a) 1), wg; lia.
  - intros a E. destruct (K a) as [-> ->]. rewrite E. reflexivity.
Qed.
Print Assumptions C94_range.
(** With ghost cells every row of the table splits into its numbers. *)
Theorem C94_words_ghosts : forall pr c pG Nx nghost s e0 G e, plain pr -> 0 <= nghost -> laid nghost Nx s e0 -> 1 < Nx X1 -> (e < 100)%nat ->
  10 ^ Z.of_nat e <= tab_nmax true nghost Nx < 10 ^ Z.of_nat (S e) ->
  exists w, zone_width (tab_nmax true nghost Nx) = Ok w /\
  forall k j i, dump_lo true nghost Nx s X3 <= k <= dump_hi true nghost Nx e0 X3 -> dump_lo true nghost Nx s X2 <= j <= dump_hi true nghost Nx e0 X2 ->
  words (row_text pr w (tab_row c pG Nx G k j i)) = map (word_of pr) (tab_row c pG Nx G k j i).
Proof.
  intros pr c pG Nx nghost s e0 G e PL HG L N1 E B.
  destruct (C94_range true nghost Nx s e0 HG L N1) as [R _].
  exists (2 + Z.of_nat e). split; [apply zone_width_val; tauto|]. intros k j i K J.
  apply (R X3 k) in K. apply (R X2 j) in J.
  assert (M : Nx X2 + 2 * nghost <= tab_nmax true nghost Nx /\ Nx X3 + 2 * nghost <= tab_nmax true nghost Nx).
  { unfold tab_nmax. cbv zeta. destruct (Z.ltb_spec (Nx X2) (Nx X1)); match goal with |- context [?x <? ?y] => destruct (Z.ltb_spec x y) end; lia. }
  destruct (C94_words_partial pr c pG Nx true nghost G k j i e PL N1 E B) as [w [W Q]].
  - intro H. destruct (Z.eqb_spec (Nx X2) 1); lia.
  - intro H. destruct (Z.eqb_spec (Nx X3) 1); lia.
  - rewrite (zone_width_val e) in W by tauto. injection W as <-. exact Q.
Qed.
Print Assumptions C94_words_ghosts.

(** ** Example: 64 x 32 cells, MHD with two scalars, primitive variables. *)
Definition tab_ex_Nx2 (a : axis) : Z := match a with X1 => 64 | X2 => 32 | X3 => 1 end.
Definition tab_ex_cfg2 : vcfg := VC true true false false 2 true.
Example ex_tab : thresholds tab_ex_Nx2 /\ plain (fun _ => S_ "1.0") /\
  10 ^ Z.of_nat 1 <= tab_nmax false 4 tab_ex_Nx2 < 10 ^ Z.of_nat 2 /\
  map snd (tab_header tab_ex_cfg2 tab_ex_Nx2) = map S_ ["i-zone"; "j-zone"; "x1"; "x2"; "d"; "V1"; "V2"; "V3"; "P"; "B1c"; "B2c"; "B3c"; "s0"; "s1"]%string.
Proof. unfold thresholds, plain. cbn. repeat split; try lia; try discriminate. repeat constructor. Qed.
Example ex_tab_range : laid 4 tab_ex_Nx2 (fun a => match a with X3 => 0 | _ => 4 end) (fun a => match a with X1 => 67 | X2 => 35 | X3 => 0 end) /\
  10 ^ Z.of_nat 1 <= tab_nmax true 4 tab_ex_Nx2 < 10 ^ Z.of_nat 2.
Proof. split; [intro a; destruct a; cbn; lia|cbn; lia]. Qed.
