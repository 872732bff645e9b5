(** Restart files: loops as folds, what is written, and reading it back. *)
From Coq Require Import String Ascii NArith ZArith Bool Arith Lia FinFun List.
From Verif Require Import CStr ParModel UtilModel ResModel ResSpec.
Import ListNotations.
Open Scope Z_scope.

(** ** Loops *)
Lemma zrange_nil : forall lo hi, hi <= lo -> zrange lo hi = [].
Proof. intros. unfold zrange. replace (Z.to_nat (hi - lo)) with 0%nat by lia. reflexivity. Qed.
Lemma zrange_cons : forall lo hi, lo < hi -> zrange lo hi = lo :: zrange (lo + 1) hi.
Proof.
  intros. unfold zrange. replace (Z.to_nat (hi - lo)) with (S (Z.to_nat (hi - (lo + 1)))) by lia.
  cbn [seq map]. f_equal; [lia|]. rewrite <- seq_shift, map_map. apply map_ext. intros; lia.
Qed.
Lemma zrange_in : forall lo hi x, In x (zrange lo hi) <-> lo <= x < hi.
Proof.
  intros. unfold zrange. rewrite in_map_iff. split.
  - intros (n & <- & H). apply in_seq in H. lia.
  - intros H. exists (Z.to_nat (x - lo)). split; [lia|]. apply in_seq. lia.
Qed.
Lemma zrange_NoDup : forall lo hi, NoDup (zrange lo hi).
Proof.
  intros. unfold zrange. apply Injective_map_NoDup; [|apply seq_NoDup].
  intros a b E. lia.
Qed.
Lemma zrange_length : forall lo hi, length (zrange lo hi) = Z.to_nat (hi - lo).
Proof. intros. unfold zrange. rewrite map_length, seq_length. reflexivity. Qed.
Lemma zrange_snoc : forall lo hi, lo <= hi -> zrange lo (hi + 1) = zrange lo hi ++ [hi].
Proof.
  intros. unfold zrange. replace (Z.to_nat (hi + 1 - lo)) with (Z.to_nat (hi - lo) + 1)%nat by lia.
  rewrite seq_app, map_app. cbn [seq map]. f_equal. f_equal. lia.
Qed.

Lemma for_up_fold : forall S (body : Z -> S -> S) n i st,
  for_up i n body st = fold_left (fun s x => body x s) (zrange i (i + Z.of_nat n)) st.
Proof.
  intros S body n. induction n as [|n IH]; intros i st.
  - rewrite zrange_nil by lia. reflexivity.
  - cbn [for_up]. rewrite IH, (zrange_cons i) by lia. cbn [fold_left]. do 2 f_equal. lia.
Qed.
Lemma fori_fold : forall S (body : Z -> S -> S) lo hi st,
  fori lo hi body st = fold_left (fun s x => body x s) (zrange lo hi) st.
Proof.
  intros. unfold fori. rewrite for_up_fold.
  destruct (Z_le_dec hi lo) as [L|L].
  - rewrite !zrange_nil by lia. reflexivity.
  - do 2 f_equal. lia.
Qed.
Definition cells (ks ke js je is_ ie : Z) : list (Z * Z * Z) :=
  flat_map (fun k => flat_map (fun j => map (fun i => (k, j, i)) (zrange is_ (ie + 1))) (zrange js (je + 1)))
           (zrange ks (ke + 1)).
Lemma fold_flat_map : forall X Y S (f : S -> Y -> S) (g : X -> list Y) l s,
  fold_left f (flat_map g l) s = fold_left (fun s x => fold_left f (g x) s) l s.
Proof.
  intros X Y S f g l. induction l as [|x l IH]; intros s; [reflexivity|].
  cbn [flat_map fold_left]. rewrite fold_left_app. apply IH.
Qed.
Lemma fold_map : forall X Y S (f : S -> Y -> S) (g : X -> Y) l s,
  fold_left f (map g l) s = fold_left (fun s x => f s (g x)) l s.
Proof. intros X Y S f g l. induction l as [|x l IH]; intros s; [reflexivity|]. cbn. apply IH. Qed.
Lemma fold_ext : forall X S (f g : S -> X -> S) l s, (forall s x, f s x = g s x) -> fold_left f l s = fold_left g l s.
Proof. intros X S f g l. induction l as [|x l IH]; intros s E; [reflexivity|]. cbn. rewrite E. apply IH; auto. Qed.
Lemma for3_fold : forall S (body : Z -> Z -> Z -> S -> S) ks ke js je is_ ie st,
  fori ks (ke + 1) (fun k s => fori js (je + 1) (fun j s => fori is_ (ie + 1) (body k j) s) s) st =
  fold_left (fun s '(k, j, i) => body k j i s) (cells ks ke js je is_ ie) st.
Proof.
  intros. unfold cells. rewrite fold_flat_map, fori_fold. apply fold_ext. intros s k.
  rewrite fold_flat_map, fori_fold. apply fold_ext. intros s' j.
  rewrite fold_map, fori_fold. reflexivity.
Qed.
Lemma cells_in : forall ks ke js je is_ ie k j i, In (k, j, i) (cells ks ke js je is_ ie) <->
  ks <= k <= ke /\ js <= j <= je /\ is_ <= i <= ie.
Proof.
  intros. unfold cells. rewrite in_flat_map. split.
  - intros (k' & Hk & H). apply in_flat_map in H. destruct H as (j' & Hj & H).
    apply in_map_iff in H. destruct H as (i' & E & Hi). inversion E; subst.
    apply zrange_in in Hk, Hj, Hi. lia.
  - intros (Hk & Hj & Hi). exists k. split; [apply zrange_in; lia|]. apply in_flat_map.
    exists j. split; [apply zrange_in; lia|]. apply in_map_iff. exists i. split; auto. apply zrange_in; lia.
Qed.

(** ** Writing *)
Lemma bind_ok : forall A B (x : res A) (f : A -> res B) b, bind x f = Ok b -> exists a, x = Ok a /\ f a = Ok b.
Proof. intros A B [a| |] f b H; try discriminate. exists a. auto. Qed.
Lemma bind_eq : forall A B (x : res A) (f : A -> res B) a r, x = Ok a -> f a = r -> bind x f = r.
Proof. intros A B x f a r -> H. exact H. Qed.

Section Buf.
Context {A : Type} (C : codec A).
(** The buffer never holds more than leaves room for another [n]. *)
Definition room (n : N) (w : wst A) : Prop := (N.of_nat (length (snd w)) + n <= bufsize C)%N.
(** The bytes written, counting those still in the buffer *)
Definition out (w : wst A) : str := fst w ++ flat_map (c_enc C) (snd w).
Lemma store_ok : forall n x w, room (n + 1) w ->
  exists w', store C x w = Ok w' /\ room n w' /\ out w' = out w ++ c_enc C x.
Proof.
  intros n x [f b] H. unfold room, store, out in *; cbn [fst snd] in *.
  destruct (N.ltb_spec (N.of_nat (length b)) (bufsize C)) as [L|L]; [|lia].
  eexists. split; [reflexivity|]. cbn [fst snd]. split.
  - rewrite app_length; cbn [length]; lia.
  - rewrite flat_map_app, app_assoc. cbn [flat_map]. rewrite app_nil_r. reflexivity.
Qed.
Lemma spill_ok : forall n w, (n <= bufsize C)%N -> room n (spill C n w) /\ out (spill C n w) = out w.
Proof.
  intros n [f b] H. unfold spill, room, out. cbn [fst snd].
  destruct (N.ltb_spec (bufsize C) (N.of_nat (length b) + n)); cbn [fst snd dump_buf].
  - split; [cbn [length]; lia|]. cbn [flat_map]. rewrite app_nil_r. reflexivity.
  - split; [lia|reflexivity].
Qed.
Lemma put_ok : forall x w, (1 <= bufsize C)%N -> room 1 w ->
  exists w', put C x w = Ok w' /\ room 1 w' /\ out w' = out w ++ c_enc C x.
Proof.
  intros x w B H. destruct (store_ok 0 x w H) as (w1 & E & _ & O). unfold put. rewrite E. cbn [bind].
  destruct (spill_ok 1 w1 B) as (Rm & O2). eexists. split; [reflexivity|]. split; auto. rewrite O2. exact O.
Qed.
Lemma flush_ok : forall w, flush C w = (out w, []).
Proof.
  intros [f b]. unfold flush, out. cbn [fst snd]. destruct b as [|x b]; [cbn; rewrite app_nil_r|]; reflexivity.
Qed.
Lemma puts_ok : forall X (get : X -> A) l w, (1 <= bufsize C)%N -> room 1 w ->
  exists w', fold_left (fun w x => w <- w;; put C (get x) w) l (Ok w) = Ok w' /\ room 1 w' /\
    out w' = out w ++ flat_map (fun x => c_enc C (get x)) l.
Proof.
  intros X get l. induction l as [|x l IH]; intros w B H.
  - exists w. cbn. rewrite app_nil_r. auto.
  - cbn [fold_left bind]. destruct (put_ok (get x) w B H) as (w1 & E & R1 & O). rewrite E.
    destruct (IH w1 B R1) as (w2 & E2 & R2 & O2). exists w2. split; [exact E2|]. split; auto.
    rewrite O2, O, <- app_assoc. reflexivity.
Qed.
Lemma puts_if_ok : forall X (get : X -> A) (P : X -> bool) l w, (1 <= bufsize C)%N -> room 1 w ->
  exists w', fold_left (fun w x => w <- w;; if P x then put C (get x) w else Ok w) l (Ok w) = Ok w' /\ room 1 w' /\
    out w' = out w ++ flat_map (fun x => c_enc C (get x)) (filter P l).
Proof.
  intros X get P l. induction l as [|x l IH]; intros w B H.
  - exists w. cbn. rewrite app_nil_r. auto.
  - cbn [fold_left bind filter]. destruct (P x).
    + destruct (put_ok (get x) w B H) as (w1 & E & R1 & O). rewrite E.
      destruct (IH w1 B R1) as (w2 & E2 & R2 & O2). exists w2. split; [exact E2|]. split; auto.
      rewrite O2, O, <- app_assoc. reflexivity.
    + apply IH; auto.
Qed.
End Buf.

Lemma buf_big : forall A (C : codec A), (1 <= c_size C <= 16)%nat -> (16 <= bufsize C)%N.
Proof.
  intros A C H. unfold bufsize. apply (N.le_trans _ (262144 / 16)); [vm_compute; discriminate|].
  apply N.div_le_compat_l. lia.
Qed.

Definition head_text (lab : str) : str := LF :: lab ++ [LF].
Definition text3 {R} (M : mach R) (f : fld) (ks ke js je is_ ie : Z) (u : arrays R) : str :=
  flat_map (fun '(k, j, i) => c_enc (cR M) (u f k j i)) (cells ks ke js je is_ ie).

Lemma write_fld_ok : forall R (M : mach R) lab f ks ke js je is_ ie u file, mach_ok M ->
  write_fld M lab f ks ke js je is_ ie u (file, []) =
  Ok (file ++ head_text lab ++ text3 M f ks ke js je is_ ie u, []).
Proof.
  intros R M lab f ks ke js je is_ ie u file ((S & _) & _). pose proof (buf_big _ _ S) as B.
  unfold write_fld.
  rewrite (for3_fold _ (fun k j i w => w <- w;; put (cR M) (u f k j i) w)).
  rewrite (fold_ext _ _ _ (fun w x => w <- w;; put (cR M) ((fun '(k, j, i) => u f k j i) x) w))
    by (intros s [[k j] i]; reflexivity).
  destruct (puts_ok (cR M) _ (fun '(k, j, i) => u f k j i) (cells ks ke js je is_ ie)
              (heading lab file, [])) as (w' & E & _ & O); [lia|unfold room; cbn [snd length]; lia|].
  cbn [fst snd]. cbv beta in E |- *. rewrite E. cbn [bind]. rewrite flush_ok, O.
  unfold out, heading, text3, head_text. cbn [fst snd flat_map]. rewrite app_nil_r, <- app_assoc.
  do 2 f_equal. f_equal. f_equal. apply flat_map_ext. intros [[k j] i]. reflexivity.
Qed.

(** ** Reading *)
Definition plain (lab : str) : Prop := ~ In LF lab /\ (length lab <= 100)%nat.
Lemma fgets_n_line : forall lab n rest, ~ In LF lab -> (length lab < n)%nat ->
  fgets_n n (lab ++ LF :: rest) = (lab ++ [LF], rest).
Proof.
  induction lab as [|c lab IH]; intros n rest N L; destruct n as [|n]; try (cbn in L; lia).
  - reflexivity.
  - cbn [app fgets_n]. destruct (Ascii.eqb_spec c LF) as [E|E]; [exfalso; apply N; left; auto|].
    rewrite IH; [reflexivity| |]; [intro; apply N; right; auto|cbn in L; lia].
Qed.
Lemma get_line_ok : forall lab line rest, plain lab -> get_line (line, lab ++ LF :: rest) = (lab ++ [LF], rest).
Proof.
  intros lab line rest (N & L). unfold get_line, fgets. cbn [snd].
  destruct (lab ++ LF :: rest) as [|c r] eqn:E; [destruct lab; discriminate|].
  rewrite <- E, fgets_n_line; auto. unfold MAXLEN. lia.
Qed.
Lemma prefixb_app : forall a b, prefixb a (a ++ b) = true.
Proof. induction a as [|c a IH]; intros b; [reflexivity|]. cbn. rewrite Ascii.eqb_refl. apply IH. Qed.
Lemma label_ok : forall exp lab line rest, plain lab -> prefixb exp (lab ++ [LF]) = true ->
  label exp (line, head_text lab ++ rest) = Ok (lab ++ [LF], rest).
Proof.
  intros exp lab line rest P Q. unfold label, head_text.
  change ((LF :: lab ++ [LF]) ++ rest) with ([] ++ LF :: ((lab ++ [LF]) ++ rest)).
  rewrite get_line_ok by (split; [intros []|cbn; lia]).
  rewrite <- app_assoc. cbn [app]. rewrite get_line_ok by auto. cbn [fst]. rewrite Q. reflexivity.
Qed.
Lemma fread_ok : forall A (C : codec A) dom old line a rest, codec_ok C dom -> dom a ->
  fread C old (line, c_enc C a ++ rest) = (a, (line, rest)).
Proof.
  intros A C dom old line a rest (_ & H) D. destruct (H a D) as (L & E). unfold fread. cbn [fst snd].
  rewrite app_length, L. destruct (Nat.leb_spec (c_size C) (c_size C + length rest)) as [_|X]; [|lia].
  rewrite <- L, firstn_app, skipn_app, Nat.sub_diag, firstn_all, skipn_all. cbn [firstn skipn app].
  rewrite app_nil_r, E. reflexivity.
Qed.

Lemma fld_eqb_refl : forall f, fld_eqb f f = true.
Proof. intros []; cbn; auto using Z.eqb_refl. Qed.
Lemma fld_eqb_eq : forall a b, fld_eqb a b = true -> a = b.
Proof. intros [] []; cbn; try discriminate; auto. intros H. apply Z.eqb_eq in H. subst. reflexivity. Qed.
Lemma updf_same : forall R (u : arrays R) f k j i v, updf u f k j i v f k j i = v.
Proof. intros. unfold updf. rewrite fld_eqb_refl, !Z.eqb_refl. reflexivity. Qed.
Lemma updf_other : forall R (u : arrays R) f k j i v f' k' j' i', (f', k', j', i') <> (f, k, j, i) ->
  updf u f k j i v f' k' j' i' = u f' k' j' i'.
Proof.
  intros R u f k j i v f' k' j' i' N. unfold updf.
  destruct (fld_eqb f' f) eqn:F; [apply fld_eqb_eq in F; subst|reflexivity].
  destruct (Z.eqb_spec k' k); [|reflexivity]. destruct (Z.eqb_spec j' j); [|reflexivity].
  destruct (Z.eqb_spec i' i); [|reflexivity]. subst. congruence.
Qed.

Definition trip_dec : forall a b : Z * Z * Z, {a = b} + {a <> b}.
Proof. decide equality; [apply Z.eq_dec|decide equality; apply Z.eq_dec]. Defined.
(** The values of one variable over a list of cells replaced by those of another array *)
Definition over {R} (f : fld) (l : list (Z * Z * Z)) (u u0 u' : arrays R) : Prop :=
  (forall k j i, In (k, j, i) l -> u' f k j i = u f k j i) /\
  (forall f' k j i, ~ (f' = f /\ In (k, j, i) l) -> u' f' k j i = u0 f' k j i).
Lemma over_nil : forall R f (u u0 : arrays R), over f [] u u0 u0.
Proof. intros. split; [intros k j i []|auto]. Qed.
Lemma reads_ok : forall R (M : mach R) f (u : arrays R) l u0 line rest, mach_ok M ->
  exists u', fold_left (fun us '(k, j, i) =>
      let '(v, s) := us in let '(x, s) := fread (cR M) (v f k j i) s in (updf v f k j i x, s)) l
      (u0, (line, flat_map (fun '(k, j, i) => c_enc (cR M) (u f k j i)) l ++ rest)) = (u', (line, rest)) /\
    over f l u u0 u'.
Proof.
  intros R M f u l. induction l as [|[[k j] i] l IH]; intros u0 line rest H.
  - exists u0. split; [reflexivity|apply over_nil].
  - cbn [fold_left flat_map]. rewrite <- app_assoc.
    rewrite (fread_ok _ (cR M) (fun _ => True)) by (apply H || exact I).
    destruct (IH (updf u0 f k j i (u f k j i)) line rest H) as (u' & E & (O1 & O2)). exists u'.
    split; [exact E|]. split.
    + intros k' j' i' [X|X]; [inversion X; subst|auto].
      destruct (in_dec (trip_dec) (k', j', i') l) as [Y|Y]; [auto|].
      rewrite O2 by tauto. apply updf_same.
    + intros f' k' j' i' N. rewrite O2 by (intros (-> & X); apply N; cbn; tauto).
      apply updf_other. intros X. inversion X; subst. apply N. cbn. tauto.
Qed.
