(** * Reading the headers of the data sets, and copying the cells *)
From Coq Require Import String Ascii NArith ZArith Reals Bool Arith Lia Permutation Sorted List.
From Verif Require Import CStr CStrFacts MeshModel MeshProps PosModel GasModel VtkModel VtkSpec VtkSort.
Import ListNotations.
Open Scope nat_scope.

Lemma skipn_plus : forall A p q (b : list A), skipn (p + q) b = skipn q (skipn p b).
Proof. induction p; intros q [|x b]; cbn [skipn plus]; auto. destruct q; reflexivity. Qed.
Lemma skipn_more : forall A (b : list A) p x y, skipn p b = x ++ y -> skipn (p + length x) b = y.
Proof. intros A b p x y H. rewrite skipn_plus, H, skipn_app, skipn_all, Nat.sub_diag. reflexivity. Qed.
Lemma skipn_more' : forall A (b : list A) p x y L, length x = L -> skipn p b = x ++ y -> skipn (p + L) b = y.
Proof. intros A b p x y L <- H. apply skipn_more. auto. Qed.
Lemma skipn_nth : forall A (b : list A) p m, nth_error b (p + m) = nth_error (skipn p b) m.
Proof. intros A b p. revert b. induction p; intros [|x b] m; cbn [skipn plus nth_error]; auto. destruct m; reflexivity. Qed.
Definition spaces (l : str) : Prop := forall c, In c l -> isspace c = true.
Definition word (l : str) : Prop := l <> [] /\ length l < 128 /\ forall c, In c l -> isspace c = false.
Lemma span_space_skip : forall ws w r, spaces ws -> (forall c l, w ++ r = c :: l -> isspace c = false) -> span_space (ws ++ w ++ r) = length ws.
Proof.
  induction ws as [|c ws IH]; intros w r S W; cbn [app length span_space].
  - destruct (w ++ r) as [|c l] eqn:E; [reflexivity|]. cbn [span_space]. rewrite (W c l); reflexivity.
  - rewrite S by (left; auto). rewrite IH; auto. intros x I. apply S. right. auto.
Qed.
Lemma span_word_skip : forall w c r, (forall x, In x w -> isspace x = false) -> isspace c = true -> span_word (w ++ c :: r) = length w.
Proof. induction w as [|x w IH]; intros c r W C; cbn [app length span_word]; [rewrite C; reflexivity|]. rewrite W by (left; auto). rewrite IH; auto. intros y I. apply W. right. auto. Qed.
Lemma scan_ok : forall b p ws w c r, skipn p b = ws ++ w ++ c :: r -> spaces ws -> word w -> isspace c = true ->
  scan_s b p = Ok (Some (w, p + length ws + length w)) /\ skipn (p + length ws + length w) b = c :: r.
Proof.
  intros b p ws w c r E S (NE & L & W) C. unfold scan_s. rewrite E. rewrite span_space_skip; auto.
  2:{ intros x l X. destruct w as [|y w]; [congruence|]. cbn in X. injection X as <- _. apply W. left. auto. }
  rewrite (skipn_more _ _ _ _ _ E). rewrite span_word_skip by auto.
  destruct (Nat.eqb_spec (length w) 0) as [Z|_]; [destruct w; cbn in Z; congruence|]. destruct (Nat.leb_spec 128 (length w)); [lia|].
  rewrite firstn_app, firstn_all, Nat.sub_diag, firstn_O, app_nil_r. split; auto. apply skipn_more. apply skipn_more. exact E.
Qed.
Lemma scan_end : forall b p, skipn p b = [] -> scan_s b p = Ok None.
Proof. intros b p E. unfold scan_s. rewrite E. cbn [span_space]. rewrite Nat.add_0_r, E. reflexivity. Qed.
Lemma span_space_nth : forall l m, m < span_space l -> exists c, nth_error l m = Some c /\ isspace c = true.
Proof.
  induction l as [|c l IH]; intros m M; cbn [span_space] in M; [lia|]. destruct (isspace c) eqn:C; [|lia].
  destruct m; [exists c; auto|]. cbn [nth_error]. apply IH. lia.
Qed.
(** Whatever white space the data begin with, the tool goes back to the end of the line. *)
Lemma back_ok : forall b p c rest m, nth_error b p = Some c -> isspace c = false -> skipn (S p) b = LF :: rest -> m <= span_space (LF :: rest) -> back b (S p + m) = Ok (S (S p)).
Proof.
  intros b p c rest m N C E. induction m as [|m IH]; intros M.
  - rewrite Nat.add_0_r. cbn [back]. rewrite N, C. replace (nth_error b (S p)) with (Some LF); [rewrite Ascii.eqb_refl; reflexivity|].
    replace (S p) with (S p + 0) by lia. rewrite skipn_nth, E. reflexivity.
  - replace (S p + S m) with (S (S p + m)) by lia. cbn [back]. rewrite skipn_nth, E. destruct (span_space_nth (LF :: rest) m) as (x & -> & ->); [lia|]. apply IH. lia.
Qed.
Definition kind (f : fld) : str := if f_vec f then S_ "VECTORS" else S_ "SCALARS".
Lemma text_eq : forall f r, fld_text f ++ r = kind f ++ chSP :: f_name f ++ chSP :: S_ "float" ++ LF :: (if f_vec f then [] else S_ "LOOKUP_TABLE" ++ chSP :: S_ "default" ++ [LF]) ++ r.
Proof. intros f r. unfold fld_text, kind. destruct (f_vec f); rewrite <- !app_assoc; reflexivity. Qed.
Lemma word_lit : forall s, (negb (length s =? 0) && (length s <? 128) && forallb (fun c => negb (isspace c)) s) = true -> word s.
Proof.
  intros s H. apply andb_prop in H. destruct H as [H F]. apply andb_prop in H. destruct H as [N L]. split; [intros ->; discriminate|]. split; [apply Nat.ltb_lt; auto|].
  rewrite forallb_forall in F. intros c I. apply F in I. destruct (isspace c); auto.
Qed.
Lemma word_kind : forall f, word (kind f). Proof. intros f. unfold kind. destruct (f_vec f); apply word_lit; reflexivity. Qed.
Lemma sp_sp : spaces [chSP]. Proof. intros c [<-|[]]. reflexivity. Qed.
Lemma sp_lf : spaces [LF]. Proof. intros c [<-|[]]. reflexivity. Qed.
Lemma is_sp : isspace chSP = true. Proof. reflexivity. Qed.
Lemma is_lf : isspace LF = true. Proof. reflexivity. Qed.
Lemma head_ok : forall b p ws f rest want, spaces ws -> word (f_name f) -> skipn p b = ws ++ fld_text f ++ rest -> want = None \/ want = Some (kind f, f_name f, S_ "float") ->
  read_head want b p = Ok (Some (kind f, f_name f, S_ "float", p + length (ws ++ fld_text f))).
Proof.
  intros b p ws f rest want S W E WA.
  assert (LT : length (ws ++ fld_text f) = length ws + length (kind f) + 1 + length (f_name f) + 1 + 5 + 1 + (if f_vec f then 0 else 21)).
  { rewrite <- (app_nil_r (fld_text f)), text_eq, app_nil_r. repeat (rewrite app_length; cbn [length]). generalize (length (kind f)) (length (f_name f)). change (length (S_ "float")) with 5.
    destruct (f_vec f); intros; cbn [length]; [lia|]. rewrite app_length. change (length (S_ "LOOKUP_TABLE")) with 12. change (length (chSP :: S_ "default" ++ [LF])) with 9. lia. }
  rewrite text_eq in E. set (q := p + length (ws ++ fld_text f)). unfold read_head, scan3.
  destruct (scan_ok b p ws (kind f) chSP _ E S (word_kind f) is_sp) as (-> & E1). cbn [bind].
  destruct (scan_ok b _ [chSP] (f_name f) chSP _ E1 sp_sp W is_sp) as (-> & E2). cbn [bind].
  assert (WF : word (S_ "float")) by (apply word_lit; reflexivity).
  destruct (scan_ok b _ [chSP] (S_ "float") LF _ E2 sp_sp WF is_lf) as (-> & E3). cbn [bind].
  set (p3 := p + length ws + length (kind f) + length [chSP] + length (f_name f) + length [chSP] + length (S_ "float")) in *.
  assert (G : match want with None => str_eqb (S_ "float") (S_ "float") | Some (t0, v0, w0) => str_eqb t0 (kind f) && str_eqb v0 (f_name f) && str_eqb w0 (S_ "float") end = true).
  { assert (RF : forall s, str_eqb s s = true) by (intros; apply str_eqb_eq; reflexivity). destruct WA as [->| ->]; rewrite ?RF; reflexivity. }
  rewrite G. cbn [negb]. clear G. rewrite E3.
  assert (N3 : nth_error b (p3 - 1) = Some "t"%char).
  { replace (p3 - 1) with ((p + length ws + length (kind f) + length [chSP] + length (f_name f)) + 5) by (change (length (S_ "float")) with 5 in p3; unfold p3; cbn [length]; lia).
    rewrite skipn_nth, E2. reflexivity. }
  unfold kind in *. destruct (f_vec f) eqn:V.
  - change (str_eqb (S_ "VECTORS") (S_ "SCALARS")) with false. cbn match. cbn [bind].
    assert (P3 : p3 = Datatypes.S (p3 - 1)) by (change (length (S_ "float")) with 5 in p3; unfold p3; cbn [length]; lia).
    rewrite P3 at 1. rewrite (back_ok b (p3 - 1) "t"%char rest); [|exact N3|reflexivity|rewrite <- P3; exact E3|cbn [app]; lia].
    cbn [bind]. do 3 f_equal. unfold q. rewrite LT, P3. f_equal. change (length (S_ "float")) with 5 in p3. unfold p3. cbn [length]. lia.
  - change (str_eqb (S_ "SCALARS") (S_ "SCALARS")) with true. cbn match. cbn [app] in E3.
    assert (SS : span_space (LF :: (S_ "LOOKUP_TABLE" ++ chSP :: S_ "default" ++ [LF]) ++ rest) = 1) by reflexivity. cbn [app] in SS. rewrite SS. unfold scan2.
    assert (E4 : skipn (p3 + 1) b = [] ++ S_ "LOOKUP_TABLE" ++ chSP :: S_ "default" ++ LF :: rest) by (apply (skipn_more _ b p3 [LF]); exact E3).
    destruct (scan_ok b (p3 + 1) [] (S_ "LOOKUP_TABLE") chSP _ E4) as (-> & E5); [intros c []|apply word_lit; reflexivity|reflexivity|]. cbn [bind].
    destruct (scan_ok b _ [chSP] (S_ "default") LF _ E5 sp_sp) as (-> & E6); [apply word_lit; reflexivity|reflexivity|]. cbn [bind].
    change (str_eqb (S_ "LOOKUP_TABLE") (S_ "LOOKUP_TABLE") && str_eqb (S_ "default") (S_ "default")) with true. cbn match. cbn [bind].
    set (p6 := p3 + 1 + length (@nil ascii) + length (S_ "LOOKUP_TABLE") + length [chSP] + length (S_ "default")) in *.
    assert (P6 : p6 = Datatypes.S (p6 - 1)) by (change (length (S_ "LOOKUP_TABLE")) with 12 in p6; change (length (S_ "default")) with 7 in p6; unfold p6; cbn [length]; lia).
    assert (N6 : nth_error b (p6 - 1) = Some "t"%char).
    { replace (p6 - 1) with ((p3 + 1 + length (@nil ascii) + length (S_ "LOOKUP_TABLE")) + 7) by (change (length (S_ "LOOKUP_TABLE")) with 12; change (length (S_ "LOOKUP_TABLE")) with 12 in p6; change (length (S_ "default")) with 7 in p6; unfold p6; cbn [length]; lia).
      rewrite skipn_nth, E5. reflexivity. }
    rewrite E6. rewrite P6 at 1. rewrite (back_ok b (p6 - 1) "t"%char rest); [|exact N6|reflexivity|rewrite <- P6; exact E6|lia].
    cbn [bind]. do 3 f_equal. unfold q. rewrite LT, P6. f_equal. change (length (S_ "float")) with 5 in p3. change (length (S_ "LOOKUP_TABLE")) with 12 in p6. change (length (S_ "default")) with 7 in p6. unfold p6, p3. cbn [length]. lia.
Qed.
Lemma head_end : forall b p, skipn p b = [] -> read_head None b p = Ok None.
Proof. intros b p E. unfold read_head, scan3. rewrite scan_end by auto. reflexivity. Qed.

(** All files. *)
Lemma heads_ok : forall t v w ds (q : nat -> nat) ns P, NoDup ns -> (forall n, In n ns -> read_head (Some (t, v, w)) (body_of ds n) (P n) = Ok (Some (t, v, w, q n))) ->
  exists P', read_heads (t, v, w) ds ns P = Ok (Some P') /\ (forall n, In n ns -> P' n = q n) /\ (forall n, ~ In n ns -> P' n = P n).
Proof.
  intros t v w ds q ns. induction ns as [|n ns IH]; intros P ND H.
  - exists P. cbn [read_heads]. split; [reflexivity|]. split; [intros n []|auto].
  - inversion ND as [|x l NI ND']; subst. cbn [read_heads]. rewrite (H n) by (left; auto). cbn [bind].
    destruct (IH (setp P n (q n)) ND') as (P' & -> & A & B).
    { intros m M. unfold setp. destruct (Nat.eqb_spec m n) as [->|]; [contradiction|]. apply H. right. auto. }
    exists P'. split; [reflexivity|]. split.
    + intros m [<-|M]; [|auto]. rewrite B by auto. unfold setp. rewrite Nat.eqb_refl. reflexivity.
    + intros m M. rewrite B by (intros X; apply M; right; auto). unfold setp. destruct (Nat.eqb_spec m n) as [->|]; [exfalso; apply M; left; auto|reflexivity].
Qed.

(** Loops that move the positions and append to the output. *)
Lemma loop_out : forall (I : nat -> posn -> Prop) (o : nat -> str) n f s P out,
  (forall k P out, s <= k < s + n -> I k P -> exists P', f k (P, out) = Ok (P', out ++ o k) /\ I (S k) P') ->
  I s P -> exists P', loop n f s (P, out) = Ok (P', out ++ flat_map o (seq s n)) /\ I (s + n) P'.
Proof.
  intros I o n f. induction n as [|n IH]; intros s P out H IS.
  - exists P. cbn [loop seq flat_map]. rewrite app_nil_r, Nat.add_0_r. auto.
  - cbn [loop]. destruct (H s P out) as (P1 & -> & I1); [lia|auto|]. cbn [bind].
    destruct (IH (S s) P1 (out ++ o s)) as (P2 & -> & I2); [intros; apply H; auto; lia|auto|].
    exists P2. cbn [seq flat_map]. rewrite <- app_assoc. replace (s + S n) with (S s + n) by lia. auto.
Qed.
Section Copy.
Variables (ds : list vdom) (w nx ny nz : nat) (Nx Ny Nz : nat -> nat) (base : nat -> nat) (c : nat -> nat -> nat -> nat -> nat -> nat -> str).
Definition at3 (kg jg ig : nat) : nat := (kg * ny + jg) * nx + ig.
Hypothesis NZ : forall kg, kg < nz -> vN ds (kg * ny * nx) X3 = Nz kg.
Hypothesis NY : forall jg, jg < ny -> vN ds (jg * nx) X2 = Ny jg.
Hypothesis NX : forall ig, ig < nx -> vN ds ig X1 = Nx ig.
Hypothesis CL : forall kg jg ig k j i, kg < nz -> jg < ny -> ig < nx -> k < Nz kg -> j < Ny jg -> i < Nx ig ->
  length (c kg jg ig k j i) = 4 * w /\ firstn (4 * w) (skipn (base (at3 kg jg ig) + 4 * w * ((k * Ny jg + j) * Nx ig + i)) (body_of ds (at3 kg jg ig))) = c kg jg ig k j i.
(** How many cells of file (kg', jg', ig') have been read when the loops are at (kg, k, jg, j, ig, i). *)
Definition nread (kg k jg j ig i kg' jg' ig' : nat) : nat :=
  if kg' <? kg then Nz kg' * Ny jg' * Nx ig' else if kg <? kg' then 0 else
  if jg' <? jg then (k + 1) * Ny jg' * Nx ig' else if jg <? jg' then k * Ny jg' * Nx ig' else
  if ig' <? ig then (k * Ny jg' + j + 1) * Nx ig' else if ig <? ig' then (k * Ny jg' + j) * Nx ig' else (k * Ny jg' + j) * Nx ig' + i.
Definition inv (kg k jg j ig i : nat) (P : posn) : Prop :=
  forall kg' jg' ig', kg' < nz -> jg' < ny -> ig' < nx -> P (at3 kg' jg' ig') = base (at3 kg' jg' ig') + 4 * w * nread kg k jg j ig i kg' jg' ig'.
Ltac cases := repeat match goal with |- context [?x <? ?y] => destruct (Nat.ltb_spec x y) end.
Ltac meet x y := assert (x = y) by lia; subst x.
Lemma inv_change : forall kg k jg j ig i kg1 k1 jg1 j1 ig1 i1 P, (forall a b c, a < nz -> b < ny -> c < nx -> nread kg k jg j ig i a b c = nread kg1 k1 jg1 j1 ig1 i1 a b c) ->
  inv kg k jg j ig i P -> inv kg1 k1 jg1 j1 ig1 i1 P.
Proof. intros until P. intros H I a b e A B C. rewrite (I a b e A B C), H by auto. reflexivity. Qed.
Lemma at3_inj : forall a b c a' b' c', b < ny -> c < nx -> b' < ny -> c' < nx -> at3 a b c = at3 a' b' c' -> a = a' /\ b = b' /\ c = c'.
Proof. intros. unfold at3 in *. destruct (pos_inj nx ny c0 b a c' b' a') as (-> & -> & ->); auto. Qed.
Lemma read_write_ok : forall P out, inv 0 0 0 0 0 0 P -> exists P', read_write w ds nx ny nz (P, out) =
  Ok (P', out ++ flat_map (fun kg => flat_map (fun k => flat_map (fun jg => flat_map (fun j => flat_map (fun ig => flat_map (fun i => c kg jg ig k j i)
    (seq 0 (Nx ig))) (seq 0 nx)) (seq 0 (Ny jg))) (seq 0 ny)) (seq 0 (Nz kg))) (seq 0 nz)) /\ inv nz 0 0 0 0 0 P'.
Proof.
  intros P out I0. unfold read_write.
  apply (loop_out (fun kg => inv kg 0 0 0 0 0)); auto. intros kg P1 o1 B1 I1. rewrite NZ by lia.
  destruct (loop_out (fun k => inv kg k 0 0 0 0) (fun k => flat_map (fun jg => flat_map (fun j => flat_map (fun ig => flat_map (fun i => c kg jg ig k j i)
    (seq 0 (Nx ig))) (seq 0 nx)) (seq 0 (Ny jg))) (seq 0 ny)) (Nz kg)
    (fun _ => loop ny (fun jg => loop (vN ds (jg * nx) X2) (fun _ =>
    loop nx (fun ig => loop (vN ds ig X1) (fun _ => copy_cell w ds ((kg * ny + jg) * nx + ig)) 0) 0) 0) 0) 0 P1 o1) as (P2 & E2 & I2); auto.
  2:{ exists P2. split; [exact E2|]. eapply inv_change; [|exact I2]. intros a b e A B C. unfold nread. cases; try lia; try nia; try (meet a kg; lia); meet a kg; nia. }
  intros k P2 o2 B2 I2.
  destruct (loop_out (fun jg => inv kg k jg 0 0 0) (fun jg => flat_map (fun j => flat_map (fun ig => flat_map (fun i => c kg jg ig k j i)
    (seq 0 (Nx ig))) (seq 0 nx)) (seq 0 (Ny jg))) ny
    (fun jg => loop (vN ds (jg * nx) X2) (fun _ =>
    loop nx (fun ig => loop (vN ds ig X1) (fun _ => copy_cell w ds ((kg * ny + jg) * nx + ig)) 0) 0) 0) 0 P2 o2) as (P3 & E3 & I3); auto.
  2:{ exists P3. split; [exact E3|]. eapply inv_change; [|exact I3]. intros a b e A B C. unfold nread. cases; try lia; nia. }
  intros jg P3 o3 B3 I3. rewrite NY by lia.
  destruct (loop_out (fun j => inv kg k jg j 0 0) (fun j => flat_map (fun ig => flat_map (fun i => c kg jg ig k j i) (seq 0 (Nx ig))) (seq 0 nx)) (Ny jg)
    (fun _ => loop nx (fun ig => loop (vN ds ig X1) (fun _ => copy_cell w ds ((kg * ny + jg) * nx + ig)) 0) 0) 0 P3 o3) as (P4 & E4 & I4); auto.
  2:{ exists P4. split; [exact E4|]. eapply inv_change; [|exact I4]. intros a b e A B C. unfold nread. cases; try lia; try nia; try (meet b jg; lia); meet b jg; nia. }
  intros j P4 o4 B4 I4.
  destruct (loop_out (fun ig => inv kg k jg j ig 0) (fun ig => flat_map (fun i => c kg jg ig k j i) (seq 0 (Nx ig))) nx
    (fun ig => loop (vN ds ig X1) (fun _ => copy_cell w ds ((kg * ny + jg) * nx + ig)) 0) 0 P4 o4) as (P5 & E5 & I5); auto.
  2:{ exists P5. split; [exact E5|]. eapply inv_change; [|exact I5]. intros a b e A B C. unfold nread. cases; try lia; nia. }
  intros ig P5 o5 B5 I5. rewrite NX by lia.
  destruct (loop_out (fun i => inv kg k jg j ig i) (fun i => c kg jg ig k j i) (Nx ig)
    (fun _ => copy_cell w ds ((kg * ny + jg) * nx + ig)) 0 P5 o5) as (P6 & E6 & I6); auto.
  2:{ exists P6. split; [exact E6|]. eapply inv_change; [|exact I6]. intros a b e A B C. unfold nread. cases; try lia; try nia; try (meet e ig; lia); meet e ig; nia. }
  intros i P6 o6 B6 I6. unfold copy_cell. fold (at3 kg jg ig).
  destruct (CL kg jg ig k j i) as (L & E); try lia.
  assert (PP := I6 kg jg ig ltac:(lia) ltac:(lia) ltac:(lia)).
  assert (NR : nread kg k jg j ig i kg jg ig = (k * Ny jg + j) * Nx ig + i) by (unfold nread; rewrite !Nat.ltb_irrefl; reflexivity). rewrite NR in PP.
  rewrite PP, E, L, Nat.eqb_refl. eexists. split; [reflexivity|].
  intros a b e A B C. unfold setp. destruct (Nat.eqb_spec (at3 a b e) (at3 kg jg ig)) as [X|X].
  - apply at3_inj in X; try lia. destruct X as (-> & -> & ->). unfold nread. rewrite !Nat.ltb_irrefl. nia.
  - rewrite (I6 a b e A B C). f_equal. f_equal. unfold nread. cases; try lia. exfalso. apply X. assert (a = kg) by lia. assert (b = jg) by lia. assert (e = ig) by lia. subst. reflexivity.
Qed.
End Copy.
