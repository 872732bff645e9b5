(** Restart files: restart_grids on the text that dump_restart wrote. *)
From Coq Require Import String Ascii NArith ZArith Bool Arith Lia List.
From Verif Require Import CStr ParModel UtilModel ResModel ResSpec ResFacts ResWrite.
Import ListNotations.
Open Scope Z_scope.

Ltac plain_tac := split; [vm_compute; intuition discriminate|apply Nat.leb_le; vm_compute; reflexivity].

Section Rd.
Context {R : Type} (M : mach R) (c : rcfg).
Hypothesis OK : mach_ok M.

Lemma read_fld_ok : forall exp lab f ks ke js je is_ ie u u0 line rest, plain lab -> prefixb exp (lab ++ [LF]) = true ->
  exists u', read_fld M exp f ks ke js je is_ ie (u0, (line, fld_text M lab f ks ke js je is_ ie u ++ rest)) =
      Ok (u', (lab ++ [LF], rest)) /\ over f (cells ks ke js je is_ ie) u u0 u'.
Proof.
  intros exp lab f ks ke js je is_ ie u u0 line rest P Q. unfold read_fld, fld_text. cbn [snd].
  rewrite <- app_assoc, (label_ok exp lab) by auto. cbn [bind fst].
  rewrite (for3_fold _ (fun k j i us => let '(v, s) := us in let '(x, s) := fread (cR M) (v f k j i) s in (updf v f k j i x, s))).
  destruct (reads_ok R M f u (cells ks ke js je is_ ie) u0 (lab ++ [LF]) rest OK) as (u' & E & O).
  exists u'. split; [|exact O]. f_equal. exact E.
Qed.

(** [set_cells] *)
Lemma set_cells_ok : forall f (g : grid R) v u, (forall w w' k j i,
    (forall f' k j i, f' <> f -> w f' k j i = w' f' k j i) -> v w k j i = v w' k j i) ->
  let u' := set_cells f g v u in
  (forall k j i, zone g 0 0 0 k j i -> u' f k j i = v u k j i) /\
  (forall f' k j i, ~ (f' = f /\ zone g 0 0 0 k j i) -> u' f' k j i = u f' k j i).
Proof.
  intros f g v u Hv. cbv zeta. unfold set_cells.
  rewrite (for3_fold _ (fun k j i u => updf u f k j i (v u k j i))).
  set (l := cells _ _ _ _ _ _).
  assert (H : forall l w, (forall f' k j i, f' <> f -> w f' k j i = u f' k j i) ->
     let u' := fold_left (fun s '(k, j, i) => updf s f k j i (v s k j i)) l w in
     (forall k j i, In (k, j, i) l -> u' f k j i = v u k j i) /\
     (forall f' k j i, ~ (f' = f /\ In (k, j, i) l) -> u' f' k j i = w f' k j i)).
  { clear l. induction l as [|[[k j] i] l IH]; intros w Hw; cbv zeta.
    - split; [intros ? ? ? []|auto].
    - cbn [fold_left].
      destruct (IH (updf w f k j i (v w k j i))) as (A & B).
      { intros f' k' j' i' N. rewrite updf_other by congruence. auto. }
      split.
      + intros k' j' i' [X|X]; [inversion X; subst|auto].
        destruct (in_dec trip_dec (k', j', i') l) as [Y|Y]; [auto|].
        rewrite B by tauto. rewrite updf_same. apply Hv. auto.
      + intros f' k' j' i' N. rewrite B by (intros (-> & X); apply N; cbn; tauto).
        apply updf_other. intros X. inversion X; subst. apply N. cbn. tauto. }
  destruct (H l u) as (A & B); [auto|]. unfold zone. split.
  - intros k j i Z. apply A. subst l. apply cells_in. lia.
  - intros f' k j i N. apply B. intros (-> & X). apply N. split; auto. subst l. apply cells_in in X. lia.
Qed.

Lemma bind_ex : forall A B (x : res A) (f : A -> res B) a (P : B -> Prop), x = Ok a ->
  (exists b, f a = Ok b /\ P b) -> exists b, bind x f = Ok b /\ P b.
Proof. intros A B x f a P -> H. exact H. Qed.
Ltac step := eapply bind_ex; [eassumption|cbv beta].

Lemma read_field_ok : forall g g0 b u0 line rest, same_box g g0 ->
  exists us, read_field M g0 b (u0, (line, field_text M g b ++ rest)) = Ok us /\
     snd us = (S_ "3-FIELD" ++ [LF], rest) /\
     (forall k j i, zone g 0 0 (b2z (w1 b)) k j i -> fst us FB1i k j i = g_u g FB1i k j i) /\
     (forall k j i, zone g 0 (b2z (w2 b)) 0 k j i -> fst us FB2i k j i = g_u g FB2i k j i) /\
     (forall k j i, zone g (b2z (w3 b)) 0 0 k j i -> fst us FB3i k j i = g_u g FB3i k j i) /\
     centred M b g (fst us) /\
     (forall f k j i,
       ~ ((f = FB1c \/ f = FB2c \/ f = FB3c) /\ zone g 0 0 0 k j i) ->
       ~ (f = FB1i /\ zone g 0 0 (b2z (w1 b)) k j i) ->
       ~ (f = FB2i /\ zone g 0 (b2z (w2 b)) 0 k j i) ->
       ~ (f = FB3i /\ zone g (b2z (w3 b)) 0 0 k j i) -> fst us f k j i = u0 f k j i).
Proof.
  intros g g0 b u0 line rest SB. unfold same_box in SB.
  injection SB as B1 B2 B3 B4 B5 B6.
  unfold read_field, field_text. rewrite <- B1, <- B2, <- B3, <- B4, <- B5, <- B6, <- !app_assoc.
  edestruct (read_fld_ok (S_ "1-FIELD") (S_ "1-FIELD") FB1i) as (u1 & E1 & O1); [plain_tac|reflexivity|]. step.
  edestruct (read_fld_ok (S_ "2-FIELD") (S_ "2-FIELD") FB2i) as (u2 & E2 & O2); [plain_tac|reflexivity|]. step.
  edestruct (read_fld_ok (S_ "3-FIELD") (S_ "3-FIELD") FB3i) as (u3 & E3 & O3); [plain_tac|reflexivity|]. step.
  clear E1 E2 E3. eexists. split; [reflexivity|]. cbv zeta. cbn [fst snd].
  assert (BX : forall k j i, zone g0 0 0 0 k j i <-> zone g 0 0 0 k j i) by (unfold zone; intros; lia).
  set (v1 := fun (u : arrays R) k j i => if w1 b then cc1 M i (u FB1i k j i) (u FB1i k j (i + 1)) else u FB1i k j i).
  set (v2 := fun (u : arrays R) k j i => if w2 b then cc2 M j (u FB2i k j i) (u FB2i k (j + 1) i) else u FB2i k j i).
  set (v3 := fun (u : arrays R) k j i => if w3 b then cc3 M k (u FB3i k j i) (u FB3i (k + 1) j i) else u FB3i k j i).
  destruct (set_cells_ok FB1c g0 v1 u3) as (P1 & Q1).
  { intros w w' k j i H. subst v1. cbv beta. rewrite !H by discriminate. reflexivity. }
  set (a1 := set_cells FB1c g0 v1 u3) in *.
  destruct (set_cells_ok FB2c g0 v2 a1) as (P2 & Q2).
  { intros w w' k j i H. subst v2. cbv beta. rewrite !H by discriminate. reflexivity. }
  set (a2 := set_cells FB2c g0 v2 a1) in *.
  destruct (set_cells_ok FB3c g0 v3 a2) as (P3 & Q3).
  { intros w w' k j i H. subst v3. cbv beta. rewrite !H by discriminate. reflexivity. }
  set (a3 := set_cells FB3c g0 v3 a2) in *. clearbody a3.
  destruct O1 as (O1 & O1'), O2 as (O2 & O2'), O3 as (O3 & O3').
  assert (F : forall f k j i, f <> FB1c -> f <> FB2c -> f <> FB3c -> a3 f k j i = u3 f k j i).
  { intros f k j i N1 N2 N3. rewrite Q3, Q2, Q1 by tauto. reflexivity. }
  split; [reflexivity|]. unfold zone in *. repeat split.
  - intros k j i H. rewrite F by discriminate. rewrite O3', O2' by (intros (X & _); discriminate).
    apply O1. apply cells_in. lia.
  - intros k j i H. rewrite F by discriminate. rewrite O3' by (intros (X & _); discriminate).
    apply O2. apply cells_in. lia.
  - intros k j i H. rewrite F by discriminate. apply O3. apply cells_in. lia.
  - rewrite Q3 by (intros (X & _); discriminate). rewrite Q2 by (intros (X & _); discriminate).
    rewrite P1 by (apply BX; auto). subst v1. cbv beta. rewrite !F by discriminate. reflexivity.
  - rewrite Q3 by (intros (X & _); discriminate). rewrite P2 by (apply BX; auto). subst v2. cbv beta.
    rewrite !(Q1 FB2i) by (intros (X & _); discriminate). rewrite !F by discriminate. reflexivity.
  - rewrite P3 by (apply BX; auto). subst v3. cbv beta.
    rewrite !(Q2 FB3i) by (intros (X & _); discriminate). rewrite !(Q1 FB3i) by (intros (X & _); discriminate).
    rewrite !F by discriminate. reflexivity.
  - intros f k j i N1 N2 N3 N4.
    rewrite Q3 by (intros (X & Y); apply N1; split; [tauto|apply BX; exact Y]).
    rewrite Q2 by (intros (X & Y); apply N1; split; [tauto|apply BX; exact Y]).
    rewrite Q1 by (intros (X & Y); apply N1; split; [tauto|apply BX; exact Y]).
    rewrite O3' by (intros (X & Y); apply N4; split; [exact X|apply cells_in in Y; lia]).
    rewrite O2' by (intros (X & Y); apply N3; split; [exact X|apply cells_in in Y; lia]).
    rewrite O1' by (intros (X & Y); apply N2; split; [exact X|apply cells_in in Y; lia]). reflexivity.
Qed.

(** ** Particles *)
Definition with_parts (g : grid R) (a : Z -> part R) : grid R :=
  Grid (g_is g) (g_ie g) (g_js g) (g_je g) (g_ks g) (g_ke g) (g_time g) (g_dt g) (g_u g) (g_np g) (g_arr g) a.
Lemma read_part_ok : forall A (C : codec A) dom lab get set vals (g : grid R) line rest, codec_ok C dom ->
  Forall dom vals -> plain lab -> g_np g = Z.of_nat (length vals) -> g_np g <= g_arr g ->
  exists a, read_part C lab get set (g, (line, head_text lab ++ flat_map (c_enc C) vals ++ rest)) =
      Ok (with_parts g a, (lab ++ [LF], rest)) /\
    forall n v, nth_error vals n = Some v -> a (Z.of_nat n) = set v (g_part g (Z.of_nat n)).
Proof.
  intros A C dom lab get set vals g line rest CO D P NP AR. unfold read_part. cbn [fst snd].
  rewrite label_ok by (auto; apply prefixb_app). cbn [bind]. rewrite fori_fold.
  set (body := fun (s : res (grid R * rst)) (x : Z) => _).
  assert (H : forall vals lo a, Forall dom vals -> 0 <= lo -> lo + Z.of_nat (length vals) = g_np g ->
    exists a', fold_left body (zrange lo (g_np g)) (Ok (with_parts g a, (lab ++ [LF], flat_map (c_enc C) vals ++ rest))) =
       Ok (with_parts g a', (lab ++ [LF], rest)) /\
       (forall n v, nth_error vals n = Some v -> a' (lo + Z.of_nat n) = set v (a (lo + Z.of_nat n))) /\
       (forall p, p < lo -> a' p = a p)).
  { clear vals D NP. induction vals as [|v vals IH]; intros lo a D L E.
    - cbn [length] in E. rewrite zrange_nil by lia. exists a. split; [reflexivity|]. split; auto.
      intros [|n]; discriminate.
    - cbn [length] in E. rewrite zrange_cons by lia. cbn [fold_left flat_map]. unfold body at 2. cbn [bind].
      inversion D as [|? ? D1 D2]; subst.
      rewrite <- app_assoc, (fread_ok _ C dom) by auto. unfold upd_part.
      destruct (Z.leb_spec 0 lo) as [_|X]; [|lia].
      cbn [g_arr with_parts].
      destruct (Z.ltb_spec lo (g_arr g)) as [_|X]; [|lia]. cbn [andb bind].
      destruct (IH (lo + 1) (upd a lo (set v (a lo)))) as (a' & E' & H1 & H2); [auto|lia|lia|].
      exists a'. split; [exact E'|]. split.
      + intros [|n] w Hn; cbn [nth_error] in Hn.
        * injection Hn as <-. rewrite Z.add_0_r, H2 by lia. unfold upd. rewrite Z.eqb_refl. reflexivity.
        * apply H1 in Hn. replace (lo + Z.of_nat (S n)) with (lo + 1 + Z.of_nat n) by lia. rewrite Hn. f_equal.
          unfold upd. destruct (Z.eqb_spec (lo + 1 + Z.of_nat n) lo); [lia|reflexivity].
      + intros p Hp. rewrite H2 by lia. unfold upd. destruct (Z.eqb_spec p lo); [lia|reflexivity]. }
  destruct (H vals 0 (g_part g) D) as (a' & E & H1 & _); [lia|lia|].
  exists a'. split; [destruct g; exact E|exact H1].
Qed.
Lemma flat_map_enc : forall A (C : codec A) (get : part R -> A) l,
  flat_map (fun p => c_enc C (get p)) l = flat_map (c_enc C) (map get l).
Proof. intros. rewrite flat_map_map. reflexivity. Qed.

Lemma upd_t_ok : forall (t : glob R) f i v, in_types t i = true -> upd_t t f i v =
    Ok (Glob (t_n t) (t_alloc t) (fun f' i' => if tfld_eqb f' f && (i' =? i) then v else t_r t f' i')
             (t_integ t) (t_num t) (t_alam t) (n_sts t) (nu_sts t)).
Proof. intros. unfold upd_t. rewrite H. reflexivity. Qed.
Lemma tfld_eqb_eq : forall a b, tfld_eqb a b = true <-> a = b.
Proof. intros [] []; cbn; split; congruence. Qed.
Definition with_r (t : glob R) (r : tfld -> Z -> R) : glob R :=
  Glob (t_n t) (t_alloc t) r (t_integ t) (t_num t) (t_alam t) (n_sts t) (nu_sts t).
Lemma read_t_ok : forall f i t0 r line x rest, in_types t0 i = true ->
  exists r', read_t M f i (with_r t0 r, (line, c_enc (cR M) x ++ rest)) = Ok (with_r t0 r', (line, rest)) /\
    r' f i = x /\ forall f' i', (f', i') <> (f, i) -> r' f' i' = r f' i'.
Proof.
  intros f i t0 r line x rest I. unfold read_t. cbn [fst snd]. rewrite (fread_ok _ _ (fun _ => True)) by (apply OK || exact Logic.I).
  rewrite upd_t_ok by exact I. cbn [bind]. eexists. split; [reflexivity|]. cbn [t_r with_r]. split.
  - replace (tfld_eqb f f) with true by (symmetry; apply tfld_eqb_eq; auto). rewrite Z.eqb_refl. reflexivity.
  - intros f' i' N. destruct (tfld_eqb f' f) eqn:E; [|reflexivity]. apply tfld_eqb_eq in E. subst.
    destruct (Z.eqb_spec i' i); [congruence|reflexivity].
Qed.
Lemma fold_step : forall S X (f : S -> X -> S) x l s s' r, f s x = s' -> fold_left f l s' = r -> fold_left f (x :: l) s = r.
Proof. intros S X f x l s s' r E H. cbn [fold_left]. rewrite E. exact H. Qed.
Definition read_one (x : Z) (ts : glob R * rst) : res (glob R * rst) :=
  ts <- (if r_feed c then read_t M TM x ts else Ok ts);;
  ts <- read_t M TRad x ts;;
  ts <- read_t M TRho x ts;;
  ts <- read_t M TTs x ts;;
  read_t M TRa x ts.
Lemma read_one_ok : forall (t t0 : glob R) i r line rest, in_types t0 i = true ->
  exists r', read_one i (with_r t0 r, (line, type_text M c t i ++ rest)) = Ok (with_r t0 r', (line, rest)) /\
    (forall f, (f = TM -> r_feed c = true) -> r' f i = t_r t f i) /\
    (forall i' f, i' <> i -> r' f i' = r f i').
Proof.
  intros t t0 i r line rest Ii. unfold read_one, type_text.
  assert (W : exists r0, (if r_feed c then read_t M TM i (with_r t0 r, (line, ((if r_feed c then c_enc (cR M) (t_r t TM i) else []) ++
      c_enc (cR M) (t_r t TRad i) ++ c_enc (cR M) (t_r t TRho i) ++ c_enc (cR M) (t_r t TTs i) ++ c_enc (cR M) (t_r t TRa i)) ++ rest))
      else Ok (with_r t0 r, (line, ((if r_feed c then c_enc (cR M) (t_r t TM i) else []) ++
      c_enc (cR M) (t_r t TRad i) ++ c_enc (cR M) (t_r t TRho i) ++ c_enc (cR M) (t_r t TTs i) ++ c_enc (cR M) (t_r t TRa i)) ++ rest))) =
      Ok (with_r t0 r0, (line, c_enc (cR M) (t_r t TRad i) ++ c_enc (cR M) (t_r t TRho i) ++ c_enc (cR M) (t_r t TTs i) ++
          c_enc (cR M) (t_r t TRa i) ++ rest)) /\
      (r_feed c = true -> r0 TM i = t_r t TM i) /\
        forall f' i', (f', i') <> (TM, i) -> r0 f' i' = r f' i').
  { rewrite <- !app_assoc. destruct (r_feed c).
    - edestruct (read_t_ok TM i) as (r0 & E & A & B); [exact Ii|]. exists r0. split; [exact E|]. split; auto.
    - exists r. split; [reflexivity|]. split; [discriminate|auto]. }
  destruct W as (r0 & E0 & A0 & B0).
  edestruct (read_t_ok TRad i) as (r1 & E1 & A1 & B1); [exact Ii|].
  edestruct (read_t_ok TRho i) as (r2 & E2 & A2 & B2); [exact Ii|].
  edestruct (read_t_ok TTs i) as (r3 & E3 & A3 & B3); [exact Ii|].
  edestruct (read_t_ok TRa i) as (r4 & E4 & A4 & B4); [exact Ii|].
  exists r4. split.
  { eapply bind_eq; [exact E0|]. eapply bind_eq; [exact E1|]. eapply bind_eq; [exact E2|].
    eapply bind_eq; [exact E3|]. exact E4. }
  split.
  - intros f F. destruct f.
    + rewrite B4, B3, B2, B1 by congruence. apply A0. auto.
    + rewrite B4, B3, B2 by congruence. exact A1.
    + rewrite B4, B3 by congruence. exact A2.
    + rewrite B4 by congruence. exact A3.
    + exact A4.
  - intros i' f N. rewrite B4, B3, B2, B1, B0 by congruence. reflexivity.
Qed.
Lemma read_table_ok : forall (t t0 : glob R) l r line rest, (forall i, In i l -> in_types t0 i = true) ->
  exists r', fold_left (fun s x => ts <- s;; read_one x ts) l (Ok (with_r t0 r, (line, flat_map (type_text M c t) l ++ rest))) =
    Ok (with_r t0 r', (line, rest)) /\
    (forall i f, In i l -> (f = TM -> r_feed c = true) -> r' f i = t_r t f i) /\
    (forall i f, ~ In i l -> r' f i = r f i).
Proof.
  intros t t0 l. induction l as [|i l IH]; intros r line rest I.
  - exists r. split; [reflexivity|]. split; [intros ? ? []|auto].
  - cbn [flat_map]. rewrite <- app_assoc.
    destruct (read_one_ok t t0 i r line (flat_map (type_text M c t) l ++ rest)) as (r1 & E1 & A1 & B1); [apply I; left; auto|].
    destruct (IH r1 line rest) as (r' & E' & A' & B'); [intros; apply I; right; auto|].
    exists r'. split; [eapply fold_step; [exact E1|exact E']|]. split.
    + intros i' f [<-|Hi] F; [|auto].
      destruct (in_dec Z.eq_dec i l) as [Y|Y]; [auto|]. rewrite B' by auto. auto.
    + intros i' f N. rewrite B' by (intros X; apply N; right; auto). apply B1. intros ->. apply N. left. auto.
Qed.
Definition with_i (t : glob R) (a : Z -> Z) : glob R :=
  Glob (t_n t) (t_alloc t) (t_r t) a (t_num t) (t_alam t) (n_sts t) (nu_sts t).
Lemma read_integ_ok : forall (t t0 : glob R) l a line rest, (forall i, In i l -> in_types t0 i = true) ->
  (forall i, In i l -> fits_in 15 (t_integ t i)) ->
  exists a', fold_left (fun s x => '(t, s) <- s;;
      let '(v, s) := fread (cS M) (t_integ t x) s in t <- upd_integ t x v;; Ok (t, s)) l
      (Ok (with_i t0 a, (line, flat_map (fun i => c_enc (cS M) (t_integ t i)) l ++ rest))) =
    Ok (with_i t0 a', (line, rest)) /\
    (forall i, In i l -> a' i = t_integ t i) /\
    (forall i, ~ In i l -> a' i = a i).
Proof.
  intros t t0 l. induction l as [|i l IH]; intros a line rest I F.
  - exists a. split; [reflexivity|]. split; [intros ? []|auto].
  - cbn [fold_left flat_map bind]. rewrite <- app_assoc.
    rewrite (fread_ok _ _ (fits_in 15)) by (apply OK || apply F; left; auto).
    unfold upd_integ. change (in_types (with_i t0 a) i) with (in_types t0 i).
    rewrite I by (left; auto). cbn [bind].
    destruct (IH (upd a i (t_integ t i)) line rest) as (a' & E & A & B); [intros; apply I; right; auto|intros; apply F; right; auto|].
    exists a'. split; [exact E|]. split.
    + intros i' [<-|Hi]; [|auto]. destruct (in_dec Z.eq_dec i l) as [Y|Y]; [auto|]. rewrite B by auto.
      unfold upd. rewrite Z.eqb_refl. reflexivity.
    + intros i' N. rewrite B by (intros X; apply N; right; auto). unfold upd.
      destruct (Z.eqb_spec i' i) as [->|]; [exfalso; apply N; left; auto|reflexivity].
Qed.
End Rd.
