(** Restart files that have been cut short. *)
From Coq Require Import String Ascii NArith ZArith Bool Arith Lia List.
From Verif Require Import CStr CStrFacts ParModel UtilModel ResModel ResSpec ResFacts ResWrite ResRead ResBack ResAll ResFile.
Import ListNotations.
Open Scope Z_scope.

(** [q] is the start of [T], and there is more of [T] *)
Definition sp (q T : str) : Prop := exists z, z <> [] /\ T = q ++ z.
(** The line does not start with the label *)
Definition av (lab line : str) : Prop := prefixb lab line = false.
Definition isl (lab line : str) : Prop := line = lab \/ line = lab ++ [LF].

Lemma sp_nil : forall T, T <> [] -> sp [] T.
Proof. intros T H. exists T. auto. Qed.
Lemma app_cmp : forall (a b c d : str), a ++ b = c ++ d -> (exists e, c = a ++ e /\ b = e ++ d) \/ (exists e, a = c ++ e /\ d = e ++ b).
Proof.
  induction a as [|x a IH]; intros b c d E.
  - left. exists c. auto.
  - destruct c as [|y c]; [right; exists (x :: a); auto|]. cbn in E. injection E as -> E.
    destruct (IH _ _ _ E) as [(e & -> & ->)|(e & -> & ->)]; [left|right]; exists e; auto.
Qed.
(** either the cut is in the first part or the first part is there *)
Lemma sp_split : forall q A rest, sp q (A ++ rest) -> sp q A \/ exists q', q = A ++ q' /\ sp q' rest.
Proof.
  intros q A rest (z & NZ & E). destruct (app_cmp _ _ _ _ E) as [(e & -> & ->)|(e & -> & ->)].
  - right. exists e. split; [auto|]. exists z. auto.
  - destruct e as [|x e].
    + right. exists []. rewrite !app_nil_r. split; [auto|]. exists rest. auto.
    + left. exists (x :: e). split; [discriminate|auto].
Qed.
Lemma sp_len : forall q T, sp q T -> (length q < length T)%nat.
Proof. intros q T (z & NZ & ->). rewrite app_length. destruct z; [congruence|cbn; lia]. Qed.

Lemma prefixb_len : forall a b, prefixb a b = true -> (length a <= length b)%nat.
Proof. intros a b H. destruct (prefixb_sub _ _ H) as (y & ->). rewrite app_length. lia. Qed.
Lemma short_av : forall a b, (length b < length a)%nat -> av a b.
Proof. intros a b H. unfold av. destruct (prefixb a b) eqn:E; [|auto]. apply prefixb_len in E. lia. Qed.

Lemma fgets_n_short : forall q n, ~ In LF q -> (length q <= n)%nat -> fgets_n n q = (q, []).
Proof.
  induction q as [|x q IH]; intros n N L; [destruct n; reflexivity|].
  destruct n as [|n]; [cbn in L; lia|]. cbn [fgets_n]. destruct (Ascii.eqb x LF) eqn:E.
  - apply Ascii.eqb_eq in E. exfalso. apply N. left; auto.
  - rewrite IH; auto; [intros X; apply N; right; auto|cbn in L; lia].
Qed.
Lemma get_short : forall q line, ~ In LF q -> (length q <= 100)%nat -> q <> [] -> get_line (line, q) = (q, []).
Proof.
  intros q line N L NE. unfold get_line, fgets. cbn [snd].
  pose proof (fgets_n_short q (MAXLEN - 1) N ltac:(unfold MAXLEN; lia)) as E. destruct q; [congruence|]. rewrite E. reflexivity.
Qed.
Lemma get_end : forall line, get_line (line, []) = (line, []).
Proof. reflexivity. Qed.
Lemma in_sub : forall (a b : str) x, ~ In x (a ++ b) -> ~ In x a.
Proof. intros a b x H I. apply H. apply in_app_iff; auto. Qed.

Lemma nnil : forall (a b : str), b <> [] -> a ++ b <> [].
Proof. intros a b H E. apply H. destruct (app_eq_nil _ _ E). assumption. Qed.

Section Cut.
Context {R : Type} (M : mach R) (c : rcfg).
Hypothesis OK : mach_ok M.
Hypothesis NS : r_nscal c <= 10 ^ 8.
Hypothesis NP : r_part c = false.

(** A label that is cut *)
Lemma label_cut : forall lab line q, plain lab -> lab <> [] -> av lab line -> sp q (LF :: lab) -> label lab (line, q) = Fatal.
Proof.
  intros lab line q (N & L) NE A S. unfold label.
  assert (F : forall l s, av lab l -> (if prefixb lab (fst (l, s)) then Ok (l, s) else Fatal) = @Fatal (str * str)).
  { intros l s X. cbn. unfold av in X. rewrite X. reflexivity. }
  destruct q as [|x q].
  - rewrite !get_end. apply F. auto.
  - destruct S as (z & NZ & E). injection E as <- E.
    change (LF :: q) with ([] ++ LF :: q). rewrite get_line_ok by (split; [intros []|cbn; lia]). cbn [app].
    destruct q as [|y q].
    + rewrite get_end. apply F. destruct lab as [|a lab]; [congruence|]. unfold av. change (prefixb (a :: lab) [LF]) with (Ascii.eqb a LF && prefixb lab []).
      destruct (Ascii.eqb_spec a LF) as [->|X]; [exfalso; apply N; left; auto|reflexivity].
    + rewrite get_short.
      * apply F. apply short_av. rewrite E, app_length. destruct z; [congruence|cbn; lia].
      * rewrite E in N. eapply in_sub; eauto.
      * rewrite E, app_length in L. lia.
      * discriminate.
Qed.
(** A label in a file that is cut later *)
Lemma label_sp : forall lab line q rest, plain lab -> lab <> [] -> av lab line -> sp q (head_text lab ++ rest) -> rest <> [] ->
  label lab (line, q) = Fatal \/ exists s', label lab (line, q) = Ok s' /\ isl lab (fst s') /\ sp (snd s') rest.
Proof.
  intros lab line q rest P NE A S NR.
  replace (head_text lab ++ rest) with ((LF :: lab) ++ LF :: rest) in S by (unfold head_text; cbn; rewrite <- app_assoc; reflexivity).
  destruct (sp_split _ _ _ S) as [C|(q' & -> & C)].
  - left. apply label_cut; auto.
  - right. destruct q' as [|x q'].
    + exists (lab, []). split; [|split; [left; reflexivity|apply sp_nil; auto]].
      unfold label. rewrite app_nil_r. change (LF :: lab) with ([] ++ LF :: lab).
      rewrite get_line_ok by (split; [intros []|cbn; lia]). destruct P as (N & L).
      rewrite get_short by (auto; lia). cbn [fst].
      pose proof (prefixb_app lab []) as X. rewrite app_nil_r in X. rewrite X. reflexivity.
    + destruct C as (z & NZ & E). injection E as <- E.
      exists (lab ++ [LF], q'). split; [|split; [right; reflexivity|exists z; auto]].
      change ((LF :: lab) ++ LF :: q') with (LF :: lab ++ LF :: q').
      replace (LF :: lab ++ LF :: q') with (head_text lab ++ q') by (unfold head_text; cbn; rewrite <- app_assoc; reflexivity).
      apply label_ok; [auto|]. apply prefixb_app.
Qed.
(** A value *)
Lemma fread_sp : forall A (C : codec A) dom a old line q rest, codec_ok C dom -> dom a -> sp q (c_enc C a ++ rest) -> rest <> [] ->
  exists x q', fread C old (line, q) = (x, (line, q')) /\ sp q' rest.
Proof.
  intros A C dom a old line q rest (_ & H) D S NR. destruct (H a D) as (L & _). unfold fread. cbn [fst snd].
  destruct (sp_split _ _ _ S) as [X|(q' & -> & X)].
  - apply sp_len in X. rewrite L in X. destruct (Nat.leb_spec (c_size C) (length q)) as [Y|Y]; [lia|].
    eexists _, _. split; [reflexivity|]. apply sp_nil. auto.
  - rewrite app_length, L. destruct (Nat.leb_spec (c_size C) (c_size C + length q')) as [Y|Y]; [|lia].
    eexists _, _. split; [reflexivity|]. rewrite <- L, skipn_app, Nat.sub_diag, skipn_all. exact X.
Qed.
Lemma reads_sp : forall f u l u0 line q rest, rest <> [] ->
  sp q (flat_map (fun '(k, j, i) => c_enc (cR M) (u f k j i)) l ++ rest) ->
  exists u' q', fold_left (fun us '(k, j, i) => let '(v, s) := us in let '(x, s) := fread (cR M) (v f k j i) s in (updf v f k j i x, s))
      l (u0, (line, q)) = (u', (line, q')) /\ sp q' rest.
Proof.
  intros f u l. induction l as [|((k, j), i) l IH]; intros u0 line q rest NR S; cbn [flat_map] in S.
  - exists u0, q. auto.
  - rewrite <- app_assoc in S. cbn [fold_left].
    destruct (fread_sp _ (cR M) (fun _ => True) (u f k j i) (u0 f k j i) line q _ ltac:(apply OK) I S ltac:(apply nnil; assumption))
      as (x & q1 & E & S1).
    rewrite E. apply IH; auto.
Qed.
Lemma fld_sp : forall lab f ks ke js je is_ ie u u0 line q rest, plain lab -> lab <> [] -> av lab line ->
  sp q (fld_text M lab f ks ke js je is_ ie u ++ rest) -> rest <> [] ->
  read_fld M lab f ks ke js je is_ ie (u0, (line, q)) = Fatal \/
  exists us, read_fld M lab f ks ke js je is_ ie (u0, (line, q)) = Ok us /\ isl lab (fst (snd us)) /\ sp (snd (snd us)) rest.
Proof.
  intros lab f ks ke js je is_ ie u u0 line q rest P NE A S NR. unfold read_fld, fld_text in *. rewrite <- app_assoc in S.
  cbn [snd]. destruct (label_sp lab line q _ P NE A S ltac:(apply nnil; assumption)) as [E|((l1 & q1) & E & I1 & S1)].
  - left. rewrite E. reflexivity.
  - right. cbn [fst snd] in *. rewrite E. cbn [bind fst].
    rewrite (for3_fold _ (fun k j i us => let '(v, s) := us in let '(x, s) := fread (cR M) (v f k j i) s in (updf v f k j i x, s))).
    destruct (reads_sp f u (cells ks ke js je is_ ie) u0 l1 q1 rest NR S1) as (u' & q' & E2 & S2).
    exists (u', (l1, q')). split; [f_equal; exact E2|]. cbn [fst snd]. auto.
Qed.

(** The next step of a computation fails or goes on *)
Lemma bind_or : forall A B (x : res A) (f : A -> res B) (P : A -> Prop) (Q : B -> Prop),
  (x = Fatal \/ exists a, x = Ok a /\ P a) ->
  (forall a, P a -> f a = Fatal \/ exists b, f a = Ok b /\ Q b) ->
  bind x f = Fatal \/ exists b, bind x f = Ok b /\ Q b.
Proof. intros A B x f P Q [->|(a & -> & H)] F; [left; reflexivity|]. cbn [bind]. auto. Qed.

Ltac pl := split; [let X := fresh in intros X; vm_compute in X; intuition discriminate | vm_compute; lia].
Ltac ne := let X := fresh in intros X; vm_compute in X; discriminate.
Ltac islav := match goal with H : isl _ ?l |- av _ ?l => destruct H as [H|H]; rewrite H; vm_compute; reflexivity end.
Definition free (line : str) : Prop := av (S_ "DENSITY") line /\ av (S_ "USER_DATA") line.

(** A label of which only the beginning is compared *)
Lemma label_any : forall exp lab line q rest, plain lab -> sp q (head_text lab ++ rest) -> rest <> [] ->
  label exp (line, q) = Fatal \/ exists s', label exp (line, q) = Ok s' /\ prefixb exp (fst s') = true /\ sp (snd s') rest.
Proof.
  intros exp lab line q rest P S NR.
  assert (X : exists l q', get_line (get_line (line, q)) = (l, q') /\ sp q' rest).
  { replace (head_text lab ++ rest) with ((LF :: lab) ++ LF :: rest) in S by (unfold head_text; cbn; rewrite <- app_assoc; reflexivity).
    destruct P as (N & L). destruct (sp_split _ _ _ S) as [C|(q' & -> & C)].
    - destruct q as [|x q]; [rewrite !get_end; eexists _, _; split; [reflexivity|apply sp_nil; auto]|].
      destruct C as (z & NZ & E). injection E as <- E.
      change (LF :: q) with ([] ++ LF :: q). rewrite get_line_ok by (split; [intros []|cbn; lia]). cbn [app].
      destruct q as [|y q]; [rewrite get_end; eexists _, _; split; [reflexivity|apply sp_nil; auto]|].
      rewrite get_short; [eexists _, _; split; [reflexivity|apply sp_nil; auto]| | |discriminate].
      + rewrite E in N. eapply in_sub; eauto.
      + rewrite E, app_length in L. lia.
    - change ((LF :: lab) ++ q') with ([] ++ LF :: lab ++ q'). rewrite get_line_ok by (split; [intros []|cbn; lia]). cbn [app].
      destruct q' as [|x q'].
      + rewrite app_nil_r. destruct lab as [|a lab]; [rewrite get_end|rewrite get_short by (auto; discriminate)];
          (eexists _, _; split; [reflexivity|apply sp_nil; auto]).
      + destruct C as (z & NZ & E). injection E as <- E. rewrite get_line_ok by (split; auto).
        eexists _, _. split; [reflexivity|]. exists z. auto. }
  destruct X as (l & q' & E & S'). unfold label. rewrite E. cbn [fst].
  destruct (prefixb exp l) eqn:PX; [right|left; reflexivity]. exists (l, q'). auto.
Qed.
Lemma scal_free : forall n line, prefixb (firstn 8 (scalar_label n)) line = true -> free line.
Proof.
  intros n line H. destruct (prefixb_sub _ _ H) as (y & ->). unfold scalar_label.
  change (S_ "SCALAR ") with ("S"%char :: S_ "CALAR "). cbn [app firstn]. split; vm_compute; reflexivity.
Qed.
Lemma fld_any : forall exp lab f ks ke js je is_ ie u u0 line q rest, plain lab ->
  sp q (fld_text M lab f ks ke js je is_ ie u ++ rest) -> rest <> [] ->
  read_fld M exp f ks ke js je is_ ie (u0, (line, q)) = Fatal \/
  exists us, read_fld M exp f ks ke js je is_ ie (u0, (line, q)) = Ok us /\ prefixb exp (fst (snd us)) = true /\ sp (snd (snd us)) rest.
Proof.
  intros exp lab f ks ke js je is_ ie u u0 line q rest P S NR. unfold read_fld, fld_text in *. rewrite <- app_assoc in S.
  cbn [snd]. destruct (label_any exp lab line q _ P S ltac:(apply nnil; assumption)) as [E|((l1 & q1) & E & I1 & S1)].
  - left. rewrite E. reflexivity.
  - right. cbn [fst snd] in *. rewrite E. cbn [bind fst].
    rewrite (for3_fold _ (fun k j i us => let '(v, s) := us in let '(x, s) := fread (cR M) (v f k j i) s in (updf v f k j i x, s))).
    destruct (reads_sp f u (cells ks ke js je is_ ie) u0 l1 q1 rest NR S1) as (u' & q' & E2 & S2).
    exists (u', (l1, q')). split; [f_equal; exact E2|]. cbn [fst snd]. auto.
Qed.

Lemma scalars_sp : forall g l u0 line q rest, (forall n, In n l -> 0 <= n < 10 ^ 8) -> rest <> [] -> free line ->
  sp q (flat_map (fun n => cells_text M (scalar_label n) (FS n) g) l ++ rest) ->
  let f := fun s n => us <- s;; read_fld M (firstn 8 (scalar_label n)) (FS n) (g_ks g) (g_ke g) (g_js g) (g_je g) (g_is g) (g_ie g) us in
  fold_left f l (Ok (u0, (line, q))) = Fatal \/
  exists us, fold_left f l (Ok (u0, (line, q))) = Ok us /\ free (fst (snd us)) /\ sp (snd (snd us)) rest.
Proof.
  intros g l u0 line q rest B NR FR S f.
  assert (FF : forall l, fold_left f l Fatal = Fatal) by (induction l0; cbn; auto).
  revert u0 line q FR S. induction l as [|n l IH]; intros u0 line q FR S.
  - right. eexists. split; [reflexivity|]. auto.
  - cbn [flat_map] in S. rewrite <- app_assoc in S. cbn [fold_left].
    assert (E : f (Ok (u0, (line, q))) n = read_fld M (firstn 8 (scalar_label n)) (FS n) (g_ks g) (g_ke g) (g_js g) (g_je g) (g_is g) (g_ie g) (u0, (line, q))) by reflexivity.
    rewrite E.
    destruct (fld_any (firstn 8 (scalar_label n)) (scalar_label n) (FS n) (g_ks g) (g_ke g) (g_js g) (g_je g) (g_is g) (g_ie g) (g_u g) u0 line q _
        (scalar_plain n (B n (or_introl eq_refl))) S ltac:(apply nnil; assumption)) as [EF|((u1 & (l1 & q1)) & EO & I1 & S1)].
    + left. rewrite EF. apply FF.
    + rewrite EO. cbn [fst snd] in *. apply IH; auto.
      * intros; apply B; right; auto.
      * eapply scal_free; eauto.
Qed.

Definition mid (line : str) : Prop := free line /\ av (S_ "1-FIELD") line.
Lemma mid_isl : forall lab line, isl lab line -> (lab = S_ "3-MOMENTUM" \/ lab = S_ "ENERGY") -> mid line.
Proof. intros lab line H [->| ->]; (split; [split; islav|islav]). Qed.

Lemma grid_sp : forall m g g0 b t t0 line q rest, same_box g g0 -> free line -> rest <> [] ->
  sp q (grid_text M c t g b ++ rest) ->
  read_grid M c m g0 b (t0, (line, q)) = Fatal \/
  exists r, read_grid M c m g0 b (t0, (line, q)) = Ok r /\
    (snd (fst r) = next_wide c g b /\ free (fst (snd (snd r))) /\ sp (snd (snd (snd r))) rest).
Proof.
  intros m g g0 b t t0 line q rest SB FR NR S. pose proof SB as SB'. unfold same_box in SB'.
  injection SB' as B1 B2 B3 B4 B5 B6.
  unfold read_grid. cbv beta zeta.
  change (widen (set_clock (m_time m) (m_dt m) g0) b) with (widen g0 b).
  change (g_u (set_clock (m_time m) (m_dt m) g0)) with (g_u g0).
  change (g_ks (set_clock (m_time m) (m_dt m) g0)) with (g_ks g0). change (g_ke (set_clock (m_time m) (m_dt m) g0)) with (g_ke g0).
  change (g_js (set_clock (m_time m) (m_dt m) g0)) with (g_js g0). change (g_je (set_clock (m_time m) (m_dt m) g0)) with (g_je g0).
  change (g_is (set_clock (m_time m) (m_dt m) g0)) with (g_is g0). change (g_ie (set_clock (m_time m) (m_dt m) g0)) with (g_ie g0).
  assert (WB : widen g0 b = widen g b) by (unfold widen; rewrite B1, B2, B3, B4, B5, B6; reflexivity).
  rewrite WB. rewrite <- B1, <- B2, <- B3, <- B4, <- B5, <- B6.
  unfold grid_text in S. rewrite NP in *. rewrite app_nil_r in S. rewrite <- !app_assoc in S.
  set (T2 := flat_map _ _ ++ rest) in S.
  assert (N2 : T2 <> []) by (apply nnil; auto).
  set (T1 := (if r_mhd c then _ else _) ++ T2) in S.
  assert (N1 : T1 <> []) by (apply nnil; auto).
  set (T0 := (if r_baro c then _ else _) ++ T1) in S.
  assert (N0 : T0 <> []) by (apply nnil; auto).
  eapply bind_or; [eapply fld_sp; [pl|ne|apply FR|exact S|]; repeat apply nnil; auto|].
  intros (u1 & (l1 & q1)) (I1 & S1). cbn [fst snd] in I1, S1.
  eapply bind_or; [eapply fld_sp; [pl|ne|islav|exact S1|]; repeat apply nnil; auto|].
  intros (u2 & (l2 & q2)) (I2 & S2). cbn [fst snd] in I2, S2. clear I1 S1.
  eapply bind_or; [eapply fld_sp; [pl|ne|islav|exact S2|]; repeat apply nnil; auto|].
  intros (u3 & (l3 & q3)) (I3 & S3). cbn [fst snd] in I3, S3. clear I2 S2.
  eapply bind_or; [eapply fld_sp; [pl|ne|islav|exact S3|]; repeat apply nnil; auto|].
  intros (u4 & (l4 & q4)) (I4 & S4). cbn [fst snd] in I4, S4. clear I3 S3.
  eapply (bind_or _ _ _ _ (fun us => mid (fst (snd us)) /\ sp (snd (snd us)) T1)).
  { unfold T0 in S4. destruct (r_baro c).
    - right. eexists. split; [reflexivity|]. cbn [fst snd]. split; [eapply mid_isl; eauto|exact S4].
    - match goal with |- ?x = Fatal \/ _ => assert (X : x = Fatal \/ exists us, x = Ok us /\ isl (S_ "ENERGY") (fst (snd us)) /\ sp (snd (snd us)) T1) end.
      { eapply fld_sp; [pl|ne|islav|exact S4|exact N1]. }
      destruct X as [->|(us & -> & I5 & S5)]; [left; reflexivity|right]. exists us. split; [reflexivity|]. split; [eapply mid_isl; eauto|exact S5]. }
  intros (u5 & (l5 & q5)) (I5 & S5). cbn [fst snd] in I5, S5. clear I4 S4.
  eapply (bind_or _ _ _ _ (fun us => free (fst (snd us)) /\ sp (snd (snd us)) T2)).
  { unfold T1 in S5. destruct (r_mhd c).
    - unfold read_field. unfold field_text in S5. rewrite <- !app_assoc in S5.
      change (g_ks (set_clock (m_time m) (m_dt m) g0)) with (g_ks g0). change (g_ke (set_clock (m_time m) (m_dt m) g0)) with (g_ke g0).
      change (g_js (set_clock (m_time m) (m_dt m) g0)) with (g_js g0). change (g_je (set_clock (m_time m) (m_dt m) g0)) with (g_je g0).
      change (g_is (set_clock (m_time m) (m_dt m) g0)) with (g_is g0). change (g_ie (set_clock (m_time m) (m_dt m) g0)) with (g_ie g0).
      rewrite <- B1, <- B2, <- B3, <- B4, <- B5, <- B6.
      eapply bind_or; [eapply fld_sp; [pl|ne|apply I5|exact S5|]; repeat apply nnil; auto|].
      intros (v1 & (k1 & r1)) (J1 & R1). cbn [fst snd] in J1, R1.
      eapply bind_or; [eapply fld_sp; [pl|ne|islav|exact R1|]; repeat apply nnil; auto|].
      intros (v2 & (k2 & r2)) (J2 & R2). cbn [fst snd] in J2, R2. clear J1 R1.
      eapply bind_or; [eapply fld_sp; [pl|ne|islav|exact R2|]; repeat apply nnil; auto|].
      intros (v3 & (k3 & r3)) (J3 & R3). cbn [fst snd] in J3, R3. clear J2 R2.
      right. eexists. split; [reflexivity|]. cbn [fst snd]. split; [split; islav|exact R3].
    - right. eexists. split; [reflexivity|]. cbn [fst snd]. split; [apply I5|exact S5]. }
  intros (u6 & (l6 & q6)) (I6 & S6). cbn [fst snd] in I6, S6. clear I5 S5.
  eapply bind_or.
  { rewrite fori_fold. unfold T2 in S6.
    apply (scalars_sp g (zrange 0 (r_nscal c)) u6 l6 q6 rest); auto.
    intros n Hn. apply zrange_in in Hn. lia. }
  intros (u7 & (l7 & q7)) (I7 & S7). cbn [fst snd] in I7, S7. cbn [bind].
  right. eexists. split; [reflexivity|]. cbn [fst snd]. split; [unfold next_wide; destruct (r_mhd c); reflexivity|]. auto.
Qed.

Lemma level_sp : forall m t l l0 b t0 line q rest, Forall2 same_place l l0 -> free line -> rest <> [] ->
  sp q (doms_text M c t l b ++ rest) ->
  map_st (read_domain M c m) l0 (b, (t0, (line, q))) = Fatal \/
  exists r, map_st (read_domain M c m) l0 (b, (t0, (line, q))) = Ok r /\
    (fst (snd r) = doms_wide c l b /\ free (fst (snd (snd (snd r)))) /\ sp (snd (snd (snd (snd r)))) rest).
Proof.
  intros m t l l0 b t0 line q rest F. revert b t0 line q.
  induction F as [|o o0 l l0 S F IH]; intros b t0 line q FR NR SQ.
  - right. eexists. split; [reflexivity|]. cbn. auto.
  - destruct o as [g|], o0 as [g0|]; cbn in S; try contradiction.
    + cbn [doms_text map_st doms_wide] in *. rewrite <- app_assoc in SQ.
      eapply (bind_or _ _ _ _ (fun r => fst (snd r) = next_wide c g b /\ free (fst (snd (snd (snd r)))) /\
         sp (snd (snd (snd (snd r)))) (doms_text M c t l (next_wide c g b) ++ rest))).
      { unfold read_domain. cbn [fst snd]. eapply bind_or; [eapply grid_sp; [exact S|exact FR| |exact SQ]; apply nnil; auto|].
        intros ((g' & b') & (t' & (l' & q'))) H. cbn [fst snd] in H. right. eexists. split; [reflexivity|]. exact H. }
      intros (y & (b' & (t' & (l' & q')))) (E & F1 & S1). cbn [fst snd] in E, F1, S1. subst b'.
      eapply bind_or; [eapply IH; eauto|].
      intros (ys & s) H. cbn [fst snd] in H. right. eexists. split; [reflexivity|]. exact H.
    + cbn [doms_text map_st doms_wide] in *. cbn [read_domain bind].
      eapply bind_or; [eapply IH; eauto|].
      intros (ys & s) H. cbn [fst snd] in H. right. eexists. split; [reflexivity|]. exact H.
Qed.
Lemma levels_sp : forall m t ls ls0 b t0 line q rest, Forall2 (Forall2 same_place) ls ls0 -> free line -> rest <> [] ->
  sp q (doms_text M c t (concat ls) b ++ rest) ->
  map_st (map_st (read_domain M c m)) ls0 (b, (t0, (line, q))) = Fatal \/
  exists r, map_st (map_st (read_domain M c m)) ls0 (b, (t0, (line, q))) = Ok r /\
    (free (fst (snd (snd (snd r)))) /\ sp (snd (snd (snd (snd r)))) rest).
Proof.
  intros m t ls ls0 b t0 line q rest F. revert b t0 line q.
  induction F as [|l l0 ls ls0 S F IH]; intros b t0 line q FR NR SQ.
  - right. eexists. split; [reflexivity|]. cbn. auto.
  - cbn [concat map_st] in *. rewrite doms_text_app, <- app_assoc in SQ.
    eapply bind_or; [eapply level_sp; [exact S|exact FR| |exact SQ]; apply nnil; auto|].
    intros (y & (b' & (t' & (l' & q')))) (E & F1 & S1). cbn [fst snd] in E, F1, S1. subst b'.
    eapply bind_or; [eapply IH; eauto|].
    intros (ys & s) H. cbn [fst snd] in H. right. eexists. split; [reflexivity|]. exact H.
Qed.

Lemma head_sp : forall m m0 t t0 line q rest, fits_in 31 (m_nstep m) -> (r_sts c = true -> fits_in 31 (n_sts t)) ->
  isl PAR_END line -> sp q (head_txt M c t m ++ rest) -> rest <> [] ->
  read_head M c m0 t0 (line, q) = Fatal \/
  exists r, read_head M c m0 t0 (line, q) = Ok r /\
    (m_dom (fst (fst r)) = m_dom m0 /\ free (fst (snd r)) /\ sp (snd (snd r)) rest).
Proof.
  intros m m0 t t0 line q rest FN FS I0 S NR. unfold read_head, head_txt in *.
  assert (CR : codec_ok (cR M) (fun _ => True)) by apply OK.
  assert (CI : codec_ok (cI M) (fits_in 31)) by apply OK.
  rewrite <- !app_assoc in S.
  set (T3 := (if r_sts c then _ else _) ++ rest) in S. assert (N3 : T3 <> []) by (apply nnil; auto).
  set (T2 := head_text (S_ "TIME_STEP") ++ _) in S. assert (N2 : T2 <> []) by (repeat apply nnil; auto).
  set (T1 := head_text (S_ "TIME") ++ _) in S. assert (N1 : T1 <> []) by (repeat apply nnil; auto).
  (* the first label *)
  assert (X : (exists l, get_line (line, q) = l /\ prefixb (S_ "N_STEP") (fst l) = false) \/
     exists l q', get_line (line, q) = (l, q') /\ isl (S_ "N_STEP") l /\ sp q' (c_enc (cI M) (m_nstep m) ++ T1)).
  { destruct q as [|x q]; [left; eexists; split; [reflexivity|]; destruct I0 as [->| ->]; vm_compute; reflexivity|].
    destruct (sp_split _ _ _ S) as [C|(q' & E & C)].
    - left. eexists. split; [reflexivity|]. rewrite get_short.
      + apply short_av. apply sp_len. exact C.
      + destruct C as (z & _ & E). assert (N : ~ In LF (S_ "N_STEP")) by (intros Y; vm_compute in Y; intuition discriminate).
        rewrite E in N. eapply in_sub; eauto.
      + apply sp_len in C. change (length (S_ "N_STEP")) with 6%nat in C. lia.
      + discriminate.
    - right. rewrite E. destruct q' as [|y q'].
      + rewrite app_nil_r. exists (S_ "N_STEP"), []. split; [rewrite get_short; [reflexivity|intros X; vm_compute in X; intuition discriminate|vm_compute; lia|ne]|].
        split; [left; reflexivity|apply sp_nil, nnil; auto].
      + destruct C as (z & NZ & E'). cbn [app] in E'. injection E' as <- E'.
        exists (S_ "N_STEP" ++ [LF]), q'. split; [apply get_line_ok; pl|]. split; [right; reflexivity|]. exists z. auto. }
  destruct X as [(l & -> & E)|(l & q1 & -> & I1 & S1)]; [left; rewrite E; reflexivity|]. cbn [fst].
  assert (PX : prefixb (S_ "N_STEP") l = true) by (destruct I1 as [->| ->]; vm_compute; reflexivity). rewrite PX. cbn [negb].
  destruct (fread_sp _ (cI M) (fits_in 31) (m_nstep m) (m_nstep m0) l q1 T1 CI FN S1 N1) as (n & q2 & E2 & S2). rewrite E2.
  eapply bind_or; [eapply label_sp; [pl|ne|islav|exact S2|]; repeat apply nnil; auto|].
  intros (l3 & q3) (I3 & S3). cbn [fst snd] in I3, S3. clear I1 S1 S2 PX E2.
  destruct (fread_sp _ (cR M) (fun _ => True) (m_time m) (m_time m0) l3 q3 T2 CR I S3 N2) as (ti & q4 & E4 & S4). rewrite E4.
  eapply bind_or; [eapply label_sp; [pl|ne|islav|exact S4|]; repeat apply nnil; auto|].
  intros (l5 & q5) (I5 & S5). cbn [fst snd] in I5, S5. clear I3 S3 S4 E4.
  destruct (fread_sp _ (cR M) (fun _ => True) (m_dt m) (m_dt m0) l5 q5 T3 CR I S5 N3) as (dt & q6 & E6 & S6). rewrite E6.
  assert (FR : free l5) by (split; islav).
  right. unfold T3 in S6. destruct (r_sts c).
  - rewrite <- !app_assoc in S6.
    destruct (fread_sp _ (cR M) (fun _ => True) (m_diff m) (m_diff m0) l5 q6 _ CR I S6 ltac:(repeat apply nnil; auto)) as (df & q7 & E7 & S7). rewrite E7.
    destruct (fread_sp _ (cI M) (fits_in 31) (n_sts t) (n_sts t0) l5 q7 _ CI (FS eq_refl) S7 ltac:(repeat apply nnil; auto)) as (ns & q8 & E8 & S8). rewrite E8.
    destruct (fread_sp _ (cR M) (fun _ => True) (nu_sts t) (nu_sts t0) l5 q8 _ CR I S8 NR) as (nu & q9 & E9 & S9). rewrite E9.
    eexists. split; [reflexivity|]. cbn [fst snd]. auto.
  - eexists. split; [reflexivity|]. cbn [fst snd]. auto.
Qed.

(** the part after the parameters *)
Lemma body_cut : forall m m0 t t0 line q, fits_in 31 (m_nstep m) -> (r_sts c = true -> fits_in 31 (n_sts t)) -> same_layout m m0 ->
  isl PAR_END line -> sp q (body_text M c t m ++ LF :: S_ "USER_DATA") ->
  ('(m, t, s) <- read_head M c m0 t0 (line, q);;
   '(doms, (_, (t, s))) <- map_st (map_st (read_domain M c m)) (m_dom m) (Wide false false false, (t, s));;
   s <- label (S_ "USER_DATA") s;;
   Ok (Mesh (m_nstep m) (m_time m) (m_dt m) (m_diff m) doms, t, snd s)) = Fatal.
Proof.
  intros m m0 t t0 line q FN FS SL I0 S. unfold body_text in S. rewrite <- app_assoc in S.
  destruct (head_sp m m0 t t0 line q _ FN FS I0 S ltac:(apply nnil; discriminate)) as [E|(((mh & th) & (lh & qh)) & E & D & F & S1)];
    rewrite E; [reflexivity|]. cbn [bind fst snd] in *.
  destruct (levels_sp mh t (m_dom m) (m_dom mh) (Wide false false false) th lh qh (LF :: S_ "USER_DATA")) as
     [E2|((doms & (b & (t' & (l' & q')))) & E2 & F2 & S2)]; [rewrite D; exact SL|exact F|discriminate|exact S1| |]; rewrite E2; [reflexivity|].
  cbn [bind fst snd] in *. rewrite label_cut; [reflexivity|pl|ne|apply F2|exact S2].
Qed.
End Cut.

(** Files that end before the end of the parameters *)
Lemma fgets_n_app : forall n s a b, fgets_n n s = (a, b) -> s = a ++ b /\ (n <> 0%nat -> s <> [] -> a <> []).
Proof.
  induction n as [|n IH]; intros s a b E.
  - cbn in E. destruct s; injection E as <- <-; split; auto; congruence.
  - destruct s as [|x s]; cbn [fgets_n] in E; [injection E as <- <-; split; auto|].
    destruct (Ascii.eqb x LF); [injection E as <- <-; split; [auto|discriminate]|].
    destruct (fgets_n n s) as (l & r) eqn:F. injection E as <- <-. destruct (IH _ _ _ F) as (-> & _). split; [auto|discriminate].
Qed.
Lemma skip_loops : forall fuel p, ~ has_sub PAR_END p -> (length p <= fuel)%nat -> skip_par fuel p = Loops.
Proof.
  induction fuel as [|fuel IH]; intros p NS L.
  - destruct p; [reflexivity|cbn in L; lia].
  - cbn [skip_par]. destruct (fgets p) as [(a & b)|] eqn:G; [|reflexivity].
    assert (F : fgets_n (MAXLEN - 1) p = (a, b) /\ p <> []) by (unfold fgets in G; destruct p; [discriminate|split; congruence]).
    destruct F as (F & NP). destruct (fgets_n_app _ _ _ _ F) as (EQ & NE).
    destruct (prefixb PAR_END a) eqn:P.
    + exfalso. apply NS. destruct (prefixb_sub _ _ P) as (y & ->). exists [], (y ++ b). rewrite EQ, <- app_assoc. reflexivity.
    + apply IH.
      * intros (u & v & ->). apply NS. exists (a ++ u), v. rewrite EQ, <- app_assoc. reflexivity.
      * assert (a <> []) by (apply NE; [vm_compute; discriminate|congruence]). rewrite EQ, app_length in L. destruct a; [congruence|cbn in L; lia].
Qed.
(** no <par_end> across the boundary *)
Lemma no_overlap : forall pre p w, p ++ w = pre ++ PAR_END -> w <> [] -> ~ has_sub PAR_END pre -> ~ has_sub PAR_END p.
Proof.
  intros pre p w E NW NP (x & y & ->). rewrite <- !app_assoc in E.
  destruct (app_cmp _ _ _ _ E) as [(e & -> & E1)|(e & -> & E1)].
  - destruct (app_cmp _ _ _ _ E1) as [(e' & -> & E2)|(e' & E2 & E3)].
    + apply NP. exists x, e'. rewrite <- ?app_assoc. reflexivity.
    + (* PAR_END = e ++ e' and PAR_END = e' ++ y ++ w *)
      destruct e as [|a e].
      * cbn in E2. subst e'. assert (L : length PAR_END = length (PAR_END ++ y ++ w)) by congruence.
        rewrite !app_length in L. destruct w; [congruence|cbn in L; lia].
      * destruct e' as [|b e']; [apply NP; exists x, []; rewrite E2, !app_nil_r; reflexivity|].
        assert (b = "<"%char) by (vm_compute in E3; congruence). subst b.
        assert (K : forall k, nth_error PAR_END (S k) <> Some "<"%char).
        { intros k. do 9 (destruct k as [|k]; [vm_compute; congruence|]). vm_compute. destruct k; discriminate. }
        apply (K (length e)). rewrite E2. cbn [app nth_error]. rewrite nth_error_app2, Nat.sub_diag by lia. reflexivity.
  - (* x = pre ++ e, PAR_END = e ++ PAR_END ++ y ++ w *)
    assert (L : length PAR_END = length (e ++ PAR_END ++ y ++ w)) by congruence. rewrite !app_length in L.
    destruct w; [congruence|cbn in L; lia].
Qed.

(** the parameters, and nothing after <par_end> *)
Lemma skip_last : forall fuel pre, (pre = [] \/ exists q, pre = q ++ [LF]) -> ~ has_sub PAR_END pre ->
  (length (pre ++ PAR_END) <= fuel)%nat ->
  skip_par fuel (pre ++ PAR_END) = Returns (Ok (PAR_END, [])).
Proof.
  assert (END : forall fuel, skip_par fuel PAR_END = Returns (Ok (PAR_END, []))).
  { intros fuel. destruct fuel; vm_compute; reflexivity. }
  induction fuel as [|fuel IH]; intros pre PE NS LE.
  - rewrite app_length in LE. cbn [length] in LE. assert (length PAR_END = 9%nat) by reflexivity. lia.
  - destruct PE as [->|(q & ->)]; [apply END|].
    destruct (fgets_n_in (MAXLEN - 1) q PAR_END) as (p1 & p2 & A & B & C & D).
    assert (D' : p1 <> []) by (apply D; discriminate).
    assert (F : fgets ((q ++ [LF]) ++ PAR_END) = Some (p1, p2 ++ PAR_END)).
    { rewrite <- B. unfold fgets. destruct ((q ++ [LF]) ++ PAR_END) eqn:E; [destruct q; discriminate|reflexivity]. }
    cbn [skip_par]. rewrite F.
    destruct (prefixb PAR_END p1) eqn:P.
    + exfalso. apply NS. destruct (prefixb_sub _ _ P) as (y & ->). exists [], (y ++ p2). rewrite A, <- app_assoc. reflexivity.
    + apply IH; auto.
      * intros (u & v & ->). apply NS. exists (p1 ++ u), v. rewrite A, <- app_assoc. reflexivity.
      * rewrite A, !app_length in LE. rewrite app_length. destruct p1; [congruence|]. cbn in LE. lia.
Qed.
