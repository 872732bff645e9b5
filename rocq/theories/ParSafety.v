(** * C07: which lines make the parser of par.c leave the line buffer *)
From Coq Require Import String Ascii NArith ZArith Bool Arith Lia List.
From Verif Require Import CStr CStrFacts ParModel ParSpec.
Import ListNotations.

Lemma nth_error_skipn : forall (A : Type) (l : list A) i j,
  nth_error (skipn i l) j = nth_error l (i + j).
Proof.
  induction l as [|x l IH]; intros [|i] j; simpl; auto.
  - destruct j; reflexivity.
Qed.

Lemma skipn_S : forall (A : Type) i (l : list A) x r, skipn i l = x :: r -> skipn (S i) l = r.
Proof.
  induction i as [|i IH]; intros l x r H.
  - rewrite skipn_O in H. subst; reflexivity.
  - destruct l as [|y l]; [discriminate|]. simpl in *. eapply IH; eauto.
Qed.

Lemma skipwhite_from_spec : forall l cp j c,
  nth_error l j = Some c -> isspace c = false ->
  exists k x, skipwhite_from l cp = Ok (cp + k) /\ k <= j /\
    nth_error l k = Some x /\ isspace x = false.
Proof.
  induction l as [|y l IH]; intros cp j c H S; [destruct j; discriminate|].
  simpl. destruct (isspace y) eqn:E.
  - destruct j as [|j]; [simpl in H; inversion H; congruence|].
    destruct (IH (Datatypes.S cp) j c H S) as (k & x & A & B & C & D).
    exists (Datatypes.S k), x. rewrite A. repeat split; auto; try lia; try (f_equal; lia).
  - exists 0, y. repeat split; auto; try lia; try (f_equal; lia).
Qed.

Lemma skipwhite_spec : forall buf i j c, i <= j ->
  nth_error buf j = Some c -> isspace c = false ->
  exists k x, skipwhite buf i = Ok k /\ i <= k <= j /\
    nth_error buf k = Some x /\ isspace x = false.
Proof.
  intros buf i j c L H S. unfold skipwhite.
  destruct (skipwhite_from_spec (skipn i buf) i (j - i) c) as (k & x & A & B & C & D); auto.
  { rewrite nth_error_skipn. replace (i + (j - i)) with j by lia. auto. }
  exists (i + k), x. rewrite nth_error_skipn in C. repeat split; auto; lia.
Qed.

Lemma find_stop_from_spec : forall l st cp j, nth_error l j = Some NUL ->
  exists k x, find_stop_from l st cp = Ok (cp + k) /\ k <= j /\
    nth_error l k = Some x /\ (x = NUL \/ x = st).
Proof.
  induction l as [|y l IH]; intros st cp j H; [destruct j; discriminate|].
  simpl. destruct (Ascii.eqb_spec y NUL) as [E|E]; simpl.
  - exists 0, y. repeat split; auto; try lia; try (f_equal; lia).
  - destruct (Ascii.eqb_spec y st) as [E2|E2].
    + exists 0, y. repeat split; auto; try lia; try (f_equal; lia).
    + destruct j as [|j]; [simpl in H; inversion H; congruence|].
      destruct (IH st (S cp) j H) as (k & x & A & B & C & D).
      exists (S k), x. rewrite A. repeat split; auto; try lia; try (f_equal; lia).
Qed.

Lemma find_stop_spec : forall buf st i j, i <= j -> nth_error buf j = Some NUL ->
  exists k x, find_stop buf st i = Ok k /\ i <= k <= j /\
    nth_error buf k = Some x /\ (x = NUL \/ x = st).
Proof.
  intros buf st i j L H. unfold find_stop.
  destruct (find_stop_from_spec (skipn i buf) st i (j - i)) as (k & x & A & B & C & D).
  { rewrite nth_error_skipn. replace (i + (j - i)) with j by lia. auto. }
  exists (i + k), x. rewrite nth_error_skipn in C. repeat split; auto; lia.
Qed.

Lemma str_term_scan_spec : forall cp buf j c, cp <= length buf -> j < cp ->
  nth_error buf j = Some c -> isspace c = false ->
  exists k, str_term_scan buf cp = Ok k /\ j < k <= cp.
Proof.
  induction cp as [|cp IH]; intros buf j c L J H S; [lia|].
  simpl. destruct (rd_total buf cp) as (x & Hx & Ex); [lia|]. rewrite Hx; simpl.
  destruct (isspace x) eqn:E.
  - destruct (Nat.eq_dec j cp) as [->|NE]; [congruence|].
    destruct (IH buf j c) as (k & A & B); auto; try lia. exists k; split; auto; lia.
  - exists (Datatypes.S cp). split; auto; lia.
Qed.

(** [str_term] keeps bytes up to [j] and never removes a NUL. *)
Lemma str_term_spec : forall cp buf j c, cp < length buf -> j < cp ->
  nth_error buf j = Some c -> isspace c = false ->
  exists buf', str_term buf cp = Ok buf' /\ length buf' = length buf /\
    (forall i, i <= j -> nth_error buf' i = nth_error buf i) /\
    (forall i, nth_error buf i = Some NUL -> nth_error buf' i = Some NUL).
Proof.
  intros cp buf j c L J H S. unfold str_term.
  destruct (str_term_scan_spec cp buf j c) as (k & A & B); auto; try lia.
  rewrite A; simpl.
  destruct (wr_total buf k NUL) as (b' & W & LN & AT & OT); [lia|].
  exists b'. repeat split; auto.
  - intros i Hi. apply OT; lia.
  - intros i Hi. destruct (Nat.eq_dec i k) as [->|NE]; auto. rewrite OT; auto.
Qed.

Lemma cstr_at_total : forall buf i j, i <= j -> nth_error buf j = Some NUL ->
  exists s, cstr_at buf i = Ok s.
Proof.
  intros buf i j L H. unfold cstr_at. apply until_nul_total.
  apply nth_error_In with (n := j - i). rewrite nth_error_skipn.
  replace (i + (j - i)) with j by lia. auto.
Qed.

Lemma nth_error_len : forall (A : Type) (l : list A) i x, nth_error l i = Some x -> i < length l.
Proof. intros A l i x H. apply nth_error_Some. congruence. Qed.

(** The scan for '=' and '#' stays inside. *)
Lemma scan_line_spec : forall buf e, nth_error buf e = Some NUL ->
  forall l cp eq, cp <= e -> l = skipn cp buf ->
  (forall q v, eq = Some (q, v) -> q < e /\ v <= e /\ nth_error buf q = Some chEQ) ->
  exists eq' hash cp', scan_line buf l cp eq = Ok (eq', hash, cp') /\ cp' <= e /\
    (forall q v, eq' = Some (q, v) -> q < e /\ v <= e /\ nth_error buf q = Some chEQ /\
        (cp <= q \/ eq = Some (q, v))) /\
    (forall h c, hash = Some (h, c) -> cp <= h /\ h < e /\ c <= e /\ nth_error buf h = Some chHASH).
Proof.
  intros buf e HE. induction l as [|x l IH]; intros cp eq L EL I.
  - exfalso. assert (X : nth_error (skipn cp buf) (e - cp) = Some NUL).
    { rewrite nth_error_skipn. replace (cp + (e - cp)) with e by lia; auto. }
    rewrite <- EL in X. destruct (e - cp); discriminate.
  - assert (Hx : nth_error buf cp = Some x).
    { assert (X : nth_error (skipn cp buf) 0 = Some x) by (rewrite <- EL; reflexivity).
      rewrite nth_error_skipn, Nat.add_0_r in X; auto. }
    assert (EL' : l = skipn (S cp) buf).
    { symmetry. eapply skipn_S; eauto. }
    simpl. destruct (Ascii.eqb_spec x NUL) as [E|E].
    + exists eq, None, cp. split; [reflexivity|]. split; [auto|]. split; [|congruence].
      intros q v Hq. destruct (I q v Hq) as (A & B & C). repeat split; auto.
    + assert (LT : cp < e) by (destruct (Nat.eq_dec cp e) as [->|]; [congruence|lia]).
      assert (N0 : isspace NUL = false) by reflexivity.
      (* the '=' part *)
      assert (EQ : exists eq', (if Ascii.eqb x chEQ
                then match eq with
                     | None => v <- skipwhite buf (S cp);; Ok (Some (cp, v))
                     | Some _ => Ok eq
                     end
                else Ok eq) = Ok eq' /\
               (forall q v, eq' = Some (q, v) -> q < e /\ v <= e /\ nth_error buf q = Some chEQ /\
                 (cp <= q \/ eq = Some (q, v)))).
      { destruct (Ascii.eqb_spec x chEQ) as [Eq|Eq].
        - destruct eq as [[q0 v0]|].
          + eexists; split; [reflexivity|]. intros q v H; inversion H; subst.
            destruct (I q v eq_refl) as (A & B & C). auto.
          + destruct (skipwhite_spec buf (S cp) e NUL) as (k & y & A & B & _); auto; try lia.
            rewrite A; simpl. eexists; split; [reflexivity|].
            intros q v H; inversion H; subst. repeat split; auto; lia.
        - eexists; split; [reflexivity|]. intros q v H. destruct (I q v H) as (A & B & C); auto. }
      destruct EQ as (eq' & -> & I'). simpl.
      destruct (Ascii.eqb_spec x chHASH) as [Eh|Eh].
      * destruct (skipwhite_spec buf (S cp) e NUL) as (k & y & A & B & _); auto; try lia.
        rewrite A; simpl. exists eq', (Some (cp, k)), cp. split; [reflexivity|]. split; [lia|].
        split; [exact I'|]. intros h c H; inversion H; subst. repeat split; auto; lia.
      * destruct (IH (S cp) eq') as (eq2 & hash & cp' & A & B & C & D); auto.
        { intros q v H. destruct (I' q v H) as (P & Q & R & _). auto. }
        exists eq2, hash, cp'. split; [exact A|]. split; [auto|]. split.
        -- intros q v H. destruct (C q v H) as (P & Q & R & [T|T]).
           ++ repeat split; auto. left; lia.
           ++ destruct (I' q v T) as (_ & _ & _ & T'). repeat split; auto.
        -- intros h c H. destruct (D h c H) as (P & Q & R & T). repeat split; auto; lia.
Qed.

(** A parameter line is parsed without leaving the buffer unless its first
    non-blank byte is '='. *)
Lemma parse_par_line_safe : forall buf cp e c,
  nth_error buf e = Some NUL -> cp <= e ->
  nth_error buf cp = Some c -> isspace c = false -> c <> chEQ ->
  parse_par_line buf cp <> UB.
Proof.
  intros buf cp e c HE L HC SP NEQ. unfold parse_par_line.
  assert (N0 : isspace NUL = false) by reflexivity.
  destruct (skipwhite_spec buf cp cp c) as (name & x & A & B & Cx & Dx); auto.
  assert (name = cp) by lia. subst name. rewrite A; cbn [bind].
  destruct (scan_line_spec buf e HE (skipn cp buf) cp None) as (eq & hash & cp' & E1 & L1 & P1 & P2);
    auto; [congruence|].
  rewrite E1; cbn [bind].
  destruct (find_stop_spec buf NUL cp' e) as (nul & y & F1 & F2 & F3 & F4); auto.
  rewrite F1; cbn [bind].
  assert (y = NUL) by (destruct F4; auto). subst y. clear F4.
  destruct eq as [[equal value]|]; [|discriminate].
  destruct (P1 equal value eq_refl) as (Q1 & Q2 & Q3 & [Q4|Q4]); [|discriminate].
  assert (cp < equal) by (destruct (Nat.eq_dec cp equal) as [->|]; [congruence|lia]).
  assert (LB : e < length buf) by (eapply nth_error_len; eauto).
  destruct (str_term_spec equal buf cp c) as (b1 & T1 & T2 & T3 & T4); auto; try lia.
  rewrite T1; cbn [bind].
  assert (HC1 : nth_error b1 cp = Some c) by (rewrite T3; auto).
  assert (cp < nul).
  { destruct (Nat.eq_dec cp nul) as [->|]; [|].
    - assert (c = NUL) by congruence. subst c.
      (* name begins with NUL: then scan stops at once, no '=' *)
      exfalso. assert (E2 := E1). 
      assert (SK : exists r, skipn nul buf = NUL :: r).
      { destruct (skipn nul buf) as [|z r] eqn:Z.
        - assert (X : nth_error (skipn nul buf) 0 = Some NUL) by (rewrite nth_error_skipn, Nat.add_0_r; auto).
          rewrite Z in X; discriminate.
        - assert (X : nth_error (skipn nul buf) 0 = Some NUL) by (rewrite nth_error_skipn, Nat.add_0_r; auto).
          rewrite Z in X; simpl in X; inversion X; subst; eauto. }
      destruct SK as (r & Hr). rewrite Hr in E2. simpl in E2. discriminate.
    - destruct (Nat.lt_ge_cases cp nul); auto. exfalso.
      assert (cp' <= nul) by lia.
      (* cp' >= cp *)
      assert (cp <= cp').
      { clear - E1. remember (skipn cp buf) as l eqn:El. clear El.
        revert E1. generalize (@None (nat * nat)) as eq0. revert cp.
        induction l as [|z l IH]; intros cp eq0 E1; simpl in E1; [discriminate|].
        destruct (Ascii.eqb z NUL); [inversion E1; lia|].
        match type of E1 with bind ?e _ = _ => destruct e as [q| |]; simpl in E1; try discriminate end.
        destruct (Ascii.eqb z chHASH).
        - destruct (skipwhite buf (S cp)); simpl in E1; try discriminate. inversion E1; lia.
        - apply IH in E1. lia. }
      lia. }
  destruct hash as [[h cm]|].
  - destruct (P2 h cm eq_refl) as (R1 & R2 & R3 & R4).
    assert (cp < h).
    { destruct (Nat.eq_dec cp h) as [->|]; [|lia].
      assert (c = chHASH) by congruence. subst c.
      exfalso. assert (E2 := E1).
      assert (X : nth_error (skipn h buf) 0 = Some chHASH) by (rewrite nth_error_skipn, Nat.add_0_r; auto).
      destruct (skipn h buf) as [|z r]; [discriminate|]. simpl in X. inversion X; subst z.
      cbn [scan_line] in E2. rewrite (proj2 (Ascii.eqb_neq chHASH NUL)) in E2 by discriminate.
      rewrite (proj2 (Ascii.eqb_neq chHASH chEQ)) in E2 by discriminate. cbn [bind] in E2.
      rewrite Ascii.eqb_refl in E2.
      destruct (skipwhite buf (S h)); simpl in E2; discriminate. }
    destruct (str_term_spec h b1 cp c) as (b2 & U1 & U2 & U3 & U4); auto; try lia.
    rewrite U1; cbn [bind].
    assert (HE2 : nth_error b2 e = Some NUL) by auto.
    assert (HC2 : nth_error b2 cp = Some c) by (rewrite U3; auto).
    destruct (rd_total b2 cm) as (c0 & G1 & G2); [lia|]. rewrite G1; cbn [bind].
    destruct (Ascii.eqb c0 NUL).
    + destruct (cstr_at_total b2 cp e) as (s1 & ->); auto. cbn [bind].
      destruct (cstr_at_total b2 value e) as (s2 & ->); auto. cbn [bind]. discriminate.
    + destruct (str_term_spec nul b2 cp c) as (b3 & V1 & V2 & V3 & V4); auto; try lia.
      rewrite V1; cbn [bind].
      destruct (cstr_at_total b3 cp e) as (s1 & ->); auto. cbn [bind].
      destruct (cstr_at_total b3 value e) as (s2 & ->); auto. cbn [bind].
      destruct (cstr_at_total b3 cm e) as (s3 & ->); auto. cbn [bind]. discriminate.
  - destruct (str_term_spec nul b1 cp c) as (b2 & U1 & U2 & U3 & U4); auto; try lia.
    rewrite U1; cbn [bind].
    destruct (cstr_at_total b2 cp e) as (s1 & ->); auto. cbn [bind].
    destruct (cstr_at_total b2 value e) as (s2 & ->); auto. cbn [bind]. discriminate.
Qed.

Lemma line_block_name_safe : forall buf cp e,
  nth_error buf e = Some NUL -> nth_error buf cp = Some chLT -> cp < e ->
  (exists b' sp, line_block_name buf cp = Ok (b', sp) /\ sp <= e /\ nth_error b' e = Some NUL)
  \/ line_block_name buf cp = Fatal.
Proof.
  intros buf cp e HE HL L. unfold line_block_name.
  assert (N0 : isspace NUL = false) by reflexivity.
  assert (LB : e < length buf) by (eapply nth_error_len; eauto).
  destruct (skipwhite_spec buf (S cp) e NUL) as (sp & x & A & B & _); auto.
  rewrite A; cbn [bind].
  destruct (find_stop_spec buf chGT sp e) as (q & y & F1 & F2 & F3 & F4); auto; try lia.
  rewrite F1; cbn [bind].
  unfold rd. rewrite F3; cbn [bind].
  destruct (Ascii.eqb_spec y chGT) as [E|E]; simpl; [|right; reflexivity].
  left. destruct (str_term_spec q buf cp chLT) as (b1 & T1 & T2 & T3 & T4); auto; try lia.
  rewrite T1; cbn [bind]. exists b1, sp. repeat split; auto; lia.
Qed.

(** The first non-blank byte of a line. *)
Fixpoint first_nonblank (l : str) : option ascii :=
  match l with
  | [] => None
  | c :: l' => if isspace c then first_nonblank l' else Some c
  end.

Lemma skipwhite_first : forall l r cp,
  (exists k c, skipwhite_from (l ++ NUL :: r) cp = Ok (cp + k) /\ k <= length l /\
     nth_error (l ++ NUL :: r) k = Some c /\ isspace c = false /\
     (forall m, m < k -> exists y, nth_error (l ++ NUL :: r) m = Some y /\ isspace y = true) /\
     match first_nonblank l with Some c' => c = c' /\ k < length l | None => c = NUL end).
Proof.
  induction l as [|x l IH]; intros r cp; simpl.
  - exists 0, NUL. repeat split; auto; try (f_equal; lia); try (intros; lia).
  - destruct (isspace x) eqn:E.
    + destruct (IH r (S cp)) as (k & c & A & B & C & D & G & F).
      exists (S k), c. rewrite A. repeat split; auto; try lia; try (f_equal; lia).
      * intros [|m] Hm; [exists x; auto|]. apply G; lia.
      * destruct (first_nonblank l); auto. destruct F; split; auto; lia.
    + exists 0, x. repeat split; auto; try lia; try (f_equal; lia).
Qed.

Lemma cstr_at_head : forall buf k c s, nth_error buf k = Some c -> c <> NUL ->
  cstr_at buf k = Ok s -> exists s', s = c :: s'.
Proof.
  intros buf k c s H N E. unfold cstr_at in E.
  assert (X : nth_error (skipn k buf) 0 = Some c) by (rewrite nth_error_skipn, Nat.add_0_r; auto).
  destruct (skipn k buf) as [|z r]; [discriminate|]. simpl in X. inversion X; subst z.
  simpl in E. rewrite (proj2 (Ascii.eqb_neq c NUL)) in E by auto.
  destruct (until_nul r); simpl in E; try discriminate. inversion E; eauto.
Qed.

Lemma scan_line_keeps : forall buf l cp q eq' hash cp',
  scan_line buf l cp (Some q) = Ok (eq', hash, cp') -> eq' = Some q.
Proof.
  induction l as [|x l IH]; intros cp q eq' hash cp' H; simpl in H; [discriminate|].
  destruct (Ascii.eqb x NUL); [inversion H; auto|].
  assert (E : (if Ascii.eqb x chEQ then Ok (Some q) else Ok (Some q)) = Ok (Some q))
    by (destruct (Ascii.eqb x chEQ); reflexivity).
  rewrite E in H; cbn [bind] in H.
  destruct (Ascii.eqb x chHASH).
  - destruct (skipwhite buf (S cp)); cbn [bind] in H; inversion H; auto.
  - eapply IH; eauto.
Qed.

Lemma str_term_scan_ub : forall k buf,
  (forall m, m < k -> exists y, nth_error buf m = Some y /\ isspace y = true) ->
  str_term_scan buf k = UB.
Proof.
  induction k as [|k IH]; intros buf H; simpl; [reflexivity|].
  destruct (H k) as (y & Hy & Sy); [lia|]. unfold rd. rewrite Hy; cbn [bind]. rewrite Sy.
  apply IH. intros m Hm; apply H; lia.
Qed.


(** ** Main result: one line, any contents [l], any database and block *)
Lemma par_line_ub_iff : forall d bp l,
  par_line d bp (l ++ [NUL]) = UB <->
  bp <> None /\ first_nonblank l = Some chEQ.
Proof.
  intros d bp l.
  assert (HE : nth_error (l ++ [NUL]) (length l) = Some NUL) by apply nth_error_app_len.
  assert (LN : length (l ++ [NUL]) = S (length l)) by (rewrite app_length; simpl; lia).
  destruct (skipwhite_first l [] 0) as (k & c & A & B & C & D & G & F).
  simpl plus in A.
  unfold par_line, skipwhite. rewrite skipn_O, A; cbn [bind].
  unfold rd. rewrite C; cbn [bind].
  destruct (Ascii.eqb_spec c NUL) as [E|NE].
  { split; [discriminate|]. intros [_ H]. rewrite H in F. destruct F as [F _]. subst; discriminate. }
  destruct (first_nonblank l) as [c'|] eqn:FN; [|congruence].
  destruct F as [<- KL].
  destruct (Ascii.eqb_spec c chHASH) as [E|NH].
  { split; [discriminate|]. intros [_ H]. inversion H; subst; discriminate. }
  destruct (cstr_at_total (l ++ [NUL]) k (length l)) as (s & Hs); auto. rewrite Hs. cbn [bind].
  destruct (prefixb PAR_END s) eqn:PE.
  { split; [discriminate|]. intros [_ H]. inversion H; subst c. exfalso.
    destruct (cstr_at_head _ _ _ _ C NE Hs) as (s' & ->). vm_compute in PE. discriminate. }
  destruct (Ascii.eqb_spec c chLT) as [E|NL].
  - subst c. split.
    + intros H. exfalso. revert H.
      destruct (line_block_name_safe (l ++ [NUL]) k (length l)) as [(b' & sp & -> & S1 & S2)| ->]; auto;
        cbn [bind]; [|discriminate].
      destruct (cstr_at_total b' sp (length l)) as (n & ->); auto. cbn [bind]. discriminate.
    + intros [_ H]; discriminate.
  - destruct bp as [bn|].
    + split.
      * intros H. split; [discriminate|]. f_equal.
        destruct (ascii_dec c chEQ) as [|NQ]; auto. exfalso.
        assert (SF := parse_par_line_safe (l ++ [NUL]) k (length l) c HE ltac:(lia) C D NQ).
        destruct (parse_par_line (l ++ [NUL]) k) as [[[n v] cm]| |]; cbn [bind] in H; try discriminate.
        congruence.
      * intros [_ H]. inversion H; subst c.
        unfold parse_par_line, skipwhite at 1.
        destruct (skipwhite_spec (l ++ [NUL]) k k chEQ) as (k' & x & A1 & A2 & _); auto.
        unfold skipwhite in A1. rewrite A1; cbn [bind].
        assert (k' = k) by lia. subst k'.
        destruct (scan_line_spec (l ++ [NUL]) (length l) HE (skipn k (l ++ [NUL])) k None)
          as (eq & hash & cp' & E1 & L1 & P1 & P2); auto; [discriminate|].
        rewrite E1; cbn [bind].
        destruct (find_stop_spec (l ++ [NUL]) NUL cp' (length l)) as (nul & y & F1 & _); auto.
        rewrite F1; cbn [bind].
        assert (X : nth_error (skipn k (l ++ [NUL])) 0 = Some chEQ) by (rewrite nth_error_skipn, Nat.add_0_r; auto).
        destruct (skipn k (l ++ [NUL])) as [|z r] eqn:SK; [discriminate|]. simpl in X. inversion X; subst z.
        cbn [scan_line] in E1. rewrite (proj2 (Ascii.eqb_neq chEQ NUL)) in E1 by discriminate.
        rewrite Ascii.eqb_refl in E1.
        destruct (skipwhite_spec (l ++ [NUL]) (S k) (length l) NUL) as (v & z & V1 & _); auto.
        rewrite V1 in E1; cbn [bind] in E1.
        rewrite (proj2 (Ascii.eqb_neq chEQ chHASH)) in E1 by discriminate.
        apply scan_line_keeps in E1. subst eq.
        unfold str_term. rewrite str_term_scan_ub; [reflexivity|auto].
    + split; [discriminate|]. intros [H _]; congruence.
Qed.

(** ** Whole files *)

(** [l] is one of the pieces fgets cuts the file [s] into. *)
Inductive piece_of : str -> str -> Prop :=
| piece_here : forall s l r, fgets s = Some (l, r) -> piece_of s l
| piece_later : forall s l r x, fgets s = Some (l, r) -> piece_of r x -> piece_of s x.

Lemma fgets_n_app : forall n s l r, fgets_n n s = (l, r) -> s = l ++ r.
Proof.
  induction n as [|n IH]; intros [|c s] l r H; simpl in H; try (inversion H; reflexivity).
  destruct (Ascii.eqb c LF); [inversion H; reflexivity|].
  destruct (fgets_n n s) as [l' r'] eqn:E. inversion H; subst. simpl. f_equal. eapply IH; eauto.
Qed.

Lemma fgets_n_nonempty : forall n c s l r, fgets_n (S n) (c :: s) = (l, r) -> l <> [].
Proof.
  intros n c s l r H. cbn [fgets_n] in H. destruct (Ascii.eqb c LF).
  - intros E. subst l. discriminate.
  - destruct (fgets_n n s). intros E. subst l. discriminate.
Qed.

Lemma fgets_some : forall s l r, fgets s = Some (l, r) -> s = l ++ r /\ l <> [].
Proof.
  intros s l r H. unfold fgets in H. destruct s as [|c s]; [discriminate|].
  assert (H1 : fgets_n (MAXLEN - 1) (c :: s) = (l, r)) by congruence. clear H.
  split; [eapply fgets_n_app; eauto|].
  apply (fgets_n_nonempty 254 c s l r). exact H1.
Qed.

(** The fuel given to the loop is never exhausted, and the loop is defined when
    no piece starts with '='. *)
Lemma open_loop_safe : forall f d bp s, length s <= f ->
  (forall l, piece_of s l -> first_nonblank l <> Some chEQ) ->
  open_loop f d bp s <> UB.
Proof.
  induction f as [|f IH]; intros d bp s L P.
  - destruct s; [simpl; discriminate|simpl in L; lia].
  - simpl. destruct (fgets s) as [[l r]|] eqn:E; [|discriminate].
    destruct (fgets_some s l r E) as [Es Nl].
    destruct (par_line d bp (l ++ [NUL])) as [[[d' bp']|]| |] eqn:EP; cbn [bind]; try discriminate.
    + apply IH.
      * subst s. rewrite app_length in L. destruct l; [congruence|simpl in L; lia].
      * intros x Hx. apply P. eapply piece_later; eauto.
    + apply par_line_ub_iff in EP. destruct EP as [_ EP]. intros _.
      revert EP. apply P. eapply piece_here; eauto.
Qed.

Lemma par_open_safe : forall s fname txt,
  (forall l, piece_of txt l -> first_nonblank l <> Some chEQ) ->
  par_open s fname (Some txt) <> UB.
Proof.
  intros s fname txt P. unfold par_open. destruct (now_open s); [discriminate|].
  assert (H := open_loop_safe (length txt) (blocks s) None txt (le_n _) P).
  destruct (open_loop _ _ _ _); cbn [bind]; congruence.
Qed.
