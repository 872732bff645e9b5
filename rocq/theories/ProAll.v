(** * Prolongate: all the boundaries of a child Grid *)
From Coq Require Import Reals ZArith Bool Arith Lia Lra ZifyBool List.
From Verif Require Import CStr MeshModel SmrModel SmrOverlap SmrFacts SmrProps ProModel ProPass ProFill.
Import ListNotations.
Open Scope Z_scope.

(** The part of the message for a boundary. *)
Definition msg (c : cfg) (nDim : nat) (ng : Z) (oc : ovl) (gp : gst) (d : axis * bool) : list R :=
  let (a, s) := d in if negb (some (o_flx oc a s)) then [] else
    map (fun '((k, j, i), t) => gslot gp k j i t)
      (cells2 (cells3 (upto (cs nDim ng oc a s X3) (ce nDim ng oc a s X3)) (upto (cs nDim ng oc a s X2) (ce nDim ng oc a s X2)) (upto (cs nDim ng oc a s X1) (ce nDim ng oc a s X1))) (slots c)).
(** A pass over a boundary with flags writes [e]. *)
Definition writes (c : cfg) (nDim : nat) (ng : Z) (of : ovl) (d : axis * bool) (e : el) : Prop :=
  some (o_flx of (fst d) (snd d)) = true /\ wp c nDim ng of (fst d) (snd d) e.
Definition top3 (of : ovl) (e : el) : Prop := match e with EB X3 k _ _ => k = o_e of X3 + 1 | _ => False end.
(** Elements that only passes over the other boundaries have written although they are beyond
    a boundary along x3. *)
Definition pending (c : cfg) (nDim : nat) (ng : Z) (of : ovl) (D : list (axis * bool)) (e : el) : Prop :=
  out of X3 (epos e X3) = true /\ ~ top3 of e /\ forall s, In (X3, s) D -> ~ writes c nDim ng of (X3, s) e.

Lemma wp_dec : forall c nDim ng of a s e, wp c nDim ng of a s e \/ ~ wp c nDim ng of a s e.
Proof.
  intros c nDim ng of a s e.
  assert (RD : regn nDim ng of a s (epos e) \/ ~ regn nDim ng of a s (epos e)).
  { destruct (all3 (fun b => (ps nDim ng of a s b <=? epos e b) && (epos e b <=? pe nDim ng of a s b))) eqn:Q; unfold all3 in Q; [left|right].
    - intros b. destruct b; lia.
    - intros H. pose proof (H X1). pose proof (H X2). pose proof (H X3). lia. }
  destruct RD as [RD|RD]; [|right; intros [H _]; contradiction].
  destruct e as [v k j i|b k j i].
  - destruct (memv c v) eqn:M; [left; split; [exact RD|apply memv_spec; exact M]|right]. intros [_ H]. apply memv_spec in H. congruence.
  - destruct (c_mhd c) eqn:M; [|right; intros [_ [H _]]; congruence].
    destruct (Nat.eq_dec nDim 1) as [N|N]; [left; split; [exact RD|split; [exact M|contradiction]]|].
    destruct (axis_eqb a b && s && (at_ k j i b =? ps nDim ng of a s b)) eqn:Q.
    + right. intros [_ [_ H]]. apply (H N). apply andb_prop in Q. destruct Q as [Q Q3]. apply andb_prop in Q. destruct Q as [Q1 Q2]. apply axis_eqb_spec in Q1. cbn [epos]. split; [exact Q1|]. split; [exact Q2|]. lia.
    + left. split; [exact RD|split; [exact M|]]. intros _ (H1 & H2 & H3). subst b. rewrite eqb_self, H2 in Q. cbn [andb epos] in *. lia.
Qed.
Lemma top3_dec : forall of e, top3 of e \/ ~ top3 of e.
Proof. intros of [|[] k j i]; cbn; auto. destruct (Z.eq_dec k (o_e of X3 + 1)); auto. Qed.

Section All.
Variables (c : cfg) (fo : bool) (nDim : nat) (ng : Z) (oc of : ovl) (dx1 dx2 dx3 : R) (gp g0 : gst).
Hypotheses (P : paired c nDim oc of) (E : evn ng) (POS : forall b, 0 < len of b).
(** Elements that are computed from the field on the faces. *)
Definition needs (e : el) : Prop := (2 <= nDim)%nat /\ c_mhd c = true /\ match e with EU v _ _ _ => isB v <> None | EB _ _ _ _ => True end.
Definition inv (D : list (axis * bool)) (g : gst) : Prop := forall e,
  ((forall d, In d D -> ~ writes c nDim ng of d e) -> get g e = get g0 e) /\
  (forall d, In d D -> writes c nDim ng of d e -> ~ pending c nDim ng of D e -> (needs e -> usable fo nDim ng oc of gp g0) -> get g e = target c fo nDim oc of dx1 dx2 dx3 gp g0 e).

Lemma flagm : forall a s, some (o_flx of a s) = true -> many nDim a = true.
Proof.
  intros a s H. destruct (many nDim a) eqn:M; [reflexivity|]. rewrite (some_flags oc of a s (pd_flags _ _ _ _ P)) in H. rewrite (pd_flx _ _ _ _ P a s) in H; [discriminate|].
  rewrite many_ratio by apply (pd_dim _ _ _ _ P). rewrite M. reflexivity.
Qed.
Lemma fixed_free : forall d b k j i, (2 <= nDim)%nat -> fixedB of b (at_ k j i) = true -> ~ writes c nDim ng of d (EB b k j i).
Proof.
  intros [a s] b k j i TD F (FL & RG & _ & W). cbn [fst snd] in *. apply fixed_spec in F. destruct F as (F1 & F2). cbn [epos] in *.
  destruct (axis_eqb a b) eqn:AB.
  - apply axis_eqb_spec in AB. subst b. assert (RA : if s then o_e of a + 1 <= at_ k j i a else at_ k j i a <= o_s of a - 1).
    { pose proof (RG a) as Q. unfold ps, pe in Q. rewrite eqb_self in Q. destruct s; cbn [andb negb] in Q; lia. }
    specialize (POS a). unfold len in POS. destruct s.
    + assert (at_ k j i a = o_e of a + 1) by (destruct F1 as [[F1 _]|[F1 _]]; lia).
      apply W; [lia|]. repeat split. unfold ps. rewrite eqb_self. cbn [andb]. exact H.
    + destruct F1 as [[F1 _]|[F1 _]]; lia.
  - assert (N : a <> b) by (intros ->; rewrite eqb_self in AB; discriminate). specialize (F2 a N).
    rewrite (out_region nDim ng of a s _ FL (RG a)) in F2. discriminate.
Qed.
Lemma bval_nop : forall u p p' q e, nDim = 1%nat \/ c_mhd c = false -> (match e with EB _ _ _ _ => c_mhd c = true | _ => True end) -> bval c fo nDim u p q e = bval c fo nDim u p' q e.
Proof.
  intros u p p' [[k j] i] e [N|N] M; destruct e; cbn [bval].
  - destruct (isB v); rewrite ?N; cbn [Nat.eqb negb]; rewrite ?andb_false_r; reflexivity.
  - rewrite N. reflexivity.
  - destruct (isB v); rewrite ?N; reflexivity.
  - congruence.
Qed.
Lemma bval_stencil : forall u u' p q e, sagree c u u' -> (match e with EU v _ _ _ => In v (vars c) | EB _ _ _ _ => c_mhd c = true end) -> bval c fo nDim u p q e = bval c fo nDim u' p q e.
Proof.
  intros u u' p [[k j] i] e S M. destruct e; cbn [bval].
  - rewrite (ProCon_ext c fo u u' _ _ _ _ S M). reflexivity.
  - rewrite (ProCon_ext c fo u u' _ _ _ (VBof a) S); [reflexivity|]. apply memv_spec, mem_B, M.
Qed.
Lemma out_base : forall b x, out of b (base1 nDim of b x) = out of b x.
Proof.
  intros b x. unfold base1, par. destruct (many nDim b) eqn:M; [|rewrite Z.sub_0_r; reflexivity].
  destruct (pd_len _ _ _ _ P b) as (L & L0). rewrite many_ratio in L by apply (pd_dim _ _ _ _ P). rewrite M in L. specialize (POS b). unfold len in *. unfold out.
  f_equal; f_equal; Z.div_mod_to_equations; lia.
Qed.
(** One boundary. *)
Lemma step : forall D g a s f, inv D g -> some (o_flx of a s) = true -> holds c nDim ng oc of a s gp f -> (a = X3 \/ forall s, ~ In (X3, s) D) -> many nDim a = true ->
  inv (D ++ [(a, s)]) (state c fo nDim ng of dx1 dx2 dx3 a s f g).
Proof.
  intros D g a s f IV FL H ORD MA e. destruct (pass_get c fo nDim ng oc of a s dx1 dx2 dx3 f g e P E MA) as [W1 W2].
  pose proof (pd_dim _ _ _ _ P) as ND.
  assert (DEC : wp c nDim ng of a s e \/ ~ wp c nDim ng of a s e).
  { apply wp_dec. }
  split.
  - intros NW. rewrite W2.
    + apply (IV e). intros d ID. apply NW. apply in_or_app. left. exact ID.
    + intros W. apply (NW (a, s)); [apply in_or_app; right; left; reflexivity|]. split; assumption.
  - intros d ID W NP US. destruct DEC as [WP|WP].
    2: { rewrite (W2 WP). apply in_app_or in ID. destruct ID as [ID|[ID|[]]].
         - apply (IV e) with (d := d); [exact ID|exact W| |exact US]. intros (Q1 & Q2 & Q3). apply NP. split; [exact Q1|]. split; [exact Q2|].
           intros s' IS. apply in_app_or in IS. destruct IS as [IS|[IS|[]]]; [apply Q3; exact IS|]. injection IS as -> ->. intros (_ & X). contradiction.
         - subst d. destruct W as (_ & W). contradiction. }
    specialize (W1 WP). destruct WP as [RG WP]. unfold target. destruct (bq nDim of e) as [[k j] i] eqn:Q. cbv zeta in W1. rewrite W1. clear W1 W2.
    destruct (regn_base c nDim ng oc of a s e k j i P E MA RG Q) as (RB & PR).
    assert (OK : match e with EU v _ _ _ => In v (vars c) | EB _ _ _ _ => c_mhd c = true end) by (destruct e; [exact WP|apply WP]).
    rewrite (bval_stencil _ _ _ _ _ (stenc_ok c nDim ng oc of a s gp f k j i P E MA H RB) OK).
    destruct (Nat.eq_dec nDim 1) as [N1|N1]; [apply bval_nop; [auto|destruct e; auto]|].
    destruct (match e with EU v _ _ _ => match isB v with Some _ => true | None => false end | EB _ _ _ _ => true end) eqn:NE; [|destruct e as [v k' j' i'|]; [cbn [bval]; destruct (isB v); [discriminate|reflexivity]|discriminate]].
    destruct (c_mhd c) eqn:MH; [|apply bval_nop; [auto|destruct e; auto; congruence]].
    assert (TD : (2 <= nDim)%nat) by lia. assert (US' : usable fo nDim ng oc of gp g0) by (apply US; split; [exact TD|split; [first [exact MH|reflexivity]|destruct e as [v ? ? ?|]; [destruct (isB v); discriminate|exact I]]]).
    assert (SAME : forall b k j i, fixedB of b (at_ k j i) = true -> get g (EB b k j i) = get g0 (EB b k j i)).
    { intros b k' j' i' F. apply (IV (EB b k' j' i')). intros d' _. apply fixed_free; assumption. }
    assert (K0 : k = base1 nDim of X3 (epos e X3)) by (unfold bq in Q; congruence).
    assert (OE : out of X3 k = out of X3 (epos e X3)) by (rewrite K0; apply out_base).
    assert (BQ : forall p p', eqrv p p' -> bval c fo nDim (cst nDim gp (ci nDim oc of X3 k) (ci nDim oc of X2 j) (ci nDim oc of X1 i)) p (k, j, i) e = bval c fo nDim (cst nDim gp (ci nDim oc of X3 k) (ci nDim oc of X2 j) (ci nDim oc of X1 i)) p' (k, j, i) e).
    { intros p p' EQ. rewrite <- Q. apply bval_ext; assumption. }
    destruct (axis_eqb a X3) eqn:A3; [|destruct (out of X3 k) eqn:OK3].
    + apply axis_eqb_spec in A3. apply BQ. apply interior_ext. apply (outer_ok c) ; auto.
    + assert (T : top3 of e).
      { destruct (top3_dec of e) as [T|T]; [exact T|]. exfalso. apply NP. split; [congruence|]. split; [exact T|].
        intros s' IS. apply in_app_or in IS. destruct IS as [IS|[IS|[]]].
        - destruct ORD as [->|ORD]; [discriminate|]. destruct (ORD s' IS).
        - injection IS as -> _. discriminate. }
      destruct e as [|b k' j' i']; [contradiction|]. destruct b; try contradiction. cbn [top3] in T. cbn [bval epos at_] in *.
      assert (N1' : (nDim =? 1)%nat = false) by (apply Nat.eqb_neq; exact N1). rewrite N1'. cbn [xof].
      assert (KK : k' = k).
      { rewrite K0. unfold base1, par. destruct (many nDim X3) eqn:M3; [|lia].
        destruct (pd_len _ _ _ _ P X3) as (L & L0). rewrite many_ratio in L by exact ND. rewrite M3 in L. unfold len in *. rewrite T. replace (o_e of X3 + 1 - o_s of X3) with (2 * (o_e oc X3 - o_s oc X3 + 1)) by lia. rewrite Z.mul_comm, Z_mod_mult. lia. }
      clear T. subst k'. replace (k - k) with 0 by lia. unfold ProFld, interior. cbn [x3 Z.eqb].
      pose proof (bq_blk nDim of (EB X3 k j' i') k j i Q) as BL. rewrite inblk_spec in BL. pose proof (BL X1) as B1. pose proof (BL X2) as B2. cbn [epos at_ nb many] in B1, B2.
      assert (M2 : nb nDim X2 1 = 1) by (unfold nb; cbn [many]; replace (2 <=? nDim)%nat with true by lia; reflexivity). rewrite M2 in B2.
      apply (outer3 c fo nDim ng oc of a s gp g g0); auto; unfold bit. all: clear - B1 B2; lia.
    + apply BQ. apply interior_ext. apply (outer_ok c); auto.
Qed.
Lemma inv_skip : forall D g d, inv D g -> some (o_flx of (fst d) (snd d)) = false -> inv (D ++ [d]) g.
Proof.
  intros D g d IV F e. split.
  - intros NW. apply (IV e). intros d' ID. apply NW. apply in_or_app. auto.
  - intros d' ID W NP US. apply in_app_or in ID. destruct ID as [ID|[<-|[]]]; [|destruct W; congruence].
    apply (IV e) with (d := d'); [exact ID|exact W| |exact US]. intros (Q1 & Q2 & Q3). apply NP. split; [exact Q1|]. split; [exact Q2|].
    intros s' IS. apply in_app_or in IS. destruct IS as [IS|[IS|[]]]; [apply Q3; exact IS|]. subst d. intros (X & _). cbn [fst snd] in *. congruence.
Qed.
Lemma passes : forall l D g m rest, 0 < o_nP of -> inv D g -> m = flat_map (msg c nDim ng oc gp) l ++ rest ->
  (forall l1 a s l2, l = l1 ++ (a, s) :: l2 -> a = X3 \/ forall s', ~ In (X3, s') (D ++ l1)) ->
  exists g', fold_left (fun r d => match r with Some (g, m) => pass c fo nDim ng of dx1 dx2 dx3 d g m | None => None end) l (Some (g, m)) = Some (g', rest) /\ inv (D ++ l) g'.
Proof.
  induction l as [|[a s] l IH]; intros D g m rest NP IV M ORD.
  - exists g. rewrite app_nil_r. cbn in *. subst m. auto.
  - cbn [fold_left]. cbn [flat_map] in M. rewrite <- app_assoc in M.
    assert (O1 : a = X3 \/ forall s', ~ In (X3, s') D). { specialize (ORD [] a s l eq_refl). rewrite app_nil_r in ORD. exact ORD. }
    assert (O2 : forall l1 a0 s0 l2, l = l1 ++ (a0, s0) :: l2 -> a0 = X3 \/ forall s', ~ In (X3, s') ((D ++ [(a, s)]) ++ l1)).
    { intros l1 a0 s0 l2 L. rewrite <- app_assoc. apply (ORD ((a, s) :: l1) a0 s0 l2). rewrite L. reflexivity. }
    assert (SM : some (o_flx of a s) = some (o_flx oc a s)) by (apply some_flags, (pd_flags _ _ _ _ P)).
    replace (D ++ (a, s) :: l) with ((D ++ [(a, s)]) ++ l) by (rewrite <- app_assoc; reflexivity).
    destruct (some (o_flx of a s)) eqn:FL.
    + pose proof (flagm a s FL) as MA. unfold msg in M at 1. rewrite <- SM in M. cbn [negb] in M.
      destruct (load_ok c nDim ng oc of a s gp (flat_map (msg c nDim ng oc gp) l ++ rest) P E) as (f & LD & HF). rewrite <- M in LD.
      apply (copies_ok c nDim ng oc of a s gp f P MA) in HF.
      assert (PS : pass c fo nDim ng of dx1 dx2 dx3 (a, s) g m = Some (state c fo nDim ng of dx1 dx2 dx3 a s (copies nDim ng of a f) g, flat_map (msg c nDim ng oc gp) l ++ rest)).
      { unfold pass. rewrite FL. replace (0 <? o_nP of) with true by lia. cbn [andb negb]. rewrite LD. reflexivity. }
      rewrite PS. apply IH; auto. apply step; auto.
    + unfold msg in M at 1. rewrite <- SM in M. cbn [negb app] in M.
      assert (PS : pass c fo nDim ng of dx1 dx2 dx3 (a, s) g m = Some (g, m)) by (unfold pass; rewrite FL; reflexivity).
      rewrite PS. apply IH; auto. apply inv_skip; auto.
Qed.
Lemma inv0 : inv [] g0.
Proof. intros e. split; [reflexivity|]. intros d []. Qed.
Lemma prolong_inv : 0 < o_nP of -> o_nP oc = o_nP of -> exists g', prolong c fo nDim ng of dx1 dx2 dx3 g0 (pack_P c nDim ng oc gp) = Some (g', []) /\ inv (bounds nDim) g'.
Proof.
  intros NP EQ. unfold prolong. apply (passes (bounds nDim) [] g0 (pack_P c nDim ng oc gp) []); auto.
  - apply inv0.
  - rewrite app_nil_r. unfold pack_P. rewrite EQ. replace (o_nP of =? 0) with false by lia. apply flat_map_ext. intros [a s]. reflexivity.
  - pose proof (pd_dim _ _ _ _ P) as ND. assert (N : nDim = 1%nat \/ nDim = 2%nat \/ nDim = 3%nat) by lia.
    intros l1 a s l2 L. cbn [app]. destruct N as [->|[->| ->]]; cbn in L;
    repeat (destruct l1 as [|? l1]; cbn [app] in L; [injection L as; subst; try (left; reflexivity); right; cbn; intros; intuition discriminate|injection L as ? L]; subst);
    destruct l1; discriminate.
Qed.
(** Beyond a boundary of the refined region. *)
Definition ghost (p : vec) : Prop := exists a s, some (o_flx of a s) = true /\ regn nDim ng of a s p.
Lemma ghost_out : forall p, ghost p <-> (forall b, o_s of b - nb nDim b ng <= p b <= o_e of b + nb nDim b ng) /\ exists b, out of b (p b) = true.
Proof.
  intros p. split.
  - intros (a & s & FL & RG). pose proof (flagm a s FL) as MA. split; [|exists a; apply (out_region nDim ng of a s); auto].
    intros b. specialize (RG b). specialize (POS b). unfold len in POS. unfold ps, pe in RG. unfold nb. destruct (axis_eqb a b) eqn:AB.
    + apply axis_eqb_spec in AB. subst b. rewrite MA in *. destruct E as [E0 _]. destruct s; cbn [andb negb] in RG; lia.
    + cbn [andb] in RG. destruct (many nDim b); lia.
  - intros (BX & b & O). unfold out in O. apply orb_prop in O.
    assert (X : exists s, some (o_flx of b s) = true /\ (if s then o_e of b + 1 <= p b else p b <= o_s of b - 1)).
    { destruct O as [O|O]; apply andb_prop in O; destruct O as [O1 O2]; [exists false|exists true]; (split; [exact O2|lia]). }
    destruct X as (s & FL & X). exists b, s. split; [exact FL|]. intros d. specialize (BX d). unfold nb in BX. unfold ps, pe. destruct (axis_eqb b d) eqn:BD.
    + apply axis_eqb_spec in BD. subst d. rewrite (flagm b s FL) in *. destruct s; cbn [andb negb]; lia.
    + cbn [andb]. destruct (many nDim d); lia.
Qed.
Lemma in_bounds : forall a s, many nDim a = true -> In (a, s) (bounds nDim).
Proof.
  intros a s M. pose proof (pd_dim _ _ _ _ P) as ND. assert (N : nDim = 1%nat \/ nDim = 2%nat \/ nDim = 3%nat) by lia.
  destruct N as [->|[->| ->]]; destruct a, s; try discriminate; cbn; auto 10.
Qed.
(** What Prolongate does to the child Grid. *)
Theorem prolong_get : 0 < o_nP of -> o_nP oc = o_nP of ->
  exists g', prolong c fo nDim ng of dx1 dx2 dx3 g0 (pack_P c nDim ng oc gp) = Some (g', []) /\
  (forall v k j i, In v (vars c) -> ghost (at_ k j i) -> (needs (EU v k j i) -> usable fo nDim ng oc of gp g0) -> get g' (EU v k j i) = target c fo nDim oc of dx1 dx2 dx3 gp g0 (EU v k j i)) /\
  (forall b k j i, c_mhd c = true -> ghost (at_ k j i) -> ((2 <= nDim)%nat -> usable fo nDim ng oc of gp g0) -> nDim = 1%nat \/ fixedB of b (at_ k j i) = false -> get g' (EB b k j i) = target c fo nDim oc of dx1 dx2 dx3 gp g0 (EB b k j i)) /\
  (forall e, (ghost (epos e) -> match e with EU v _ _ _ => ~ In v (vars c) | EB b _ _ _ => c_mhd c = true -> nDim <> 1%nat /\ fixedB of b (epos e) = true end) -> get g' e = get g0 e).
Proof.
  intros NP EQ. destruct (prolong_inv NP EQ) as (g' & PR & IV). exists g'. split; [exact PR|].
  assert (NPD : forall e, (exists a s, writes c nDim ng of (a, s) e) -> ~ pending c nDim ng of (bounds nDim) e).
  { intros e (a & s & W) (O & NT & X). destruct W as (FL & RG & W). cbn [fst snd] in *.
    assert (G : ghost (epos e)) by (exists a, s; auto). apply ghost_out in G. destruct G as [BX _].
    unfold out in O. apply orb_prop in O.
    assert (Y : exists s, some (o_flx of X3 s) = true /\ (if s then o_e of X3 + 1 <= epos e X3 else epos e X3 <= o_s of X3 - 1)).
    { destruct O as [O|O]; apply andb_prop in O; destruct O as [O1 O2]; [exists false|exists true]; (split; [exact O2|clear - O1; lia]). }
    destruct Y as (s' & FL' & Y). apply (X s'); [apply in_bounds, (flagm X3 s' FL')|]. split; [exact FL'|]. cbn [fst snd]. split.
    - intros d. specialize (BX d). unfold nb in BX. unfold ps, pe. pose proof (flagm X3 s' FL') as M3. clear - BX Y M3. destruct (axis_eqb X3 d) eqn:BD.
      + apply axis_eqb_spec in BD. subst d. rewrite M3 in *. destruct s'; cbn [andb negb]; lia.
      + cbn [andb]. destruct (many nDim d); lia.
    - destruct e as [|b k j i]; [exact W|]. destruct W as [W _]. split; [exact W|]. intros N (Q1 & Q2 & Q3). subst b. apply NT. cbn [top3]. cbn [epos at_] in Q3. rewrite Q3. subst s'. reflexivity. }
  split; [|split].
  - intros v k j i V G US. destruct G as (a & s & FL & RG).
    assert (W : writes c nDim ng of (a, s) (EU v k j i)) by (split; [exact FL|split; [exact RG|exact V]]).
    apply (proj2 (IV _) (a, s)); [apply in_bounds, (flagm a s FL)|exact W|apply NPD; eauto|exact US].
  - intros b k j i MH G US NF.
    assert (W : exists a s, writes c nDim ng of (a, s) (EB b k j i)).
    { pose proof G as G'. destruct G as (a & s & FL & RG). destruct NF as [N|NF].
      - exists a, s. split; [exact FL|]. split; [exact RG|]. split; [exact MH|]. contradiction.
      - apply ghost_out in G'. destruct G' as [BX _].
        destruct (wp_dec c nDim ng of a s (EB b k j i)) as [W|W]; [exists a, s; split; assumption|].
        (* the pass skips this face *)
        assert (Q : a = b /\ s = true /\ at_ k j i b = o_e of b + 1).
        { destruct (axis_eqb a b && s && (at_ k j i b =? ps nDim ng of a s b)) eqn:Q.
          - apply andb_prop in Q. destruct Q as [Q Q3]. apply andb_prop in Q. destruct Q as [Q1 Q2]. apply axis_eqb_spec in Q1. subst b s. split; [reflexivity|]. split; [reflexivity|].
            apply Z.eqb_eq in Q3. rewrite Q3. unfold ps. rewrite eqb_self. reflexivity.
          - exfalso. apply W. split; [exact RG|]. split; [exact MH|]. intros _ (Q1 & Q2 & Q3). cbn [epos] in Q3. subst b s. rewrite eqb_self, Q3, Z.eqb_refl in Q. discriminate. }
        destruct Q as (-> & -> & Q).
        assert (X : exists d, d <> b /\ out of d (at_ k j i d) = true).
        { destruct (existsb (fun d => negb (axis_eqb d b) && out of d (at_ k j i d)) [X1; X2; X3]) eqn:EX.
          - apply existsb_exists in EX. destruct EX as (d & _ & EX). apply andb_prop in EX. destruct EX as [E1 E2]. exists d. split; [|exact E2]. intros ->. rewrite eqb_self in E1. discriminate.
          - exfalso. assert (F : fixedB of b (at_ k j i) = true); [|congruence]. apply fixed_spec. split; [right; auto|].
            intros d D. destruct (out of d (at_ k j i d)) eqn:O; [|reflexivity]. exfalso. assert (T : existsb (fun d => negb (axis_eqb d b) && out of d (at_ k j i d)) [X1; X2; X3] = true); [|congruence].
            apply existsb_exists. exists d. split; [destruct d; cbn; auto|]. rewrite O, andb_true_r. apply negb_true_iff. destruct (axis_eqb d b) eqn:DB; [apply axis_eqb_spec in DB; contradiction|reflexivity]. }
        destruct X as (d & D & O). unfold out in O. apply orb_prop in O.
        assert (Y : exists s, some (o_flx of d s) = true /\ (if s then o_e of d + 1 <= at_ k j i d else at_ k j i d <= o_s of d - 1)).
        { destruct O as [O|O]; apply andb_prop in O; destruct O as [O1 O2]; [exists false|exists true]; (split; [exact O2|clear - O1; lia]). }
        destruct Y as (s' & FL' & Y). exists d, s'. split; [exact FL'|]. cbn [fst snd]. split.
        + intros x. specialize (BX x). unfold nb in BX. unfold ps, pe. cbn [epos]. pose proof (flagm d s' FL') as M3. clear - BX Y M3. destruct (axis_eqb d x) eqn:BD.
          * apply axis_eqb_spec in BD. subst x. rewrite M3 in *. destruct s'; cbn [andb negb]; lia.
          * cbn [andb]. destruct (many nDim x); lia.
        + split; [exact MH|]. intros _ (D' & _). contradiction. }
    destruct W as (a & s & W). apply (proj2 (IV _) (a, s)); [apply in_bounds, (flagm a s), W|exact W|apply NPD; eauto|intros (TD & _); apply US, TD].
  - intros e H. apply (IV e). intros [a s] _ (FL & RG & W). cbn [fst snd] in *. assert (G : ghost (epos e)) by (exists a, s; auto). specialize (H G).
    destruct e as [v k j i|b k j i]; [contradiction|]. pose proof W as W'. destruct W as [MH W]. destruct (H MH) as (N & F).
    apply (fixed_free (a, s) b k j i); [pose proof (pd_dim _ _ _ _ P); lia|exact F|]. split; [exact FL|]. split; [exact RG|exact W'].
Qed.
End All.
