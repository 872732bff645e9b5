(** * Prolongate: the values of the ghost zones *)
From Coq Require Import Reals ZArith Bool Arith Lia Lra ZifyBool FunctionalExtensionality List.
From Verif Require Import CStr MeshModel SmrModel SmrOverlap SmrFacts SmrProps ProModel ProPass.
Import ListNotations.
Open Scope Z_scope.

(** ** Specification *)
(** The coarse cell (K, J, I) and its neighbours; along axes with one cell it is its own
    neighbour. *)
Definition cst (nDim : nat) (gp : gst) (K J I : Z) : stencil (var -> R) :=
  Sten (gU gp K J (I - 1)) (gU gp K J I) (gU gp K J (I + 1)) (gU gp K (J - nb nDim X2 1) I) (gU gp K (J + nb nDim X2 1) I)
       (gU gp (K - nb nDim X3 1) J I) (gU gp (K + nb nDim X3 1) J I).
(** Values on the four fine faces of a coarse face. *)
Definition tr (fo : bool) (nDim : nat) (gp : gst) (a : axis) (K J I n m l : Z) : R :=
  match a with
  | X1 => gB1 gp K J I + sg m (1/4 * slope fo (gB1 gp K (J - nb nDim X2 1) I) (gB1 gp K J I) (gB1 gp K (J + nb nDim X2 1) I))
                       + sg n (1/4 * slope fo (gB1 gp (K - nb nDim X3 1) J I) (gB1 gp K J I) (gB1 gp (K + nb nDim X3 1) J I))
  | X2 => gB2 gp K J I + sg l (1/4 * slope fo (gB2 gp K J (I - 1)) (gB2 gp K J I) (gB2 gp K J (I + 1)))
                       + sg n (1/4 * slope fo (gB2 gp (K - nb nDim X3 1) J I) (gB2 gp K J I) (gB2 gp (K + nb nDim X3 1) J I))
  | X3 => gB3 gp K J I + sg l (1/4 * slope fo (gB3 gp K J (I - 1)) (gB3 gp K J I) (gB3 gp K J (I + 1)))
                       + sg m (1/4 * slope fo (gB3 gp K (J - nb nDim X2 1) I) (gB3 gp K J I) (gB3 gp K (J + nb nDim X2 1) I))
  end%R.
(** Beyond a boundary of the refined region along [b]. *)
Definition out (of : ovl) (b : axis) (x : Z) : bool := (x <? o_s of b) && some (o_flx of b false) || (o_e of b <? x) && some (o_flx of b true).
(** Faces on a boundary of the refined region and not beyond another one: there the field is
    that of the fine Grid. *)
Definition fixedB (of : ovl) (b : axis) (p : vec) : bool :=
  ((p b =? o_s of b) && some (o_flx of b false) || (p b =? o_e of b + 1) && some (o_flx of b true)) &&
  all3 (fun d => axis_eqb d b || negb (out of d (p d))).
Definition half1 (l : Z) : Z := if l =? 0 then 0 else 1.
(** The field on the faces of the coarse cell of the block that starts at (k, j, i). *)
Definition Oface (fo : bool) (nDim : nat) (oc of : ovl) (gp g0 : gst) (k j i : Z) : rv :=
  let K := ci nDim oc of X3 k in let J := ci nDim oc of X2 j in let I := ci nDim oc of X1 i in
  RV (fun n m l => if fixedB of X1 (at_ k j (i + l)) then gB1 g0 (k + nb nDim X3 n) (j + m) (i + l) else tr fo nDim gp X1 K J (I + half1 l) n m l)
     (fun n m l => if fixedB of X2 (at_ k (j + m) i) then gB2 g0 (k + nb nDim X3 n) (j + m) (i + l) else tr fo nDim gp X2 K (J + half1 m) I n m l)
     (fun n m l => if fixedB of X3 (at_ (k + n) j i) then gB3 g0 (k + n) (j + m) (i + l) else tr fo nDim gp X3 (K + nb nDim X3 (half1 n)) J I n m l).
(** What Prolongate is to put into an element of the ghost zones. *)
Definition target (c : cfg) (fo : bool) (nDim : nat) (oc of : ovl) (dx1 dx2 dx3 : R) (gp g0 : gst) (e : el) : R :=
  let '(k, j, i) := bq nDim of e in
  bval c fo nDim (cst nDim gp (ci nDim oc of X3 k) (ci nDim oc of X2 j) (ci nDim oc of X1 i)) (interior (Oface fo nDim oc of gp g0 k j i) dx1 dx2 dx3) (k, j, i) e.
(** Within the child Grid and its ghost zones along the other axes. *)
Definition inbox (nDim : nat) (ng : Z) (of : ovl) (a : axis) (p : vec) : Prop := forall b, b <> a -> o_s of b - nb nDim b ng <= p b <= o_e of b + nb nDim b ng.
(** ProFld takes the field of the child on a face if the first of its values there is not
    zero; if it is, that must not matter. *)
Definition usable (fo : bool) (nDim : nat) (ng : Z) (oc of : ovl) (gp g0 : gst) : Prop := forall a k j i,
  fixedB of a (at_ k j i) = true -> inbox nDim ng of a (at_ k j i) -> (forall b, par nDim of b (at_ k j i b) = 0) ->
  get g0 (EB a k j i) <> 0%R \/
  forall n m l, bit n -> bit m -> bit l -> at_ n m l a = 0 ->
    get g0 (EB a (k + nb nDim X3 n) (j + m) (i + l)) = tr fo nDim gp a (ci nDim oc of X3 k) (ci nDim oc of X2 j) (ci nDim oc of X1 i) n m l.

(** ** Coarse data *)
Lemma gi_range : forall c nDim ng oc of a s b x, paired c nDim oc of -> evn ng -> many nDim a = true -> ps nDim ng of a s b <= x <= pe nDim ng of a s b ->
  if many nDim b then 1 <= gi nDim ng of a s b x <= gze nDim ng of a b - 1 else gi nDim ng of a s b x = 1.
Proof.
  intros c nDim ng oc of a s b x P E MA H. pose proof (sizes c nDim ng oc of a s b P E MA) as S. destruct E as [E0 E1]. unfold gi, gze, ngz.
  destruct (pd_len _ _ _ _ P b) as (L & L0). rewrite many_ratio in L by apply (pd_dim _ _ _ _ P). unfold len in *.
  destruct (many nDim b) eqn:M.
  - unfold ps, pe in *. rewrite M in *. destruct (axis_eqb a b), s; cbn [andb negb] in *; Z.div_mod_to_equations; lia.
  - replace (x - ps nDim ng of a s b) with 0 by lia. reflexivity.
Qed.
Definition sagree (c : cfg) (u u' : stencil (var -> R)) : Prop := forall v, In v (vars c) ->
  im1 u v = im1 u' v /\ i0 u v = i0 u' v /\ ip1 u v = ip1 u' v /\ jm1 u v = jm1 u' v /\ jp1 u v = jp1 u' v /\ km1 u v = km1 u' v /\ kp1 u v = kp1 u' v.
Lemma ProCon_ext : forall c fo u u' n m l v, sagree c u u' -> In v (vars c) -> ProCon c fo u n m l v = ProCon c fo u' n m l v.
Proof.
  intros c fo u u' n m l v H V.
  assert (LN : forall v, In v (vars c) -> lin fo (smap (fun U => U v) u) n m l = lin fo (smap (fun U => U v) u') n m l).
  { intros w W. destruct (H w W) as (A1 & A2 & A3 & A4 & A5 & A6 & A7). unfold lin, smap. cbn [im1 i0 ip1 jm1 jp1 km1 kp1]. rewrite A1, A2, A3, A4, A5, A6, A7. reflexivity. }
  destruct v; try (apply LN; exact V).
  unfold ProCon. assert (IN : In VD (vars c) /\ In VM1 (vars c) /\ In VM2 (vars c) /\ In VM3 (vars c) /\ (c_mhd c = true -> In VB1 (vars c) /\ In VB2 (vars c) /\ In VB3 (vars c))).
  { unfold vars. repeat split; try (rewrite !in_app_iff; cbn; tauto); rewrite H0, !in_app_iff; cbn; tauto. }
  destruct IN as (ID & I1 & I2 & I3 & IB).
  destruct fo; [apply H; exact V|].
  assert (IR : forall pr, (forall v, In v (vars c) -> pr u v = pr u' v) -> inner c (pr u) = inner c (pr u')).
  { intros pr PR. unfold inner, kin, mag. rewrite !(PR _ V), !(PR _ ID), !(PR _ I1), !(PR _ I2), !(PR _ I3). destruct (c_mhd c); [|reflexivity]. destruct (IB eq_refl) as (B1 & B2 & B3). rewrite !(PR _ B1), !(PR _ B2), !(PR _ B3). reflexivity. }
  f_equal; [f_equal|].
  - unfold lin, smap. cbn [im1 i0 ip1 jm1 jp1 km1 kp1].
    rewrite (IR (@im1 _)), (IR (@i0 _)), (IR (@ip1 _)), (IR (@jm1 _)), (IR (@jp1 _)), (IR (@km1 _)), (IR (@kp1 _)); [reflexivity|..]; intros w W; apply (H w W).
  - unfold kin. rewrite !(LN _ ID), !(LN _ I1), !(LN _ I2), !(LN _ I3). reflexivity.
  - unfold mag. destruct (c_mhd c); [|reflexivity]. destruct (IB eq_refl) as (B1 & B2 & B3). rewrite !(LN _ B1), !(LN _ B2), !(LN _ B3). reflexivity.
Qed.
Lemma regn_base : forall c nDim ng oc of a s e k j i, paired c nDim oc of -> evn ng -> many nDim a = true -> regn nDim ng of a s (epos e) -> bq nDim of e = (k, j, i) ->
  regn nDim ng of a s (at_ k j i) /\ forall b, par nDim of b (at_ k j i b) = 0.
Proof.
  intros c nDim ng oc of a s e k j i P E MA RG Q.
  assert (V : forall b, at_ k j i b = base1 nDim of b (epos e b)) by (intros b; rewrite <- vof_bq, Q; reflexivity).
  split.
  - intros b. pose proof (bq_in c nDim ng oc of a s e P E MA RG) as IN. rewrite Q, in_blocks in IN. apply IN.
  - intros b. rewrite V. unfold base1, par. destruct (many nDim b); [|reflexivity]. Z.div_mod_to_equations; lia.
Qed.
Lemma stenc_ok : forall c nDim ng oc of a s gp f k j i, paired c nDim oc of -> evn ng -> many nDim a = true -> holds c nDim ng oc of a s gp f -> regn nDim ng of a s (at_ k j i) ->
  sagree c (stenc f (gi nDim ng of a s X3 k) (gi nDim ng of a s X2 j) (gi nDim ng of a s X1 i)) (cst nDim gp (ci nDim oc of X3 k) (ci nDim oc of X2 j) (ci nDim oc of X1 i)).
Proof.
  intros c nDim ng oc of a s gp f k j i P E MA H RG v V.
  pose proof (RG X1) as R1. pose proof (RG X2) as R2. pose proof (RG X3) as R3. cbn [at_] in R1, R2, R3.
  pose proof (gi_range c nDim ng oc of a s X1 i P E MA R1) as G1. pose proof (gi_range c nDim ng oc of a s X2 j P E MA R2) as G2. pose proof (gi_range c nDim ng oc of a s X3 k P E MA R3) as G3.
  assert (C : forall b x d, ps nDim ng of a s b <= x -> cof nDim ng oc a s b (gi nDim ng of a s b x + d) = ci nDim oc of b x + nb nDim b d) by (intros; apply (cof_gi c); auto).
  set (kk := gi nDim ng of a s X3 k) in *. set (jj := gi nDim ng of a s X2 j) in *. set (ii := gi nDim ng of a s X1 i) in *.
  assert (GET : forall dk dj di, (dk = 0 \/ dj = 0) -> -1 <= dk <= 1 -> -1 <= dj <= 1 -> -1 <= di <= 1 ->
     f (kk + dk) (jj + dj) (ii + di) (PU v) = gU gp (ci nDim oc of X3 k + nb nDim X3 dk) (ci nDim oc of X2 j + nb nDim X2 dj) (ci nDim oc of X1 i + di) v).
  { intros dk dj di OR DK DJ DI. rewrite H.
    - cbn [gslot]. unfold kk, jj, ii. rewrite !C by (apply R1 || apply R2 || apply R3). reflexivity.
    - apply slots_vars. exact V.
    - destruct (many nDim X3); [left|right]; split; auto; lia.
    - destruct (many nDim X2); [left|right]; split; auto; lia.
    - cbn [many] in G1. lia.
    - intros N. split; [|exists v; reflexivity]. subst nDim. cbn [many Nat.leb] in G2, G3. lia. }
  unfold stenc, cst, cell. cbn [im1 i0 ip1 jm1 jp1 km1 kp1].
  assert (Z0 : forall x, x + 0 = x) by (intros; lia). assert (N0 : forall b, nb nDim b 0 = 0) by (intros; unfold nb; destruct (many nDim b); reflexivity).
  assert (NM : forall b, nb nDim b (-1) = - nb nDim b 1) by (intros; unfold nb; destruct (many nDim b); reflexivity).
  assert (G : forall dk dj di k' j' i' K J I, (dk = 0 \/ dj = 0) -> -1 <= dk <= 1 -> -1 <= dj <= 1 -> -1 <= di <= 1 -> k' = kk + dk -> j' = jj + dj -> i' = ii + di ->
    K = ci nDim oc of X3 k + nb nDim X3 dk -> J = ci nDim oc of X2 j + nb nDim X2 dj -> I = ci nDim oc of X1 i + di -> f k' j' i' (PU v) = gU gp K J I v).
  { intros dk dj di k' j' i' K J I OR D1 D2 D3 -> -> -> -> -> ->. apply GET; assumption. }
  pose proof (N0 X2). pose proof (N0 X3). pose proof (NM X2). pose proof (NM X3).
  repeat split; [apply (G 0 0 (-1))|apply (G 0 0 0)|apply (G 0 0 1)|apply (G 0 (-1) 0)|apply (G 0 1 0)|apply (G (-1) 0 0)|apply (G 1 0 0)]; lia.
Qed.
Lemma bgz_ok : forall c nDim ng oc of a s gp f k j i b n m l, paired c nDim oc of -> evn ng -> many nDim a = true -> holds c nDim ng oc of a s gp f -> regn nDim ng of a s (at_ k j i) ->
  c_mhd c = true -> (2 <= nDim)%nat -> 0 <= n <= 2 -> 0 <= m <= 2 -> 0 <= l <= 2 ->
  xof (bgz f (gi nDim ng of a s X3 k) (gi nDim ng of a s X2 j) (gi nDim ng of a s X1 i)) b n m l =
  get gp (EB b (ci nDim oc of X3 k + nb nDim X3 (n - 1)) (ci nDim oc of X2 j + (m - 1)) (ci nDim oc of X1 i + (l - 1))).
Proof.
  intros c nDim ng oc of a s gp f k j i b n m l P E MA H RG MH TD N M L.
  pose proof (RG X1) as R1. pose proof (RG X2) as R2. pose proof (RG X3) as R3. cbn [at_] in R1, R2, R3.
  pose proof (gi_range c nDim ng oc of a s X1 i P E MA R1) as G1. pose proof (gi_range c nDim ng oc of a s X2 j P E MA R2) as G2. pose proof (gi_range c nDim ng oc of a s X3 k P E MA R3) as G3.
  assert (C : forall b x d, ps nDim ng of a s b <= x -> cof nDim ng oc a s b (gi nDim ng of a s b x + d) = ci nDim oc of b x + nb nDim b d) by (intros; apply (cof_gi c); auto).
  assert (M2 : many nDim X2 = true) by (cbn [many]; lia). rewrite M2 in G2. cbn [many] in G1.
  assert (EQ : f (gi nDim ng of a s X3 k + (n - 1)) (gi nDim ng of a s X2 j + (m - 1)) (gi nDim ng of a s X1 i + (l - 1)) (PB b) =
               gslot gp (ci nDim oc of X3 k + nb nDim X3 (n - 1)) (ci nDim oc of X2 j + nb nDim X2 (m - 1)) (ci nDim oc of X1 i + nb nDim X1 (l - 1)) (PB b)).
  { rewrite H.
    - rewrite !C by (apply R1 || apply R2 || apply R3). reflexivity.
    - apply slots_B. exact MH.
    - destruct (many nDim X3); [left|right]; split; auto; lia.
    - left. split; [exact M2|lia].
    - lia.
    - lia. }
  unfold nb at 2 3 in EQ. rewrite M2 in EQ. cbn [many] in EQ. destruct b; exact EQ.
Qed.

(** ** The faces of a coarse cell *)
Lemma out_region : forall nDim ng of a s x, some (o_flx of a s) = true -> ps nDim ng of a s a <= x <= pe nDim ng of a s a -> out of a x = true.
Proof.
  intros nDim ng of a s x F H. unfold out, ps, pe in *. assert (AA : axis_eqb a a = true) by (destruct a; reflexivity). rewrite AA in H. destruct s; cbn [andb negb] in H; rewrite F; lia.
Qed.
Lemma inrange_out : forall c nDim ng oc of a s b x, paired c nDim oc of -> evn ng -> a <> b -> par nDim of b x = 0 ->
  inrange nDim ng of a s b x = negb (out of b x).
Proof.
  intros c nDim ng oc of a s b x P E NE PR. unfold inrange, out.
  assert (AB : axis_eqb a b = false) by (destruct (axis_eqb a b) eqn:Q; [apply axis_eqb_spec in Q; contradiction|reflexivity]).
  unfold ps, pe, par in *. rewrite AB. cbn [andb].
  destruct (pd_len _ _ _ _ P b) as (L & L0). rewrite many_ratio in L by apply (pd_dim _ _ _ _ P). unfold len in *.
  destruct (many nDim b) eqn:M.
  - assert (Q1 : (o_s of b - ng + ng <=? x) = negb (x <? o_s of b)) by lia.
    assert (Q2 : (x <? o_e of b + ng - ng) = negb (o_e of b <? x)) by (Z.div_mod_to_equations; lia). rewrite Q1, Q2.
    destruct (x <? o_s of b), (o_e of b <? x), (some (o_flx of b false)), (some (o_flx of b true)); reflexivity.
  - assert (FN : forall t, some (o_flx of b t) = false).
    { intros t. rewrite (some_flags oc of b t (pd_flags _ _ _ _ P)). rewrite (pd_flx _ _ _ _ P b t); [reflexivity|]. rewrite many_ratio by apply (pd_dim _ _ _ _ P). rewrite M. reflexivity. }
    rewrite !FN. rewrite !andb_false_r, !orb_true_r. reflexivity.
Qed.
(** Values from the coarse Grid. *)
Lemma isz0 : isz 0 = true. Proof. unfold isz. destruct (Req_EM_T 0 0); [reflexivity|contradiction]. Qed.
Lemma isz_ne : forall x, x <> 0%R -> isz x = false. Proof. intros x H. unfold isz. destruct (Req_EM_T x 0); [contradiction|reflexivity]. Qed.
Lemma eqb_self : forall a, axis_eqb a a = true. Proof. intros []; reflexivity. Qed.
Lemma par_plus : forall nDim of b x, par nDim of b x = 0 -> par nDim of b (x + 2) = 0.
Proof. intros nDim of b x. unfold par. destruct (many nDim b); [|auto]. intros. Z.div_mod_to_equations; lia. Qed.
Lemma ci_plus : forall nDim oc of b x, many nDim b = true -> ci nDim oc of b (x + 2) = ci nDim oc of b x + 1.
Proof. intros nDim oc of b x M. unfold ci. rewrite M. Z.div_mod_to_equations; lia. Qed.
Section Faces.
Variables (c : cfg) (fo : bool) (nDim : nat) (ng : Z) (oc of : ovl) (a : axis) (s : bool) (gp g g0 : gst) (f : gz) (k j i : Z).
Hypotheses (P : paired c nDim oc of) (E : evn ng) (MA : many nDim a = true) (H : holds c nDim ng oc of a s gp f) (RG : regn nDim ng of a s (at_ k j i)).
Hypotheses (MH : c_mhd c = true) (TD : (2 <= nDim)%nat) (FL : some (o_flx of a s) = true) (PR : forall b, par nDim of b (at_ k j i b) = 0).
Hypotheses (US : usable fo nDim ng oc of gp g0) (POS : forall b, 0 < len of b).
Hypothesis SAME : forall b k j i, fixedB of b (at_ k j i) = true -> get g (EB b k j i) = get g0 (EB b k j i).
Let b0 := bgz f (gi nDim ng of a s X3 k) (gi nDim ng of a s X2 j) (gi nDim ng of a s X1 i).
Let K := ci nDim oc of X3 k. Let J := ci nDim oc of X2 j. Let I := ci nDim oc of X1 i.
Lemma B_ok : forall b n m l, 0 <= n <= 2 -> 0 <= m <= 2 -> 0 <= l <= 2 -> xof b0 b n m l = get gp (EB b (K + nb nDim X3 (n - 1)) (J + (m - 1)) (I + (l - 1))).
Proof. intros. apply (bgz_ok c nDim ng oc of a s gp f); auto. Qed.
Lemma nb0 : nb nDim X3 0 = 0. Proof. unfold nb. destruct (many nDim X3); reflexivity. Qed.
Lemma nbm : nb nDim X3 (-1) = - nb nDim X3 1. Proof. unfold nb. destruct (many nDim X3); reflexivity. Qed.
Lemma M2 : nb nDim X2 1 = 1. Proof. unfold nb. cbn [many]. replace (2 <=? nDim)%nat with true by lia. reflexivity. Qed.
Lemma aout : out of a (at_ k j i a) = true.
Proof. apply (out_region nDim ng of a s); [exact FL|]. apply RG. Qed.

(** The computed values. *)
Lemma tr1_ok : forall p n m l, bit n -> bit m -> (l = 0 \/ l = 2) -> isz (x1 p 0 0 l) = true -> x1 (outer fo b0 p) n m l = tr fo nDim gp X1 K J (I + half1 l) n m l.
Proof.
  intros p n m l N M L Z. unfold outer. cbn [x1]. rewrite Z.
  pose proof (fun n m l => B_ok X1 n m l) as B. cbn [xof get] in B. unfold tr. rewrite M2.
  destruct L as [-> | ->]; cbn [Z.eqb Pos.eqb orb andb half1]; rewrite !B by lia; cbn [Z.sub Z.add Z.opp Z.pos_sub Pos.pred_double]; rewrite ?nb0, ?nbm, ?Z.add_0_r; reflexivity.
Qed.
Lemma tr2_ok : forall p n m l, bit n -> bit l -> (m = 0 \/ m = 2) -> isz (x2 p 0 m 0) = true -> x2 (outer fo b0 p) n m l = tr fo nDim gp X2 K (J + half1 m) I n m l.
Proof.
  intros p n m l N M L Z. unfold outer. cbn [x2]. rewrite Z.
  pose proof (fun n m l => B_ok X2 n m l) as B. cbn [xof get] in B. unfold tr.
  destruct L as [-> | ->]; cbn [Z.eqb Pos.eqb orb andb half1]; rewrite !B by lia; cbn [Z.sub Z.add Z.opp Z.pos_sub Pos.pred_double]; rewrite ?nb0, ?nbm, ?Z.add_0_r; reflexivity.
Qed.
Lemma tr3_ok : forall p n m l, bit m -> bit l -> (n = 0 \/ n = 2) -> isz (x3 p n 0 0) = true -> x3 (outer fo b0 p) n m l = tr fo nDim gp X3 (K + nb nDim X3 (half1 n)) J I n m l.
Proof.
  intros p n m l N M L Z. unfold outer. cbn [x3]. rewrite Z.
  pose proof (fun n m l => B_ok X3 n m l) as B. cbn [xof get] in B. unfold tr. rewrite M2.
  destruct L as [-> | ->]; cbn [Z.eqb Pos.eqb orb andb half1]; rewrite !B by lia; cbn [Z.sub Z.add Z.opp Z.pos_sub Pos.pred_double]; rewrite ?nb0, ?nbm, ?Z.add_0_r; reflexivity.
Qed.

Lemma lens : forall b, 0 < len of b /\ (many nDim b = true -> len of b mod 2 = 0 /\ 2 <= len of b) /\ (many nDim b = false -> len of b = 1).
Proof.
  intros b. destruct (pd_len _ _ _ _ P b) as (L & L0). rewrite many_ratio in L by apply (pd_dim _ _ _ _ P).
  specialize (POS b). destruct (many nDim b) eqn:M; repeat split; try discriminate; intros; try (Z.div_mod_to_equations; lia).
  pose proof (pd_flat _ _ _ _ P b) as FT. rewrite many_ratio in FT by apply (pd_dim _ _ _ _ P). rewrite M in FT. specialize (FT eq_refl). lia.
Qed.
Lemma nb_many : forall b x, par nDim of b x = 0 -> forall m, bit m -> out of b (x + nb nDim b m) = out of b x.
Proof.
  intros b x Q m M. unfold par, nb in *. destruct (lens b) as (L1 & L2 & _). destruct (many nDim b); [|rewrite Z.add_0_r; reflexivity].
  destruct (L2 eq_refl) as (L3 & L4). unfold out, len in *. destruct M as [-> | ->]; [rewrite Z.add_0_r; reflexivity|].
  f_equal; f_equal; Z.div_mod_to_equations; lia.
Qed.
Lemma fixed_out : forall b d p, d <> b -> out of d (p d) = true -> fixedB of b p = false.
Proof.
  intros b d p N O. unfold fixedB, all3. apply andb_false_iff. right.
  assert (D : axis_eqb d b = false) by (destruct (axis_eqb d b) eqn:Q; [apply axis_eqb_spec in Q; contradiction|reflexivity]).
  destruct d; rewrite D, O; cbn [negb orb]; rewrite ?andb_false_r; reflexivity.
Qed.
Lemma fixed_spec : forall b p, fixedB of b p = true <-> ((p b = o_s of b /\ some (o_flx of b false) = true \/ p b = o_e of b + 1 /\ some (o_flx of b true) = true) /\ forall d, d <> b -> out of d (p d) = false).
Proof.
  intros b p. unfold fixedB. rewrite andb_true_iff, orb_true_iff, !andb_true_iff, !Z.eqb_eq. unfold all3. rewrite !andb_true_iff, !orb_true_iff, !negb_true_iff, !axis_eqb_spec.
  split; intros (A & B); split; auto.
  - intros d D. destruct B as ((B1 & B2) & B3). destruct d; tauto.
  - repeat split; match goal with |- ?x = _ \/ _ => destruct (axis_eqb x b) eqn:Q; [left; apply axis_eqb_spec; exact Q|right; apply B; intros <-; discriminate] end.
Qed.
Lemma fixed_block : forall b k j i n m l, fixedB of b (at_ k j i) = true -> (forall d, par nDim of d (at_ k j i d) = 0) -> bit n -> bit m -> bit l -> at_ n m l b = 0 ->
  fixedB of b (at_ (k + nb nDim X3 n) (j + m) (i + l)) = true.
Proof.
  intros b k' j' i' n m l F Q N M L Z. apply fixed_spec in F. apply fixed_spec. destruct F as (F1 & F2).
  assert (N2 : nb nDim X2 m = m) by (pose proof M2; unfold nb in *; destruct (many nDim X2); lia).
  assert (N1 : nb nDim X1 l = l) by reflexivity. rewrite <- N2, <- N1. split.
  - assert (N0 : forall d, nb nDim d 0 = 0) by (intros d; unfold nb; destruct (many nDim d); reflexivity). destruct b; cbn [at_] in *; rewrite Z, N0, Z.add_0_r; exact F1.
  - intros d D. specialize (F2 d D). specialize (Q d). destruct d; cbn [at_] in *; rewrite nb_many by assumption; exact F2.
Qed.
Lemma fixed_case : forall b k j i n m l, fixedB of b (at_ k j i) = true -> inbox nDim ng of b (at_ k j i) -> (forall d, par nDim of d (at_ k j i d) = 0) -> bit n -> bit m -> bit l -> at_ n m l b = 0 ->
  get g (EB b (k + nb nDim X3 n) (j + m) (i + l)) = get g0 (EB b (k + nb nDim X3 n) (j + m) (i + l)) /\
  (isz (get g (EB b k j i)) = true -> get g0 (EB b (k + nb nDim X3 n) (j + m) (i + l)) = tr fo nDim gp b (ci nDim oc of X3 k) (ci nDim oc of X2 j) (ci nDim oc of X1 i) n m l).
Proof.
  intros b k' j' i' n m l F IB Q N M L Z. split; [apply SAME, fixed_block; auto|]. intros Y.
  destruct (US b k' j' i' F IB Q) as [A|A]; [|apply A; auto]. exfalso. rewrite (SAME _ _ _ _ F), (isz_ne _ A) in Y. discriminate.
Qed.
Lemma rg_box : forall b d, ps nDim ng of a s d <= at_ k j i d <= pe nDim ng of a s d -> d <> a -> d <> b -> o_s of d - nb nDim d ng <= at_ k j i d <= o_e of d + nb nDim d ng.
Proof.
  intros b d Q D1 _. unfold ps, pe in Q. assert (AD : axis_eqb a d = false) by (destruct (axis_eqb a d) eqn:Y; [apply axis_eqb_spec in Y; congruence|reflexivity]). rewrite AD in Q. cbn [andb] in Q.
  unfold nb. destruct (many nDim d); lia.
Qed.
Lemma rg_a : if s then o_e of a + 1 <= at_ k j i a else at_ k j i a <= o_s of a - 1.
Proof. pose proof (RG a) as Q. unfold ps, pe in Q. rewrite eqb_self in Q. destruct s; cbn [andb negb] in Q; lia. Qed.
Lemma nd3 : (nDim =? 3)%nat = many nDim X3. Proof. pose proof (pd_dim _ _ _ _ P). cbn [many]. lia. Qed.
Lemma ok_out : forall b, a <> b -> inrange nDim ng of a s b (at_ k j i b) = negb (out of b (at_ k j i b)).
Proof. intros b N. apply (inrange_out c nDim ng oc); auto. Qed.
Lemma outer3 : forall n m l, bit m -> bit l -> (n = 0 \/ n = 2) -> x3 (outer fo b0 (iface nDim ng of a s g k j i)) n m l = x3 (Oface fo nDim oc of gp g0 k j i) n m l.
Proof.
  intros n m l N M L. pose proof rg_a as RA. unfold Oface. cbn [x3]. fold K J I.
  assert (TR : isz (x3 (iface nDim ng of a s g k j i) n 0 0) = true -> fixedB of X3 (at_ (k + n) j i) = false ->
     x3 (outer fo b0 (iface nDim ng of a s g k j i)) n m l = (if fixedB of X3 (at_ (k + n) j i) then gB3 g0 (k + n) (j + m) (i + l) else tr fo nDim gp X3 (K + nb nDim X3 (half1 n)) J I n m l)).
  { intros Z F. rewrite F. apply tr3_ok; assumption. }
  destruct (axis_eqb a X3) eqn:AX.
  2: { apply TR.
    - destruct a; try discriminate; unfold iface; destruct (_ && _); apply isz0.
    - pose proof aout as AO. apply (fixed_out X3 a); [destruct a; discriminate|]. destruct a; try discriminate; exact AO. }
  apply axis_eqb_spec in AX. assert (MM : many nDim X3 = true) by (rewrite <- AX; exact MA).
  destruct (lens X3) as (L1 & L2 & _). destruct (L2 MM) as (L3 & L4). unfold len in L3, L4.
  assert (O1 : inrange nDim ng of a s X1 i = negb (out of X1 i)) by (apply (ok_out X1); rewrite AX; discriminate).
  assert (O2 : inrange nDim ng of a s X2 j = negb (out of X2 j)) by (apply (ok_out X2); rewrite AX; discriminate).
  assert (PS : s = true -> ps nDim ng of a s X3 = o_e of X3 + 1) by (intros ->; rewrite AX; reflexivity).
  assert (PE : s = false -> pe nDim ng of a s X3 = o_s of X3 - 1) by (intros ->; rewrite AX; reflexivity).
  assert (NF : forall x, out of X1 i = true \/ out of X2 j = true \/ (x <> o_s of X3 \/ some (o_flx of X3 false) = false) /\ (x <> o_e of X3 + 1 \/ some (o_flx of X3 true) = false) -> fixedB of X3 (at_ x j i) = false).
  { intros x Q. destruct (fixedB of X3 (at_ x j i)) eqn:F; [|reflexivity]. apply fixed_spec in F. destruct F as (F1 & F2). pose proof (F2 X1 ltac:(discriminate)) as F4. specialize (F2 X2 ltac:(discriminate)). cbn [at_] in *.
    destruct Q as [Q|[Q|(Q1 & Q2)]]; [congruence|congruence|]. destruct F1 as [[F1 F3]|[F1 F3]]; [destruct Q1|destruct Q2]; congruence. }
  assert (I1 : at_ k j i a = k) by (rewrite AX; reflexivity). rewrite I1 in RA. rewrite AX in RA.
  assert (IFC : iface nDim ng of a s g k j i =
    if (if s then k =? o_e of X3 + 1 else k =? o_s of X3 - 2) && negb (out of X1 i) && negb (out of X2 j) then
      RV (fun _ _ _ => 0%R) (fun _ _ _ => 0%R) (fun n m l => if n =? (if s then 0 else 2) then gB3 g (k + n) (j + m) (i + l) else 0%R)
    else RV (fun _ _ _ => 0%R) (fun _ _ _ => 0%R) (fun _ _ _ => 0%R)).
  { unfold iface. rewrite O1, O2. pose proof PE as PE'. pose proof PS as PS'. rewrite AX in PE', PS' |- *. destruct s; cbn [andb].
    - rewrite (PS' eq_refl). reflexivity.
    - rewrite (PE' eq_refl). replace (o_s of X3 - 1 - 1) with (o_s of X3 - 2) by (clear; lia). reflexivity. }
  rewrite IFC in *.
  destruct ((if s then k =? o_e of X3 + 1 else k =? o_s of X3 - 2) && negb (out of X1 i) && negb (out of X2 j)) eqn:CD.
  2: { apply TR; [apply isz0|]. apply NF. destruct (out of X1 i) eqn:Y1; [left; reflexivity|right]. destruct (out of X2 j) eqn:Y2; [left; reflexivity|right]. rewrite !andb_true_r in CD.
       clear - CD RA L L3 L4. destruct s, L; subst n; lia. }
  apply andb_prop in CD. destruct CD as [CD OJ]. apply andb_prop in CD. destruct CD as [CD OI]. apply negb_true_iff in OJ. apply negb_true_iff in OI.
  destruct (n =? (if s then 0 else 2)) eqn:LS.
  2: { apply TR; [cbn [x3]; rewrite LS; apply isz0|]. apply NF. right. right. clear - CD RA L LS L3 L4. destruct s, L; subst n; lia. }
  assert (FX : fixedB of X3 (at_ (k + n) j i) = true).
  { apply fixed_spec. split.
    - cbn [at_]. pose proof FL as FL'. rewrite AX in FL'. clear - CD RA L LS L3 L4 FL'. destruct s, L; subst n; try discriminate; [right|left]; (split; [lia|exact FL']).
    - intros [] D; cbn [at_]; congruence. }
  assert (PR' : forall d, par nDim of d (at_ (k + n) j i d) = 0).
  { intros d. pose proof (PR d) as Q. destruct d; cbn [at_] in *; auto. destruct L; subst n; [rewrite Z.add_0_r; exact Q|apply par_plus; exact Q]. }
  assert (IB : inbox nDim ng of X3 (at_ (k + n) j i)).
  { intros d D. destruct d; [| |congruence]; (match goal with |- o_s of ?d - _ <= _ <= _ => apply (rg_box X3 d); [apply RG|rewrite AX; discriminate|discriminate] end). }
  destruct (fixed_case X3 (k + n) j i 0 m l FX IB PR' (or_introl eq_refl) N M eq_refl) as (C1 & C2). rewrite FX. rewrite nb0, !Z.add_0_r in C1, C2.
  destruct (isz (get g (EB X3 (k + n) j i))) eqn:IZ.
  - transitivity (tr fo nDim gp X3 (K + nb nDim X3 (half1 n)) J I n m l).
    + apply tr3_ok; auto. cbn [x3]. rewrite LS. rewrite !Z.add_0_r. exact IZ.
    + cbn [get] in C2. rewrite (C2 eq_refl). assert (NH : forall x, nb nDim X3 x = x) by (intros x; unfold nb; rewrite MM; reflexivity). rewrite NH. destruct L; subst n; [rewrite !Z.add_0_r; reflexivity|rewrite ci_plus by exact MM; reflexivity].
  - unfold outer. cbn [x3]. rewrite LS. rewrite !Z.add_0_r. cbn [get] in IZ. rewrite IZ, andb_false_r. exact C1.
Qed.
Hypothesis NB : a = X3 \/ out of X3 k = false.
Lemma outer1 : forall n m l, bit n -> bit m -> (l = 0 \/ l = 2) -> x1 (outer fo b0 (iface nDim ng of a s g k j i)) n m l = x1 (Oface fo nDim oc of gp g0 k j i) n m l.
Proof.
  intros n m l N M L. pose proof rg_a as RA. unfold Oface. cbn [x1]. fold K J I.
  assert (TR : isz (x1 (iface nDim ng of a s g k j i) 0 0 l) = true -> fixedB of X1 (at_ k j (i + l)) = false ->
     x1 (outer fo b0 (iface nDim ng of a s g k j i)) n m l = (if fixedB of X1 (at_ k j (i + l)) then gB1 g0 (k + nb nDim X3 n) (j + m) (i + l) else tr fo nDim gp X1 K J (I + half1 l) n m l)).
  { intros Z F. rewrite F. apply tr1_ok; assumption. }
  destruct (axis_eqb a X1) eqn:AX.
  2: { apply TR.
    - destruct a; try discriminate; unfold iface; destruct (_ && _); apply isz0.
    - pose proof aout as AO. apply (fixed_out X1 a); [destruct a; discriminate|]. destruct a; try discriminate; exact AO. }
  apply axis_eqb_spec in AX. destruct (lens X1) as (L1 & L2 & _). destruct (L2 eq_refl) as (L3 & L4). unfold len in L3, L4.
  assert (O2 : inrange nDim ng of a s X2 j = negb (out of X2 j)) by (apply (ok_out X2); rewrite AX; discriminate).
  assert (O3 : out of X3 k = false) by (destruct NB as [Q|Q]; [congruence|exact Q]).
  assert (OK3 : inrange nDim ng of a s X3 k = true) by (etransitivity; [apply (ok_out X3); rewrite AX; discriminate|]; cbn [at_]; rewrite O3; reflexivity).
  assert (PS : ps nDim ng of a s X1 = if s then o_e of X1 + 1 else o_s of X1 - ng) by (rewrite AX; unfold ps; cbn; destruct s; reflexivity).
  assert (PE : s = false -> pe nDim ng of a s X1 = o_s of X1 - 1) by (intros ->; rewrite AX; reflexivity).
  assert (NF : forall x, out of X2 j = true \/ (x <> o_s of X1 \/ some (o_flx of X1 false) = false) /\ (x <> o_e of X1 + 1 \/ some (o_flx of X1 true) = false) -> fixedB of X1 (at_ k j x) = false).
  { intros x Q. destruct (fixedB of X1 (at_ k j x)) eqn:F; [|reflexivity]. apply fixed_spec in F. destruct F as (F1 & F2). specialize (F2 X2 ltac:(discriminate)). cbn [at_] in *.
    destruct Q as [Q|(Q1 & Q2)]; [congruence|]. destruct F1 as [[F1 F3]|[F1 F3]]; [destruct Q1|destruct Q2]; congruence. }
  assert (I1 : at_ k j i a = i) by (rewrite AX; reflexivity). rewrite I1 in RA. rewrite AX in RA.
  assert (IFC : iface nDim ng of a s g k j i =
    if (if s then i =? o_e of X1 + 1 else i =? o_s of X1 - 2) && negb (out of X2 j) then
      RV (fun n m l => if l =? (if s then 0 else 2) then gB1 g (k + nb nDim X3 (if n =? 1 then 1 else 0)) (j + m) (i + l) else 0%R) (fun _ _ _ => 0%R) (fun _ _ _ => 0%R)
    else RV (fun _ _ _ => 0%R) (fun _ _ _ => 0%R) (fun _ _ _ => 0%R)).
  { unfold iface. rewrite O2, OK3, PS. rewrite nd3.
    assert (KK : forall n, (if (n =? 1) && many nDim X3 then k + 1 else k) = k + nb nDim X3 (if n =? 1 then 1 else 0)) by (intros x; unfold nb; destruct (x =? 1), (many nDim X3); cbn [andb]; rewrite ?Z.add_0_r; reflexivity).
    pose proof PE as PE'. rewrite AX in PE' |- *. destruct s; cbn [andb].
    - destruct (_ && _); [|reflexivity]. f_equal. apply functional_extensionality. intros. apply functional_extensionality. intros. apply functional_extensionality. intros. rewrite andb_true_r, KK. reflexivity.
    - rewrite (PE' eq_refl). replace (o_s of X1 - 1 - 1) with (o_s of X1 - 2) by (clear; lia). destruct (_ && _); [|reflexivity]. f_equal. apply functional_extensionality. intros. apply functional_extensionality. intros. apply functional_extensionality. intros. rewrite andb_true_r, KK. reflexivity. }
  rewrite IFC in *.
  destruct ((if s then i =? o_e of X1 + 1 else i =? o_s of X1 - 2) && negb (out of X2 j)) eqn:CD.
  2: { apply TR; [apply isz0|]. apply NF. destruct (out of X2 j) eqn:O; [left; reflexivity|right]. rewrite andb_true_r in CD.
       clear - CD RA L L3 L4. destruct s, L; subst l; lia. }
  apply andb_prop in CD. destruct CD as [CD OJ]. apply negb_true_iff in OJ.
  destruct (l =? (if s then 0 else 2)) eqn:LS.
  2: { apply TR; [cbn [x1]; rewrite LS; apply isz0|]. apply NF. right. clear - CD RA L LS L3 L4. destruct s, L; subst l; lia. }
  assert (FX : fixedB of X1 (at_ k j (i + l)) = true).
  { apply fixed_spec. split.
    - cbn [at_]. pose proof FL as FL'. rewrite AX in FL'. clear - CD RA L LS L3 L4 FL'. destruct s, L; subst l; try discriminate; [right|left]; (split; [lia|exact FL']).
    - intros [] D; cbn [at_]; congruence. }
  assert (PR' : forall d, par nDim of d (at_ k j (i + l) d) = 0).
  { intros d. pose proof (PR d) as Q. destruct d; cbn [at_] in *; auto. destruct L; subst l; [rewrite Z.add_0_r; exact Q|apply par_plus; exact Q]. }
  assert (IB : inbox nDim ng of X1 (at_ k j (i + l))).
  { intros d D. destruct d; [congruence|..]; (match goal with |- o_s of ?d - _ <= _ <= _ => apply (rg_box X1 d); [apply RG|rewrite AX; discriminate|discriminate] end). }
  destruct (fixed_case X1 k j (i + l) n m 0 FX IB PR' N M (or_introl eq_refl) eq_refl) as (C1 & C2). rewrite FX. rewrite Z.add_0_r in C1, C2.
  assert (N01 : (if n =? 1 then 1 else 0) = n) by (destruct N; subst n; reflexivity).
  destruct (isz (get g (EB X1 k j (i + l)))) eqn:IZ.
  - transitivity (tr fo nDim gp X1 K J (I + half1 l) n m l).
    + apply tr1_ok; auto. cbn [x1]. rewrite LS. cbn [Z.eqb]. rewrite nb0, !Z.add_0_r. exact IZ.
    + cbn [get] in C2. rewrite (C2 eq_refl). destruct L; subst l; [rewrite !Z.add_0_r; reflexivity|rewrite ci_plus by reflexivity; reflexivity].
  - unfold outer. cbn [x1]. rewrite LS. cbn [Z.eqb]. rewrite nb0, !Z.add_0_r. cbn [get] in IZ. rewrite IZ, andb_false_r. rewrite N01. exact C1.
Qed.
Lemma outer2 : forall n m l, bit n -> bit l -> (m = 0 \/ m = 2) -> x2 (outer fo b0 (iface nDim ng of a s g k j i)) n m l = x2 (Oface fo nDim oc of gp g0 k j i) n m l.
Proof.
  intros n m l N M L. pose proof rg_a as RA. unfold Oface. cbn [x2]. fold K J I.
  assert (TR : isz (x2 (iface nDim ng of a s g k j i) 0 m 0) = true -> fixedB of X2 (at_ k (j + m) i) = false ->
     x2 (outer fo b0 (iface nDim ng of a s g k j i)) n m l = (if fixedB of X2 (at_ k (j + m) i) then gB2 g0 (k + nb nDim X3 n) (j + m) (i + l) else tr fo nDim gp X2 K (J + half1 m) I n m l)).
  { intros Z F. rewrite F. apply tr2_ok; assumption. }
  destruct (axis_eqb a X2) eqn:AX.
  2: { apply TR.
    - destruct a; try discriminate; unfold iface; destruct (_ && _); apply isz0.
    - pose proof aout as AO. apply (fixed_out X2 a); [destruct a; discriminate|]. destruct a; try discriminate; exact AO. }
  assert (MM : many nDim X2 = true) by (cbn [many]; apply Nat.leb_le; exact TD).
  apply axis_eqb_spec in AX. destruct (lens X2) as (L1 & L2 & _). destruct (L2 MM) as (L3 & L4). unfold len in L3, L4.
  assert (O2 : inrange nDim ng of a s X1 i = negb (out of X1 i)) by (apply (ok_out X1); rewrite AX; discriminate).
  assert (O3 : out of X3 k = false) by (destruct NB as [Q|Q]; [congruence|exact Q]).
  assert (OK3 : inrange nDim ng of a s X3 k = true) by (etransitivity; [apply (ok_out X3); rewrite AX; discriminate|]; cbn [at_]; rewrite O3; reflexivity).
  assert (PS : s = true -> ps nDim ng of a s X2 = o_e of X2 + 1) by (intros ->; rewrite AX; reflexivity).
  assert (PE : s = false -> pe nDim ng of a s X2 = o_s of X2 - 1) by (intros ->; rewrite AX; reflexivity).
  assert (NF : forall x, out of X1 i = true \/ (x <> o_s of X2 \/ some (o_flx of X2 false) = false) /\ (x <> o_e of X2 + 1 \/ some (o_flx of X2 true) = false) -> fixedB of X2 (at_ k x i) = false).
  { intros x Q. destruct (fixedB of X2 (at_ k x i)) eqn:F; [|reflexivity]. apply fixed_spec in F. destruct F as (F1 & F2). specialize (F2 X1 ltac:(discriminate)). cbn [at_] in *.
    destruct Q as [Q|(Q1 & Q2)]; [congruence|]. destruct F1 as [[F1 F3]|[F1 F3]]; [destruct Q1|destruct Q2]; congruence. }
  assert (I1 : at_ k j i a = j) by (rewrite AX; reflexivity). rewrite I1 in RA. rewrite AX in RA.
  assert (IFC : iface nDim ng of a s g k j i =
    if (if s then j =? o_e of X2 + 1 else j =? o_s of X2 - 2) && negb (out of X1 i) then
      RV (fun _ _ _ => 0%R) (fun n m l => if m =? (if s then 0 else 2) then gB2 g (k + nb nDim X3 (if n =? 1 then 1 else 0)) (j + m) (i + l) else 0%R) (fun _ _ _ => 0%R)
    else RV (fun _ _ _ => 0%R) (fun _ _ _ => 0%R) (fun _ _ _ => 0%R)).
  { unfold iface. rewrite O2, OK3. rewrite nd3.
    assert (KK : forall n, (if (n =? 1) && many nDim X3 then k + 1 else k) = k + nb nDim X3 (if n =? 1 then 1 else 0)) by (intros x; unfold nb; destruct (x =? 1), (many nDim X3); cbn [andb]; rewrite ?Z.add_0_r; reflexivity).
    pose proof PE as PE'. pose proof PS as PS'. rewrite AX in PE', PS' |- *. destruct s; cbn [andb].
    - rewrite (PS' eq_refl). destruct (_ && _); [|reflexivity]. f_equal. apply functional_extensionality. intros. apply functional_extensionality. intros. apply functional_extensionality. intros. rewrite andb_true_r, KK. reflexivity.
    - rewrite (PE' eq_refl). replace (o_s of X2 - 1 - 1) with (o_s of X2 - 2) by (clear; lia). destruct (_ && _); [|reflexivity]. f_equal. apply functional_extensionality. intros. apply functional_extensionality. intros. apply functional_extensionality. intros. rewrite andb_true_r, KK. reflexivity. }
  rewrite IFC in *.
  destruct ((if s then j =? o_e of X2 + 1 else j =? o_s of X2 - 2) && negb (out of X1 i)) eqn:CD.
  2: { apply TR; [apply isz0|]. apply NF. destruct (out of X1 i) eqn:O; [left; reflexivity|right]. rewrite andb_true_r in CD.
       clear - CD RA L L3 L4. destruct s, L; subst m; lia. }
  apply andb_prop in CD. destruct CD as [CD OJ]. apply negb_true_iff in OJ.
  destruct (m =? (if s then 0 else 2)) eqn:LS.
  2: { apply TR; [cbn [x2]; rewrite LS; apply isz0|]. apply NF. right. clear - CD RA L LS L3 L4. destruct s, L; subst m; lia. }
  assert (FX : fixedB of X2 (at_ k (j + m) i) = true).
  { apply fixed_spec. split.
    - cbn [at_]. pose proof FL as FL'. rewrite AX in FL'. clear - CD RA L LS L3 L4 FL'. destruct s, L; subst m; try discriminate; [right|left]; (split; [lia|exact FL']).
    - intros [] D; cbn [at_]; congruence. }
  assert (PR' : forall d, par nDim of d (at_ k (j + m) i d) = 0).
  { intros d. pose proof (PR d) as Q. destruct d; cbn [at_] in *; auto. destruct L; subst m; [rewrite Z.add_0_r; exact Q|apply par_plus; exact Q]. }
  assert (IB : inbox nDim ng of X2 (at_ k (j + m) i)).
  { intros d D. destruct d; [|congruence|]; (match goal with |- o_s of ?d - _ <= _ <= _ => apply (rg_box X2 d); [apply RG|rewrite AX; discriminate|discriminate] end). }
  destruct (fixed_case X2 k (j + m) i n 0 l FX IB PR' N (or_introl eq_refl) M eq_refl) as (C1 & C2). rewrite FX. rewrite Z.add_0_r in C1, C2.
  assert (N01 : (if n =? 1 then 1 else 0) = n) by (destruct N; subst n; reflexivity).
  destruct (isz (get g (EB X2 k (j + m) i))) eqn:IZ.
  - transitivity (tr fo nDim gp X2 K (J + half1 m) I n m l).
    + apply tr2_ok; auto. cbn [x2]. rewrite LS. cbn [Z.eqb]. rewrite nb0, !Z.add_0_r. exact IZ.
    + cbn [get] in C2. rewrite (C2 eq_refl). destruct L; subst m; [rewrite !Z.add_0_r; reflexivity|rewrite ci_plus by exact MM; reflexivity].
  - unfold outer. cbn [x2]. rewrite LS. cbn [Z.eqb]. rewrite nb0, !Z.add_0_r. cbn [get] in IZ. rewrite IZ, andb_false_r. rewrite N01. exact C1.
Qed.
Lemma outer_ok : eqouter (outer fo b0 (iface nDim ng of a s g k j i)) (Oface fo nDim oc of gp g0 k j i).
Proof. intros n m l N M L. split; [apply outer1|split; [apply outer2|apply outer3]]; assumption. Qed.
End Faces.
