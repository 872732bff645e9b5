(** * Prolongation (C43) *)
From Coq Require Import Reals ZArith Bool Arith Lia Lra ZifyBool List.
From Verif Require Import CStr MeshModel SmrModel SmrOverlap SmrFacts SmrProps SmrPaired SmrCT ProModel ProPass ProFill ProAll ProMsg.
From Verif Require ProKernel.
Import ProKernel (between, lin_between1, lin_between2, lin_between3, interior_div, divblk).
Import ListNotations.
Open Scope Z_scope.

(** ** Specification *)
(** Cells of a child Grid beyond a boundary of the refined region (as far as the overlap with
    this parent Grid tells): in the Grid with its ghost zones, and outside the overlap on a
    side that is flagged. *)
Definition beyond (nDim : nat) (ng : Z) (of : ovl) (k j i : Z) : Prop :=
  (forall b, o_s of b - nb nDim b ng <= at_ k j i b <= o_e of b + nb nDim b ng) /\
  exists b, (at_ k j i b < o_s of b /\ some (o_flx of b false) = true) \/ (o_e of b < at_ k j i b /\ some (o_flx of b true) = true).
(** The first fine index in the coarse cell that is [n] after the first one of the overlap. *)
Definition fine (nDim : nat) (of : ovl) (b : axis) (n : Z) : Z := o_s of b + ratio nDim b * n.
(** Internal energy density. *)
Definition eint (c : cfg) (U : var -> R) : R :=
  (U VE - 1/2 * (U VM1 * U VM1 + U VM2 * U VM2 + U VM3 * U VM3) / U VD - (if c_mhd c then 1/2 * (U VB1 * U VB1 + U VB2 * U VB2 + U VB3 * U VB3) else 0))%R.
(** The fine cell (k, j, i) is in the coarse cell that is (kk, jj, ii) after the first one of
    the overlap. *)
Definition part_of (nDim : nat) (of : ovl) (kk jj ii k j i : Z) : Prop :=
  In k (cover nDim (o_s of X3) X3 kk) /\ In j (cover nDim (o_s of X2) X2 jj) /\ In i (cover nDim (o_s of X1) X1 ii).
(** A quantity in a coarse cell and its neighbours along the axes of the problem. *)
Definition around (nDim : nat) (h : Z -> Z -> Z -> R) (K J I : Z) : list R :=
  [h K J (I - 1); h K J I; h K J (I + 1)] ++ (if (2 <=? nDim)%nat then [h K (J - 1) I; h K (J + 1) I] else []) ++ (if (3 <=? nDim)%nat then [h (K - 1) J I; h (K + 1) J I] else []).

Lemma out_iff : forall of b x, out of b x = true <-> (x < o_s of b /\ some (o_flx of b false) = true) \/ (o_e of b < x /\ some (o_flx of b true) = true).
Proof. intros. unfold out. rewrite orb_true_iff, !andb_true_iff, !Z.ltb_lt. tauto. Qed.
Lemma beyond_ghost : forall c nDim ng oc of k j i, paired c nDim oc of -> evn ng -> (forall b, 0 < len of b) -> (beyond nDim ng of k j i <-> ghost nDim ng of (at_ k j i)).
Proof.
  intros c nDim ng oc of k j i P E POS. rewrite (ghost_out c nDim ng oc of P E POS). unfold beyond. split; intros (A & b & B); (split; [exact A|exists b; apply out_iff; exact B]).
Qed.

(** ** The values *)
Lemma slope_flat : forall fo x, slope fo x x x = 0%R.
Proof. intros fo x. unfold slope. destruct fo; [reflexivity|]. unfold mcd_slope. cbv zeta. repeat match goal with |- context [if Rlt_dec ?x ?y then _ else _] => destruct (Rlt_dec x y) end; lra. Qed.
Section Vals.
Variables (c : cfg) (nDim : nat) (ng : Z) (oc of : ovl).
Hypotheses (P : paired c nDim oc of) (E : evn ng) (POS : forall b, 0 < len of b).
Lemma nbmany : forall b m, nb nDim b m = if many nDim b then m else 0. Proof. reflexivity. Qed.
Lemma out_pair : forall b x m, par nDim of b x = 0 -> bit m -> out of b (x + nb nDim b m) = out of b x.
Proof.
  intros b x m Q M. unfold nb, par, out in *. destruct (pd_len _ _ _ _ P b) as (L0 & L1). rewrite many_ratio in L0 by apply (pd_dim _ _ _ _ P). pose proof (POS b) as PB. unfold len in *.
  destruct (many nDim b); [|f_equal; f_equal; rewrite Z.add_0_r; reflexivity].
  destruct M as [-> | ->]; [rewrite Z.add_0_r; reflexivity|]. f_equal; f_equal; clear - Q L0 L1 PB; Z.div_mod_to_equations; lia.
Qed.
Lemma ghost_blk : forall k j i n m l, ghost nDim ng of (at_ k j i) -> (forall b, par nDim of b (at_ k j i b) = 0) -> bit n -> bit m -> bit l ->
  ghost nDim ng of (at_ (k + nb nDim X3 n) (j + nb nDim X2 m) (i + l)).
Proof.
  intros k j i n m l G PR N M L. apply (ghost_out c nDim ng oc of P E POS) in G. apply (ghost_out c nDim ng oc of P E POS). destruct G as (BX & b & O).
  assert (Q : forall b x y, (x = 0 \/ x = 1) -> y = at_ k j i b + nb nDim b x -> (o_s of b - nb nDim b ng <= y <= o_e of b + nb nDim b ng) /\ (out of b (at_ k j i b) = true -> out of b y = true)).
  { intros d x y X ->. specialize (BX d). specialize (PR d). split.
    - unfold nb, par in *. destruct (pd_len _ _ _ _ P d) as (L0 & L1). rewrite many_ratio in L0 by apply (pd_dim _ _ _ _ P). pose proof (POS d) as PD. unfold len in *. destruct E as [E0 E1]. clear - BX PR L0 L1 PD X E0 E1. destruct (many nDim d); Z.div_mod_to_equations; lia.
    - intros O'. rewrite out_pair; auto. }
  split.
  - intros []; [apply (Q X1 l)|apply (Q X2 m)|apply (Q X3 n)]; auto; reflexivity.
  - exists b. destruct b; [apply (Q X1 l)|apply (Q X2 m)|apply (Q X3 n)]; auto; reflexivity.
Qed.
Lemma base_blk : forall b x m, par nDim of b x = 0 -> bit m -> base1 nDim of b (x + nb nDim b m) = x.
Proof. intros b x m Q M. unfold base1, par, nb in *. destruct (many nDim b); [|lia]. destruct M as [-> | ->]; Z.div_mod_to_equations; lia. Qed.
Lemma target_blk : forall fo dx1 dx2 dx3 gp g0 k j i n m l, (forall b, par nDim of b (at_ k j i b) = 0) -> bit n -> bit m -> bit l ->
  let u := cst nDim gp (ci nDim oc of X3 k) (ci nDim oc of X2 j) (ci nDim oc of X1 i) in
  let p := interior (Oface fo nDim oc of gp g0 k j i) dx1 dx2 dx3 in
  (forall v, target c fo nDim oc of dx1 dx2 dx3 gp g0 (EU v (k + nb nDim X3 n) (j + nb nDim X2 m) (i + l)) =
    match isB v with Some b => if c_mhd c && negb (nDim =? 1)%nat then half2 p b (nb nDim X3 n) (nb nDim X2 m) l else ProCon c fo u (nb nDim X3 n) (nb nDim X2 m) l v | None => ProCon c fo u (nb nDim X3 n) (nb nDim X2 m) l v end) /\
  (forall b, target c fo nDim oc of dx1 dx2 dx3 gp g0 (EB b (k + nb nDim X3 n) (j + nb nDim X2 m) (i + l)) =
    if (nDim =? 1)%nat then ProCon c fo u (nb nDim X3 n) (nb nDim X2 m) l (VBof b) else xof p b (nb nDim X3 n) (nb nDim X2 m) l).
Proof.
  intros fo dx1 dx2 dx3 gp g0 k j i n m l PR N M L. cbv zeta. pose proof (PR X1) as P1. pose proof (PR X2) as P2. pose proof (PR X3) as P3. cbn [at_] in *.
  pose proof (base_blk X3 k n P3 N) as B3. pose proof (base_blk X2 j m P2 M) as B2. pose proof (base_blk X1 i l P1 L) as B1. change (nb nDim X1 l) with l in B1.
  split; intros b; unfold target, bq; cbn [epos at_]; rewrite B1, B2, B3; cbn [bval]; replace (k + nb nDim X3 n - k) with (nb nDim X3 n) by lia; replace (j + nb nDim X2 m - j) with (nb nDim X2 m) by lia; replace (i + l - i) with l by lia; reflexivity.
Qed.
Lemma fine_par : forall kk jj ii b, par nDim of b (at_ (fine nDim of X3 kk) (fine nDim of X2 jj) (fine nDim of X1 ii) b) = 0.
Proof.
  intros kk jj ii b. unfold par. destruct (many nDim b) eqn:M; [|reflexivity]. assert (R2 : ratio nDim b = 2) by (rewrite many_ratio by apply (pd_dim _ _ _ _ P); rewrite M; reflexivity).
  destruct b; cbn [at_]; unfold fine; rewrite R2; match goal with |- (?a + 2 * ?x - ?a) mod 2 = 0 => replace (a + 2 * x - a) with (x * 2) by lia; apply Z_mod_mult end.
Qed.
Lemma fine_ci : forall b n, (many nDim b = false -> n = 0) -> ci nDim oc of b (fine nDim of b n) = o_s oc b + n.
Proof.
  intros b n Z. unfold ci, fine. rewrite many_ratio by apply (pd_dim _ _ _ _ P). destruct (many nDim b); [|rewrite (Z eq_refl); reflexivity].
  f_equal. replace (o_s of b + 2 * n - o_s of b) with (n * 2) by lia. apply Z_div_mult. lia.
Qed.
Lemma ghost_flat : forall k j i b, ghost nDim ng of (at_ k j i) -> many nDim b = false -> at_ k j i b = o_s of b.
Proof.
  intros k j i b G M. apply (ghost_out c nDim ng oc of P E POS) in G. destruct G as (BX & _). specialize (BX b). unfold nb in BX. rewrite M in BX.
  destruct (pd_len _ _ _ _ P b) as (L & _). pose proof (pd_flat _ _ _ _ P b) as F. rewrite many_ratio in L, F by apply (pd_dim _ _ _ _ P). rewrite M in L, F. specialize (F eq_refl). unfold len in *. lia.
Qed.
Lemma fine_flat : forall kk jj ii, ghost nDim ng of (at_ (fine nDim of X3 kk) (fine nDim of X2 jj) (fine nDim of X1 ii)) -> (many nDim X2 = false -> jj = 0) /\ (many nDim X3 = false -> kk = 0).
Proof.
  intros kk jj ii G. split; intros M; [pose proof (ghost_flat _ _ _ X2 G M) as Q|pose proof (ghost_flat _ _ _ X3 G M) as Q]; cbn [at_] in Q; unfold fine in Q; rewrite many_ratio in Q by apply (pd_dim _ _ _ _ P); rewrite M in Q; lia.
Qed.
(** Sums over the fine cells of a coarse cell. *)
Ltac simp0 H := repeat rewrite Z.add_0_r in H; repeat rewrite Z.mul_1_l in H.
Lemma mean_cover : forall (f : Z * Z * Z -> R) (h : Z -> Z -> Z -> R) kk jj ii,
  (forall n m l, bit n -> bit m -> bit l -> f (fine nDim of X3 kk + nb nDim X3 n, fine nDim of X2 jj + nb nDim X2 m, fine nDim of X1 ii + l) = h (nb nDim X3 n) (nb nDim X2 m) l) ->
  mean (map f (cells3 (cover nDim (o_s of X3) X3 kk) (cover nDim (o_s of X2) X2 jj) (cover nDim (o_s of X1) X1 ii))) =
  (let s1 n m := h n m 0%Z + h n m 1%Z in let s2 n := if many nDim X2 then s1 n 0%Z + s1 n 1%Z else s1 n 0%Z in
   (if many nDim X3 then s2 0%Z + s2 1%Z else s2 0%Z) / (if many nDim X3 then 8 else if many nDim X2 then 4 else 2))%R.
Proof.
  intros f h kk jj ii H. pose proof (pd_dim _ _ _ _ P) as ND. cbv zeta. unfold fine in H.
  pose proof (fun n m l => H n m l) as H'. clear H.
  assert (B0 : bit 0) by (left; reflexivity). assert (B1 : bit 1) by (right; reflexivity).
  destruct (ratio_cases nDim ND) as [(N & R1 & R2 & R3)|[(N & R1 & R2 & R3)|(N & R1 & R2 & R3)]];
  rewrite (cover2 nDim _ X1) by assumption; first [rewrite (cover2 nDim _ X2) by assumption|rewrite (cover1 nDim _ X2) by assumption]; first [rewrite (cover2 nDim _ X3) by assumption|rewrite (cover1 nDim _ X3) by assumption]; subst nDim; cbn [many Nat.leb] in *; rewrite ?R1, ?R2, ?R3 in H'; unfold cells3, cells2; cbn [map flat_map app];
  unfold nb in H'; cbn [many Nat.leb] in H'.
  - pose proof (H' 0 0 0 B0 B0 B0) as A1. pose proof (H' 0 0 1 B0 B0 B1) as A2. simp0 A1. simp0 A2. rewrite A1, A2. unfold mean. cbn [fold_right length INR]. field.
  - pose proof (H' 0 0 0 B0 B0 B0) as A1. pose proof (H' 0 0 1 B0 B0 B1) as A2. pose proof (H' 0 1 0 B0 B1 B0) as A3. pose proof (H' 0 1 1 B0 B1 B1) as A4. simp0 A1. simp0 A2. simp0 A3. simp0 A4. rewrite A1, A2, A3, A4. unfold mean. cbn [fold_right length INR]. field.
  - pose proof (H' 0 0 0 B0 B0 B0) as A1. pose proof (H' 0 0 1 B0 B0 B1) as A2. pose proof (H' 0 1 0 B0 B1 B0) as A3. pose proof (H' 0 1 1 B0 B1 B1) as A4.
    pose proof (H' 1 0 0 B1 B0 B0) as A5. pose proof (H' 1 0 1 B1 B0 B1) as A6. pose proof (H' 1 1 0 B1 B1 B0) as A7. pose proof (H' 1 1 1 B1 B1 B1) as A8.
    simp0 A1. simp0 A2. simp0 A3. simp0 A4. simp0 A5. simp0 A6. simp0 A7. simp0 A8. rewrite A1, A2, A3, A4, A5, A6, A7, A8. unfold mean. cbn [fold_right length INR]. field.
Qed.
Lemma mean_lin : forall fo (q : stencil R), (many nDim X2 = false -> jm1 q = i0 q /\ jp1 q = i0 q) -> (many nDim X3 = false -> km1 q = i0 q /\ kp1 q = i0 q) ->
  (let s1 n m := lin fo q n m 0%Z + lin fo q n m 1%Z in let s2 n := if many nDim X2 then s1 n 0%Z + s1 n 1%Z else s1 n 0%Z in
   (if many nDim X3 then s2 0%Z + s2 1%Z else s2 0%Z) / (if many nDim X3 then 8 else if many nDim X2 then 4 else 2))%R = i0 q.
Proof.
  intros fo q F2 F3. cbv zeta. assert (M32 : many nDim X3 = true -> many nDim X2 = true) by (cbn [many]; lia). unfold lin.
  destruct (many nDim X3) eqn:M3; [rewrite (M32 eq_refl)|destruct (F3 eq_refl) as (-> & ->); destruct (many nDim X2) eqn:M2; [|destruct (F2 eq_refl) as (-> & ->)]]; rewrite ?slope_flat; field.
Qed.
Lemma cst_flat : forall gp K J I v, let q := smap (fun U => U v) (cst nDim gp K J I) in (many nDim X2 = false -> jm1 q = i0 q /\ jp1 q = i0 q) /\ (many nDim X3 = false -> km1 q = i0 q /\ kp1 q = i0 q).
Proof. intros gp K J I v. cbv zeta. unfold cst, smap, nb. cbn [im1 i0 ip1 jm1 jp1 km1 kp1]. split; intros ->; rewrite ?Z.sub_0_r, ?Z.add_0_r; auto. Qed.
Lemma cst_flat' : forall gp K J I (h : (var -> R) -> R), let q := smap h (cst nDim gp K J I) in (many nDim X2 = false -> jm1 q = i0 q /\ jp1 q = i0 q) /\ (many nDim X3 = false -> km1 q = i0 q /\ kp1 q = i0 q).
Proof. intros gp K J I v. cbv zeta. unfold cst, smap, nb. cbn [im1 i0 ip1 jm1 jp1 km1 kp1]. split; intros ->; rewrite ?Z.sub_0_r, ?Z.add_0_r; auto. Qed.
End Vals.

(** ** What Prolongate does *)
Record setting (ng : Z) (c : cfg) (root : vec) (nDim : nat) (pa : domain) (ip : gidx) (ch : domain) (ic : gidx) (oc of : ovl) : Prop := {
  st_al : aligned nDim pa ip ch ic; st_ng : 0 <= ng; st_even : ng mod 2 = 0;
  st_c : cgrid ng c root nDim pa ip ch ic = Some oc; st_p : pgrid ng c root nDim pa ip ch ic = Some of;
  st_pos : forall a, 0 < len of a }.
Section Run.
Variables (ng : Z) (c : cfg) (root : vec) (nDim : nat) (pa : domain) (ip : gidx) (ch : domain) (ic : gidx) (oc of : ovl) (fo : bool) (dx1 dx2 dx3 : R) (gp g0 g' : gst) (m : list R).
Hypothesis ST : setting ng c root nDim pa ip ch ic oc of.
Hypothesis RUN : prolong c fo nDim ng of dx1 dx2 dx3 g0 (pack_P c nDim ng oc gp) = Some (g', m).
Lemma st_paired : paired c nDim oc of. Proof. destruct ST. eapply C72_paired; eauto. Qed.
Lemma st_evn : evn ng. Proof. destruct ST. split; assumption. Qed.
Lemma st_ghost : forall k j i, beyond nDim ng of k j i -> ghost nDim ng of (at_ k j i).
Proof. intros k j i H. apply (beyond_ghost c nDim ng oc of k j i st_paired st_evn (st_pos _ _ _ _ _ _ _ _ _ _ ST)). exact H. Qed.
Lemma st_get : (exists k j i, beyond nDim ng of k j i) ->
  (forall v k j i, In v (vars c) -> beyond nDim ng of k j i -> (needs c nDim (EU v k j i) -> usable fo nDim ng oc of gp g0) -> gU g' k j i v = target c fo nDim oc of dx1 dx2 dx3 gp g0 (EU v k j i)) /\
  (forall b k j i, c_mhd c = true -> beyond nDim ng of k j i -> ((2 <= nDim)%nat -> usable fo nDim ng oc of gp g0) -> nDim = 1%nat \/ fixedB of b (at_ k j i) = false -> get g' (EB b k j i) = target c fo nDim oc of dx1 dx2 dx3 gp g0 (EB b k j i)) /\
  (forall b k j i, (2 <= nDim)%nat -> fixedB of b (at_ k j i) = true -> get g' (EB b k j i) = get g0 (EB b k j i)).
Proof.
  intros (k0 & j0 & i0' & B0). pose proof st_paired as P. pose proof st_evn as E. destruct ST as [A N1 N2 HC HP POS].
  destruct (nP_pos ng c root nDim pa ip ch ic oc of A N1 HC HP) as (Q1 & Q2 & Q3).
  assert (NP : 0 < o_nP of).
  { apply Q1. split; [exact POS|]. destruct B0 as (_ & b & [(_ & F)|(_ & F)]); eauto. }
  destruct (prolong_get c fo nDim ng oc of dx1 dx2 dx3 gp g0 P E POS NP Q3) as (g1 & R1 & R2 & R3 & R4). rewrite RUN in R1. injection R1 as <- ->.
  split; [|split].
  - intros v k j i V B U. apply R2; auto. apply st_ghost; exact B.
  - intros b k j i M B U F. apply R3; auto. apply st_ghost; exact B.
  - intros b k j i N F. apply R4. intros G. cbn [epos]. intros _. split; [lia|exact F].
Qed.
Lemma in_cover : forall b s n x, In x (cover nDim s b n) <-> exists d, bit d /\ x = s + ratio nDim b * n + nb nDim b d.
Proof.
  intros b s n x. unfold nb, bit. pose proof (many_ratio nDim b (pd_dim _ _ _ _ st_paired)) as R. unfold cover. rewrite in_upto. destruct (many nDim b); rewrite R; split.
  - intros H. exists (x - (s + 2 * n)). lia.
  - intros (d & D & ->). lia.
  - intros H. exists 0. lia.
  - intros (d & D & ->). lia.
Qed.
(** The fine cells of a coarse cell beyond the boundary. *)
Lemma blk_ghost : forall kk jj ii n m l, beyond nDim ng of (fine nDim of X3 kk) (fine nDim of X2 jj) (fine nDim of X1 ii) -> bit n -> bit m -> bit l ->
  beyond nDim ng of (fine nDim of X3 kk + nb nDim X3 n) (fine nDim of X2 jj + nb nDim X2 m) (fine nDim of X1 ii + l).
Proof.
  intros kk jj ii n m' l B N M L. apply (beyond_ghost c nDim ng oc of _ _ _ st_paired st_evn (st_pos _ _ _ _ _ _ _ _ _ _ ST)).
  eapply ghost_blk; eauto using st_paired, st_evn, st_ghost. { apply (st_pos _ _ _ _ _ _ _ _ _ _ ST). } apply (fine_par c nDim oc of st_paired).
Qed.
Lemma part_base : forall kk jj ii k j i, part_of nDim of kk jj ii k j i -> beyond nDim ng of k j i ->
  beyond nDim ng of (fine nDim of X3 kk) (fine nDim of X2 jj) (fine nDim of X1 ii) /\
  exists n m l, bit n /\ bit m /\ bit l /\ k = fine nDim of X3 kk + nb nDim X3 n /\ j = fine nDim of X2 jj + nb nDim X2 m /\ i = fine nDim of X1 ii + l.
Proof.
  intros kk jj ii k j i (C3 & C2 & C1) B. apply in_cover in C3, C2, C1. destruct C3 as (n & N & ->), C2 as (m' & M & ->), C1 as (l & L & ->). change (nb nDim X1 l) with l in *.
  fold (fine nDim of X3 kk) (fine nDim of X2 jj) (fine nDim of X1 ii) in *. split; [|exists n, m', l; repeat split; auto].
  apply (beyond_ghost c nDim ng oc of _ _ _ st_paired st_evn (st_pos _ _ _ _ _ _ _ _ _ _ ST)). apply st_ghost in B.
  apply (ghost_out c nDim ng oc of st_paired st_evn (st_pos _ _ _ _ _ _ _ _ _ _ ST)) in B. apply (ghost_out c nDim ng oc of st_paired st_evn (st_pos _ _ _ _ _ _ _ _ _ _ ST)).
  destruct B as (BX & b & O). pose proof st_paired as P. pose proof (st_pos _ _ _ _ _ _ _ _ _ _ ST) as POS.
  assert (Q : forall b q d, bit d -> fine nDim of b q + nb nDim b d <= o_e of b + nb nDim b ng -> o_s of b - nb nDim b ng <= fine nDim of b q + nb nDim b d -> o_s of b - nb nDim b ng <= fine nDim of b q <= o_e of b + nb nDim b ng).
  { intros b' q d D. unfold nb, fine. rewrite many_ratio by apply (pd_dim _ _ _ _ P). destruct st_evn as [E0 E1]. destruct (many nDim b'); [|lia]. intros H1 H2. split; [|destruct D; lia]. clear - D E0 E1 H2. destruct D as [-> | ->]; Z.div_mod_to_equations; lia. }
  split.
  - intros []; pose proof (BX X1); pose proof (BX X2); pose proof (BX X3); cbn [at_] in *; [apply (Q X1 ii l)|apply (Q X2 jj m')|apply (Q X3 kk n)]; auto; tauto.
  - pose proof (fine_par c nDim oc of P kk jj ii) as FP. pose proof (FP X1) as F1. pose proof (FP X2) as F2. pose proof (FP X3) as F3. cbn [at_] in *. exists b. destruct b; cbn [at_] in *.
    + rewrite <- (out_pair c nDim oc of P POS X1 _ l F1 L). exact O.
    + rewrite <- (out_pair c nDim oc of P POS X2 _ m' F2 M). exact O.
    + rewrite <- (out_pair c nDim oc of P POS X3 _ n F3 N). exact O.
Qed.
(** Cell-centred values: what ProCon gives. *)
Definition coarse (kk jj ii : Z) : stencil (var -> R) := cst nDim gp (o_s oc X3 + kk) (o_s oc X2 + jj) (o_s oc X1 + ii).
Lemma cell_val : forall kk jj ii n m l v, beyond nDim ng of (fine nDim of X3 kk) (fine nDim of X2 jj) (fine nDim of X1 ii) -> bit n -> bit m -> bit l -> In v (vars c) ->
  isB v = None \/ nDim = 1%nat ->
  gU g' (fine nDim of X3 kk + nb nDim X3 n) (fine nDim of X2 jj + nb nDim X2 m) (fine nDim of X1 ii + l) v = ProCon c fo (coarse kk jj ii) (nb nDim X3 n) (nb nDim X2 m) l v.
Proof.
  intros kk jj ii n m' l v B N M L V C. destruct st_get as (G1 & _ & _). { eauto. }
  rewrite G1; [|exact V|apply blk_ghost; auto|].
  2: { intros (D & _ & I'). destruct C as [C|C]; [contradiction|lia]. }
  pose proof st_paired as P. pose proof st_evn as E. pose proof (st_pos _ _ _ _ _ _ _ _ _ _ ST) as POS.
  destruct (target_blk c nDim oc of POS fo dx1 dx2 dx3 gp g0 _ _ _ n m' l (fine_par c nDim oc of P kk jj ii) N M L) as (T & _). rewrite T.
  destruct (fine_flat c nDim ng oc of P E POS kk jj ii (st_ghost _ _ _ B)) as (F2 & F3).
  rewrite !(fine_ci c nDim oc of P) by (assumption || (intros Q; discriminate Q)). fold (coarse kk jj ii).
  destruct C as [-> | ->]; [reflexivity|]. destruct (isB v); [|reflexivity]. rewrite andb_false_r. reflexivity.
Qed.
Lemma eint_val : forall kk jj ii n m l, fo = false -> beyond nDim ng of (fine nDim of X3 kk) (fine nDim of X2 jj) (fine nDim of X1 ii) -> bit n -> bit m -> bit l ->
  c_baro c = false -> c_mhd c = false \/ nDim = 1%nat ->
  eint c (gU g' (fine nDim of X3 kk + nb nDim X3 n) (fine nDim of X2 jj + nb nDim X2 m) (fine nDim of X1 ii + l)) = lin false (smap (inner c) (coarse kk jj ii)) (nb nDim X3 n) (nb nDim X2 m) l.
Proof.
  intros kk jj ii n m' l FO B N M L BA C.
  assert (V : forall v, In v [VD; VM1; VM2; VM3; VE] -> In v (vars c)). { intros v. unfold vars. rewrite BA, !in_app_iff. cbn [In]. tauto. }
  assert (VB : c_mhd c = true -> forall v, In v [VB1; VB2; VB3] -> In v (vars c)). { intros H v. unfold vars. rewrite H, !in_app_iff. cbn [In]. tauto. }
  unfold eint. rewrite !(cell_val kk jj ii n m' l) by (auto; apply V; cbn [In]; tauto).
  assert (Q : (if c_mhd c then mag c (gU g' (fine nDim of X3 kk + nb nDim X3 n) (fine nDim of X2 jj + nb nDim X2 m') (fine nDim of X1 ii + l)) else 0%R) = (if c_mhd c then mag c (ProCon c fo (coarse kk jj ii) (nb nDim X3 n) (nb nDim X2 m') l) else 0%R)).
  { destruct (c_mhd c) eqn:H; [|reflexivity]. destruct C as [C|C]; [discriminate|]. unfold mag. rewrite H. rewrite !(cell_val kk jj ii n m' l) by (auto; apply VB; cbn [In]; tauto). reflexivity. }
  unfold mag in Q. destruct (c_mhd c) eqn:H; [rewrite Q|]; subst fo; unfold ProCon, kin, mag; rewrite H; ring.
Qed.
(** ** Faces *)
Definition Ofc (kk jj ii : Z) : rv := Oface fo nDim oc of gp g0 (fine nDim of X3 kk) (fine nDim of X2 jj) (fine nDim of X1 ii).
Lemma axis_dec3 : forall a b : axis, {a = b} + {a <> b}. Proof. decide equality. Qed.

Lemma fixed_pair1 : forall k j i n m l, (forall b, par nDim of b (at_ k j i b) = 0) -> bit n -> bit m -> bit l -> l = 0 ->
  fixedB of X1 (at_ (k + nb nDim X3 n) (j + nb nDim X2 m) (i + l)) = fixedB of X1 (at_ k j i).
Proof.
  intros k j i n m' l PR N M L Z. pose proof (out_pair c nDim oc of st_paired (st_pos _ _ _ _ _ _ _ _ _ _ ST) X1 i l (PR X1) L) as O1. change (nb nDim X1 l) with l in O1.
  pose proof (out_pair c nDim oc of st_paired (st_pos _ _ _ _ _ _ _ _ _ _ ST) X2 j m' (PR X2) M) as O2. pose proof (out_pair c nDim oc of st_paired (st_pos _ _ _ _ _ _ _ _ _ _ ST) X3 k n (PR X3) N) as O3.
  unfold fixedB. cbn [at_]. unfold all3. cbn [at_]. rewrite O1, O2, O3. f_equal. rewrite Z.  rewrite Z.add_0_r. reflexivity.
Qed.

Lemma face1_val : forall kk jj ii n m l, c_mhd c = true -> (2 <= nDim)%nat -> usable fo nDim ng oc of gp g0 ->
  beyond nDim ng of (fine nDim of X3 kk) (fine nDim of X2 jj) (fine nDim of X1 ii) -> bit n -> bit m -> l = 0 \/ l = 1 \/ (l = 2 /\ fine nDim of X1 ii + 2 <= o_e of X1 + ng) ->
  gB1 g' (fine nDim of X3 kk + nb nDim X3 n) (fine nDim of X2 jj + m) (fine nDim of X1 ii + l) = x1 (interior (Ofc kk jj ii) dx1 dx2 dx3) (nb nDim X3 n) m l.
Proof.
  intros kk jj ii n m' l MH D2 US B N M D. destruct st_get as (_ & G2 & G3). { eauto. }
  pose proof st_paired as P. pose proof st_evn as E. pose proof (st_pos _ _ _ _ _ _ _ _ _ _ ST) as POS.
  assert (M2 : many nDim X2 = true) by (cbn [many]; lia). assert (NB2 : forall x, nb nDim X2 x = x) by (intros x; unfold nb; rewrite M2; reflexivity). assert (NBNB : forall x, nb nDim X3 (nb nDim X3 x) = nb nDim X3 x) by (intros x; unfold nb; destruct (many nDim X3); reflexivity).
  pose proof (fine_par c nDim oc of P kk jj ii) as FP.
  destruct (fine_flat c nDim ng oc of P E POS kk jj ii (st_ghost _ _ _ B)) as (F2 & F3).
  assert (OF : Oface fo nDim oc of gp g0 (fine nDim of X3 kk) (fine nDim of X2 jj) (fine nDim of X1 ii) = Ofc kk jj ii) by reflexivity.
  assert (ND1 : (nDim =? 1)%nat = false) by (apply Nat.eqb_neq; lia).
  assert (IN : l = 0 \/ l = 1 -> fixedB of X1 (at_ (fine nDim of X3 kk + nb nDim X3 n) (fine nDim of X2 jj + nb nDim X2 m') (fine nDim of X1 ii + l)) = false ->
    gB1 g' (fine nDim of X3 kk + nb nDim X3 n) (fine nDim of X2 jj + m') (fine nDim of X1 ii + l) = x1 (interior (Ofc kk jj ii) dx1 dx2 dx3) (nb nDim X3 n) m' l).
  { intros D' FX. rewrite <- (NB2 m') at 1. change (gB1 g') with (fun k j i => get g' (EB X1 k j i)). cbv beta. rewrite G2; [|exact MH|apply blk_ghost; unfold bit; auto|auto|right; exact FX].
    destruct (target_blk c nDim oc of POS fo dx1 dx2 dx3 gp g0 _ _ _ n m' l FP ltac:(unfold bit; auto) ltac:(unfold bit; auto) ltac:(unfold bit; auto)) as (_ & T). rewrite T, ND1, OF, NB2. reflexivity. }
  assert (FI : forall p n m l, l = 0 \/ l = 2 -> x1 (interior p dx1 dx2 dx3) n m l = x1 p n m l) by (intros p n1 m1 l1 [-> | ->]; reflexivity).
  destruct D as [-> |[-> |(-> & LE)]].
  - destruct (fixedB of X1 (at_ (fine nDim of X3 kk + nb nDim X3 n) (fine nDim of X2 jj + nb nDim X2 m') (fine nDim of X1 ii + 0))) eqn:FX; [|apply IN; auto].
    rewrite FI by auto. rewrite <- (NB2 m') at 1. change (gB1 g') with (fun k j i => get g' (EB X1 k j i)). cbv beta. rewrite G3; [|exact D2|exact FX].
    rewrite (fixed_pair1 _ _ _ n m' 0 FP) in FX by (unfold bit; auto). unfold Ofc, Oface. cbn [x1]. rewrite ?Z.add_0_r. rewrite FX. cbn [get]. rewrite ?NB2. rewrite NBNB. rewrite ?Z.add_0_r. reflexivity.
  - apply IN; auto. apply not_true_is_false. intros FX. unfold fixedB in FX. apply andb_true_iff in FX. destruct FX as (FX & _). cbn [at_] in FX. pose proof (FP X1) as PB. cbn [at_] in PB. 
    destruct (pd_len _ _ _ _ P X1) as (L0 & _). rewrite many_ratio in L0 by apply (pd_dim _ _ _ _ P). unfold len in L0. unfold par in PB. rewrite ?NB3, ?NB2 in FX.
    cbn [many] in *. apply orb_true_iff in FX. clear - FX PB L0. destruct FX as [FX|FX]; apply andb_true_iff in FX; destruct FX as (FX & _); apply Z.eqb_eq in FX; Z.div_mod_to_equations; lia.
  - rewrite FI by auto.
    assert (SH : fine nDim of X1 (ii + 1) = fine nDim of X1 ii + 2). { unfold fine. rewrite many_ratio by apply (pd_dim _ _ _ _ P). cbn [many] in *. lia. }
    pose proof (fine_par c nDim oc of P kk jj (ii + 1)) as FP'. rewrite SH in FP'.
    pose proof (fixed_pair1 _ _ _ n m' 0 FP' ltac:(unfold bit; auto) ltac:(unfold bit; auto) ltac:(unfold bit; auto) eq_refl) as FXP.
    unfold Ofc, Oface. cbn [x1]. 
    destruct (fixedB of X1 (at_ (fine nDim of X3 kk ) (fine nDim of X2 jj ) (fine nDim of X1 ii + 2))) eqn:FX.
    + change (gB1 g') with (fun k j i => get g' (EB X1 k j i)). cbv beta. rewrite G3; [cbn [get]; rewrite ?NBNB; reflexivity|exact D2|]. rewrite ?NB2, ?NB3, ?Z.add_0_r in FXP. exact FXP.
    + assert (B' : beyond nDim ng of (fine nDim of X3 kk) (fine nDim of X2 jj) (fine nDim of X1 (ii + 1))).
      { rewrite SH. destruct B as (BX & b & O). split.
        - intros b'. pose proof (BX b') as Q. destruct b'; cbn [at_] in *; try exact Q. unfold nb in *. cbn [many] in *. lia.
        - destruct (axis_dec3 b X1) as [-> | NE]; [|exists b; destruct b; cbn [at_] in *; (exact O || (exfalso; apply NE; reflexivity))]. cbn [at_] in *.
          destruct O as [(O & F)|(O & F)]; [|exists X1; cbn [at_]; right; split; [lia|exact F]].
          destruct (Z_lt_dec (fine nDim of X1 ii + 2) (o_s of X1)) as [LT|GE]; [exists X1; cbn [at_]; left; auto|].
          assert (EQ : fine nDim of X1 ii + 2 = o_s of X1).
          { pose proof (FP X1) as PB. cbn [at_] in PB. unfold par in PB. cbn [many] in *. clear - PB GE O. Z.div_mod_to_equations; lia. }
          unfold fixedB in FX. cbn [at_] in FX. rewrite EQ, Z.eqb_refl, F in FX. cbn [andb orb] in FX. unfold all3 in FX. cbn [axis_eqb orb] in FX. cbn [at_] in FX.
          destruct (out of X2 (fine nDim of X2 jj)) eqn:OA; [exists X2; apply out_iff; exact OA|]. destruct (out of X3 (fine nDim of X3 kk)) eqn:OB; [exists X3; apply out_iff; exact OB|]. discriminate FX. }
      change (gB1 g') with (fun k j i => get g' (EB X1 k j i)). cbv beta.
      destruct (target_blk c nDim oc of POS fo dx1 dx2 dx3 gp g0 _ _ _ n m' 0 FP' ltac:(unfold bit; auto) ltac:(unfold bit; auto) ltac:(unfold bit; auto)) as (_ & T). specialize (T X1).
      rewrite ?NB2, ?NB3, ?Z.add_0_r in T, FXP.
      rewrite G2; [|exact MH| |auto|right; exact FXP].
      2: { pose proof (blk_ghost kk jj (ii + 1) n m' 0 B' ltac:(unfold bit; auto) ltac:(unfold bit; auto) ltac:(unfold bit; auto)) as BB. rewrite ?SH, ?NB2, ?NB3, ?Z.add_0_r in BB. exact BB. }
      rewrite T, ND1. cbn [xof]. rewrite FI by auto. unfold Oface. cbn [x1]. rewrite ?Z.add_0_r. rewrite FX.
      rewrite ci_plus by reflexivity. unfold tr. rewrite ?NBNB, ?NB3. cbn [half1 Z.eqb]. rewrite ?Z.add_0_r. reflexivity.
Qed.

Lemma fixed_pair2 : forall k j i n m l, (forall b, par nDim of b (at_ k j i b) = 0) -> bit n -> bit m -> bit l -> m = 0 ->
  fixedB of X2 (at_ (k + nb nDim X3 n) (j + nb nDim X2 m) (i + l)) = fixedB of X2 (at_ k j i).
Proof.
  intros k j i n m' l PR N M L Z. pose proof (out_pair c nDim oc of st_paired (st_pos _ _ _ _ _ _ _ _ _ _ ST) X1 i l (PR X1) L) as O1. change (nb nDim X1 l) with l in O1.
  pose proof (out_pair c nDim oc of st_paired (st_pos _ _ _ _ _ _ _ _ _ _ ST) X2 j m' (PR X2) M) as O2. pose proof (out_pair c nDim oc of st_paired (st_pos _ _ _ _ _ _ _ _ _ _ ST) X3 k n (PR X3) N) as O3.
  unfold fixedB. cbn [at_]. unfold all3. cbn [at_]. rewrite O1, O2, O3. f_equal. rewrite Z. replace (nb nDim X2 0) with 0 by (unfold nb; destruct (many nDim X2); reflexivity). rewrite Z.add_0_r. reflexivity.
Qed.

Lemma face2_val : forall kk jj ii n m l, c_mhd c = true -> (2 <= nDim)%nat -> usable fo nDim ng oc of gp g0 ->
  beyond nDim ng of (fine nDim of X3 kk) (fine nDim of X2 jj) (fine nDim of X1 ii) -> bit n -> bit l -> m = 0 \/ m = 1 \/ (m = 2 /\ fine nDim of X2 jj + 2 <= o_e of X2 + ng) ->
  gB2 g' (fine nDim of X3 kk + nb nDim X3 n) (fine nDim of X2 jj + m) (fine nDim of X1 ii + l) = x2 (interior (Ofc kk jj ii) dx1 dx2 dx3) (nb nDim X3 n) m l.
Proof.
  intros kk jj ii n m' l MH D2 US B N L D. destruct st_get as (_ & G2 & G3). { eauto. }
  pose proof st_paired as P. pose proof st_evn as E. pose proof (st_pos _ _ _ _ _ _ _ _ _ _ ST) as POS.
  assert (M2 : many nDim X2 = true) by (cbn [many]; lia). assert (NB2 : forall x, nb nDim X2 x = x) by (intros x; unfold nb; rewrite M2; reflexivity). assert (NBNB : forall x, nb nDim X3 (nb nDim X3 x) = nb nDim X3 x) by (intros x; unfold nb; destruct (many nDim X3); reflexivity).
  pose proof (fine_par c nDim oc of P kk jj ii) as FP.
  destruct (fine_flat c nDim ng oc of P E POS kk jj ii (st_ghost _ _ _ B)) as (F2 & F3).
  assert (OF : Oface fo nDim oc of gp g0 (fine nDim of X3 kk) (fine nDim of X2 jj) (fine nDim of X1 ii) = Ofc kk jj ii) by reflexivity.
  assert (ND1 : (nDim =? 1)%nat = false) by (apply Nat.eqb_neq; lia).
  assert (IN : m' = 0 \/ m' = 1 -> fixedB of X2 (at_ (fine nDim of X3 kk + nb nDim X3 n) (fine nDim of X2 jj + nb nDim X2 m') (fine nDim of X1 ii + l)) = false ->
    gB2 g' (fine nDim of X3 kk + nb nDim X3 n) (fine nDim of X2 jj + m') (fine nDim of X1 ii + l) = x2 (interior (Ofc kk jj ii) dx1 dx2 dx3) (nb nDim X3 n) m' l).
  { intros D' FX. rewrite <- (NB2 m') at 1. change (gB2 g') with (fun k j i => get g' (EB X2 k j i)). cbv beta. rewrite G2; [|exact MH|apply blk_ghost; unfold bit; auto|auto|right; exact FX].
    destruct (target_blk c nDim oc of POS fo dx1 dx2 dx3 gp g0 _ _ _ n m' l FP ltac:(unfold bit; auto) ltac:(unfold bit; auto) ltac:(unfold bit; auto)) as (_ & T). rewrite T, ND1, OF, NB2. reflexivity. }
  assert (FI : forall p n m l, m = 0 \/ m = 2 -> x2 (interior p dx1 dx2 dx3) n m l = x2 p n m l) by (intros p n1 m1 l1 [-> | ->]; reflexivity).
  destruct D as [-> |[-> |(-> & LE)]].
  - destruct (fixedB of X2 (at_ (fine nDim of X3 kk + nb nDim X3 n) (fine nDim of X2 jj + nb nDim X2 0) (fine nDim of X1 ii + l))) eqn:FX; [|apply IN; auto].
    rewrite FI by auto. rewrite <- (NB2 0) at 1. change (gB2 g') with (fun k j i => get g' (EB X2 k j i)). cbv beta. rewrite G3; [|exact D2|exact FX].
    rewrite (fixed_pair2 _ _ _ n 0 l FP) in FX by (unfold bit; auto). unfold Ofc, Oface. cbn [x2]. rewrite ?Z.add_0_r. rewrite FX. cbn [get]. rewrite ?NB2. rewrite NBNB. rewrite ?Z.add_0_r. reflexivity.
  - apply IN; auto. apply not_true_is_false. intros FX. unfold fixedB in FX. apply andb_true_iff in FX. destruct FX as (FX & _). cbn [at_] in FX. pose proof (FP X2) as PB. cbn [at_] in PB. 
    destruct (pd_len _ _ _ _ P X2) as (L0 & _). rewrite many_ratio in L0 by apply (pd_dim _ _ _ _ P). unfold len in L0. unfold par in PB. rewrite ?NB3, ?NB2 in FX.
    rewrite M2 in *. apply orb_true_iff in FX. clear - FX PB L0. destruct FX as [FX|FX]; apply andb_true_iff in FX; destruct FX as (FX & _); apply Z.eqb_eq in FX; Z.div_mod_to_equations; lia.
  - rewrite FI by auto.
    assert (SH : fine nDim of X2 (jj + 1) = fine nDim of X2 jj + 2). { unfold fine. rewrite many_ratio by apply (pd_dim _ _ _ _ P). rewrite M2 in *. lia. }
    pose proof (fine_par c nDim oc of P kk (jj + 1) ii) as FP'. rewrite SH in FP'.
    pose proof (fixed_pair2 _ _ _ n 0 l FP' ltac:(unfold bit; auto) ltac:(unfold bit; auto) ltac:(unfold bit; auto) eq_refl) as FXP.
    unfold Ofc, Oface. cbn [x2]. 
    destruct (fixedB of X2 (at_ (fine nDim of X3 kk ) (fine nDim of X2 jj + 2) (fine nDim of X1 ii ))) eqn:FX.
    + change (gB2 g') with (fun k j i => get g' (EB X2 k j i)). cbv beta. rewrite G3; [cbn [get]; rewrite ?NBNB; reflexivity|exact D2|]. rewrite ?NB2, ?NB3, ?Z.add_0_r in FXP. exact FXP.
    + assert (B' : beyond nDim ng of (fine nDim of X3 kk) (fine nDim of X2 (jj + 1)) (fine nDim of X1 ii)).
      { rewrite SH. destruct B as (BX & b & O). split.
        - intros b'. pose proof (BX b') as Q. destruct b'; cbn [at_] in *; try exact Q. unfold nb in *. rewrite M2 in *. lia.
        - destruct (axis_dec3 b X2) as [-> | NE]; [|exists b; destruct b; cbn [at_] in *; (exact O || (exfalso; apply NE; reflexivity))]. cbn [at_] in *.
          destruct O as [(O & F)|(O & F)]; [|exists X2; cbn [at_]; right; split; [lia|exact F]].
          destruct (Z_lt_dec (fine nDim of X2 jj + 2) (o_s of X2)) as [LT|GE]; [exists X2; cbn [at_]; left; auto|].
          assert (EQ : fine nDim of X2 jj + 2 = o_s of X2).
          { pose proof (FP X2) as PB. cbn [at_] in PB. unfold par in PB. rewrite M2 in *. clear - PB GE O. Z.div_mod_to_equations; lia. }
          unfold fixedB in FX. cbn [at_] in FX. rewrite EQ, Z.eqb_refl, F in FX. cbn [andb orb] in FX. unfold all3 in FX. cbn [axis_eqb orb] in FX. cbn [at_] in FX.
          destruct (out of X1 (fine nDim of X1 ii)) eqn:OA; [exists X1; apply out_iff; exact OA|]. destruct (out of X3 (fine nDim of X3 kk)) eqn:OB; [exists X3; apply out_iff; exact OB|]. discriminate FX. }
      change (gB2 g') with (fun k j i => get g' (EB X2 k j i)). cbv beta.
      destruct (target_blk c nDim oc of POS fo dx1 dx2 dx3 gp g0 _ _ _ n 0 l FP' ltac:(unfold bit; auto) ltac:(unfold bit; auto) ltac:(unfold bit; auto)) as (_ & T). specialize (T X2).
      rewrite ?NB2, ?NB3, ?Z.add_0_r in T, FXP.
      rewrite G2; [|exact MH| |auto|right; exact FXP].
      2: { pose proof (blk_ghost kk (jj + 1) ii n 0 l B' ltac:(unfold bit; auto) ltac:(unfold bit; auto) ltac:(unfold bit; auto)) as BB. rewrite ?SH, ?NB2, ?NB3, ?Z.add_0_r in BB. exact BB. }
      rewrite T, ND1. cbn [xof]. rewrite FI by auto. unfold Oface. cbn [x2]. rewrite ?Z.add_0_r. rewrite FX.
      rewrite ci_plus by exact M2. unfold tr. rewrite ?NBNB, ?NB3. cbn [half1 Z.eqb]. rewrite ?Z.add_0_r. reflexivity.
Qed.

Lemma fixed_pair3 : forall k j i n m l, (forall b, par nDim of b (at_ k j i b) = 0) -> bit n -> bit m -> bit l -> n = 0 ->
  fixedB of X3 (at_ (k + nb nDim X3 n) (j + nb nDim X2 m) (i + l)) = fixedB of X3 (at_ k j i).
Proof.
  intros k j i n m' l PR N M L Z. pose proof (out_pair c nDim oc of st_paired (st_pos _ _ _ _ _ _ _ _ _ _ ST) X1 i l (PR X1) L) as O1. change (nb nDim X1 l) with l in O1.
  pose proof (out_pair c nDim oc of st_paired (st_pos _ _ _ _ _ _ _ _ _ _ ST) X2 j m' (PR X2) M) as O2. pose proof (out_pair c nDim oc of st_paired (st_pos _ _ _ _ _ _ _ _ _ _ ST) X3 k n (PR X3) N) as O3.
  unfold fixedB. cbn [at_]. unfold all3. cbn [at_]. rewrite O1, O2, O3. f_equal. rewrite Z. replace (nb nDim X3 0) with 0 by (unfold nb; destruct (many nDim X3); reflexivity). rewrite Z.add_0_r. reflexivity.
Qed.

Lemma face3_val : forall kk jj ii n m l, c_mhd c = true -> (2 <= nDim)%nat -> nDim = 3%nat -> usable fo nDim ng oc of gp g0 ->
  beyond nDim ng of (fine nDim of X3 kk) (fine nDim of X2 jj) (fine nDim of X1 ii) -> bit m -> bit l -> n = 0 \/ n = 1 \/ (n = 2 /\ fine nDim of X3 kk + 2 <= o_e of X3 + ng) ->
  gB3 g' (fine nDim of X3 kk + nb nDim X3 n) (fine nDim of X2 jj + m) (fine nDim of X1 ii + l) = x3 (interior (Ofc kk jj ii) dx1 dx2 dx3) (nb nDim X3 n) m l.
Proof.
  intros kk jj ii n m' l MH D2 D3 US B M L D. destruct st_get as (_ & G2 & G3). { eauto. }
  pose proof st_paired as P. pose proof st_evn as E. pose proof (st_pos _ _ _ _ _ _ _ _ _ _ ST) as POS.
  assert (M2 : many nDim X2 = true) by (cbn [many]; lia). assert (NB2 : forall x, nb nDim X2 x = x) by (intros x; unfold nb; rewrite M2; reflexivity). assert (M3 : many nDim X3 = true) by (cbn [many]; lia). assert (NB3 : forall x, nb nDim X3 x = x) by (intros x; unfold nb; rewrite M3; reflexivity).
  pose proof (fine_par c nDim oc of P kk jj ii) as FP.
  destruct (fine_flat c nDim ng oc of P E POS kk jj ii (st_ghost _ _ _ B)) as (F2 & F3).
  assert (OF : Oface fo nDim oc of gp g0 (fine nDim of X3 kk) (fine nDim of X2 jj) (fine nDim of X1 ii) = Ofc kk jj ii) by reflexivity.
  assert (ND1 : (nDim =? 1)%nat = false) by (apply Nat.eqb_neq; lia).
  assert (IN : n = 0 \/ n = 1 -> fixedB of X3 (at_ (fine nDim of X3 kk + nb nDim X3 n) (fine nDim of X2 jj + nb nDim X2 m') (fine nDim of X1 ii + l)) = false ->
    gB3 g' (fine nDim of X3 kk + nb nDim X3 n) (fine nDim of X2 jj + m') (fine nDim of X1 ii + l) = x3 (interior (Ofc kk jj ii) dx1 dx2 dx3) (nb nDim X3 n) m' l).
  { intros D' FX. rewrite <- (NB2 m') at 1. change (gB3 g') with (fun k j i => get g' (EB X3 k j i)). cbv beta. rewrite G2; [|exact MH|apply blk_ghost; unfold bit; auto|auto|right; exact FX].
    destruct (target_blk c nDim oc of POS fo dx1 dx2 dx3 gp g0 _ _ _ n m' l FP ltac:(unfold bit; auto) ltac:(unfold bit; auto) ltac:(unfold bit; auto)) as (_ & T). rewrite T, ND1, OF, NB2. reflexivity. }
  assert (FI : forall p n m l, n = 0 \/ n = 2 -> x3 (interior p dx1 dx2 dx3) n m l = x3 p n m l) by (intros p n1 m1 l1 [-> | ->]; reflexivity).
  destruct D as [-> |[-> |(-> & LE)]].
  - destruct (fixedB of X3 (at_ (fine nDim of X3 kk + nb nDim X3 0) (fine nDim of X2 jj + nb nDim X2 m') (fine nDim of X1 ii + l))) eqn:FX; [|apply IN; auto].
    rewrite FI by auto. rewrite <- (NB2 m') at 1. change (gB3 g') with (fun k j i => get g' (EB X3 k j i)). cbv beta. rewrite G3; [|exact D2|exact FX].
    rewrite (fixed_pair3 _ _ _ 0 m' l FP) in FX by (unfold bit; auto). unfold Ofc, Oface. cbn [x3]. rewrite NB3, ?Z.add_0_r. rewrite FX. cbn [get]. rewrite ?NB2. rewrite ?NB3. rewrite ?Z.add_0_r. reflexivity.
  - apply IN; auto. apply not_true_is_false. intros FX. unfold fixedB in FX. apply andb_true_iff in FX. destruct FX as (FX & _). cbn [at_] in FX. pose proof (FP X3) as PB. cbn [at_] in PB. 
    destruct (pd_len _ _ _ _ P X3) as (L0 & _). rewrite many_ratio in L0 by apply (pd_dim _ _ _ _ P). unfold len in L0. unfold par in PB. rewrite ?NB3, ?NB2 in FX.
    rewrite M3 in *. apply orb_true_iff in FX. clear - FX PB L0. destruct FX as [FX|FX]; apply andb_true_iff in FX; destruct FX as (FX & _); apply Z.eqb_eq in FX; Z.div_mod_to_equations; lia.
  - rewrite FI by auto.
    assert (SH : fine nDim of X3 (kk + 1) = fine nDim of X3 kk + 2). { unfold fine. rewrite many_ratio by apply (pd_dim _ _ _ _ P). rewrite M3 in *. lia. }
    pose proof (fine_par c nDim oc of P (kk + 1) jj ii) as FP'. rewrite SH in FP'.
    pose proof (fixed_pair3 _ _ _ 0 m' l FP' ltac:(unfold bit; auto) ltac:(unfold bit; auto) ltac:(unfold bit; auto) eq_refl) as FXP.
    unfold Ofc, Oface. cbn [x3]. rewrite !NB3.
    destruct (fixedB of X3 (at_ (fine nDim of X3 kk + 2) (fine nDim of X2 jj ) (fine nDim of X1 ii ))) eqn:FX.
    + change (gB3 g') with (fun k j i => get g' (EB X3 k j i)). cbv beta. rewrite G3; [cbn [get]; rewrite ?NBNB; reflexivity|exact D2|]. rewrite ?NB2, ?NB3, ?Z.add_0_r in FXP. exact FXP.
    + assert (B' : beyond nDim ng of (fine nDim of X3 (kk + 1)) (fine nDim of X2 jj) (fine nDim of X1 ii)).
      { rewrite SH. destruct B as (BX & b & O). split.
        - intros b'. pose proof (BX b') as Q. destruct b'; cbn [at_] in *; try exact Q. unfold nb in *. rewrite M3 in *. lia.
        - destruct (axis_dec3 b X3) as [-> | NE]; [|exists b; destruct b; cbn [at_] in *; (exact O || (exfalso; apply NE; reflexivity))]. cbn [at_] in *.
          destruct O as [(O & F)|(O & F)]; [|exists X3; cbn [at_]; right; split; [lia|exact F]].
          destruct (Z_lt_dec (fine nDim of X3 kk + 2) (o_s of X3)) as [LT|GE]; [exists X3; cbn [at_]; left; auto|].
          assert (EQ : fine nDim of X3 kk + 2 = o_s of X3).
          { pose proof (FP X3) as PB. cbn [at_] in PB. unfold par in PB. rewrite M3 in *. clear - PB GE O. Z.div_mod_to_equations; lia. }
          unfold fixedB in FX. cbn [at_] in FX. rewrite EQ, Z.eqb_refl, F in FX. cbn [andb orb] in FX. unfold all3 in FX. cbn [axis_eqb orb] in FX. cbn [at_] in FX.
          destruct (out of X1 (fine nDim of X1 ii)) eqn:OA; [exists X1; apply out_iff; exact OA|]. destruct (out of X2 (fine nDim of X2 jj)) eqn:OB; [exists X2; apply out_iff; exact OB|]. discriminate FX. }
      change (gB3 g') with (fun k j i => get g' (EB X3 k j i)). cbv beta.
      destruct (target_blk c nDim oc of POS fo dx1 dx2 dx3 gp g0 _ _ _ 0 m' l FP' ltac:(unfold bit; auto) ltac:(unfold bit; auto) ltac:(unfold bit; auto)) as (_ & T). specialize (T X3).
      rewrite ?NB2, ?NB3, ?Z.add_0_r in T, FXP.
      rewrite G2; [|exact MH| |auto|right; exact FXP].
      2: { pose proof (blk_ghost (kk + 1) jj ii 0 m' l B' ltac:(unfold bit; auto) ltac:(unfold bit; auto) ltac:(unfold bit; auto)) as BB. rewrite ?SH, ?NB2, ?NB3, ?Z.add_0_r in BB. exact BB. }
      rewrite T, ND1. cbn [xof]. rewrite FI by auto. unfold Oface. cbn [x3]. rewrite ?Z.add_0_r. rewrite FX.
      rewrite ci_plus by exact M3. unfold tr. rewrite ?NBNB, ?NB3. cbn [half1 Z.eqb]. rewrite ?NB3, ?Z.add_0_r. reflexivity.
Qed.

(** The faces at the left of the coarse cell along x3; with two dimensions too. *)
Lemma face3_all : forall kk jj ii m l, c_mhd c = true -> (2 <= nDim)%nat -> usable fo nDim ng oc of gp g0 ->
  beyond nDim ng of (fine nDim of X3 kk) (fine nDim of X2 jj) (fine nDim of X1 ii) -> bit m -> bit l ->
  gB3 g' (fine nDim of X3 kk) (fine nDim of X2 jj + m) (fine nDim of X1 ii + l) = x3 (interior (Ofc kk jj ii) dx1 dx2 dx3) 0 m l.
Proof.
  intros kk jj ii m' l MH D2 US B M L. pose proof st_paired as P. pose proof st_evn as E. pose proof (st_pos _ _ _ _ _ _ _ _ _ _ ST) as POS. pose proof (pd_dim _ _ _ _ P) as ND.
  destruct (Nat.eq_dec nDim 3) as [D3|D3].
  { pose proof (face3_val kk jj ii 0 m' l MH D2 D3 US B M L (or_introl eq_refl)) as Q. replace (nb nDim X3 0) with 0 in Q by (unfold nb; destruct (many nDim X3); reflexivity). rewrite Z.add_0_r in Q. exact Q. }
  destruct st_get as (_ & G2 & _). { eauto. }
  assert (M2 : many nDim X2 = true) by (cbn [many]; lia). assert (NB2 : forall x, nb nDim X2 x = x) by (intros x; unfold nb; rewrite M2; reflexivity).
  assert (M3 : many nDim X3 = false) by (cbn [many]; lia). assert (NB3 : forall x, nb nDim X3 x = 0) by (intros x; unfold nb; rewrite M3; reflexivity).
  assert (ND1 : (nDim =? 1)%nat = false) by (apply Nat.eqb_neq; lia). assert (B0 : bit 0) by (left; reflexivity).
  pose proof (blk_ghost kk jj ii 0 m' l B B0 M L) as BB. rewrite NB3, NB2, Z.add_0_r in BB.
  destruct (target_blk c nDim oc of POS fo dx1 dx2 dx3 gp g0 _ _ _ 0 m' l (fine_par c nDim oc of P kk jj ii) B0 M L) as (_ & T). specialize (T X3). rewrite NB3, NB2, Z.add_0_r, ND1 in T.
  change (gB3 g') with (fun k j i => get g' (EB X3 k j i)). cbv beta. rewrite G2; [rewrite T; reflexivity|exact MH|exact BB|auto|]. right.
  unfold fixedB. pose proof (pd_flags _ _ _ _ P) as FL. assert (F3 : forall s, some (o_flx of X3 s) = false).
  { intros s. destruct (some (o_flx of X3 s)) eqn:Q; [|reflexivity]. pose proof (flagm c nDim oc of P X3 s Q) as Q'. rewrite M3 in Q'. discriminate Q'. }
  rewrite !F3, !andb_false_r. reflexivity.
Qed.
End Run.
Lemma ranges : forall nDim fo (h : (var -> R) -> R) oc gp kk jj ii n m l, (1 <= nDim <= 3)%nat -> (nDim <= 2)%nat -> bit m -> bit l ->
  let q := smap h (coarse nDim oc gp kk jj ii) in
  (many nDim X2 = false -> jm1 q = i0 q /\ jp1 q = i0 q) -> (many nDim X3 = false -> km1 q = i0 q /\ kp1 q = i0 q) ->
  between (around nDim (fun K J I => h (gU gp K J I)) (o_s oc X3 + kk) (o_s oc X2 + jj) (o_s oc X1 + ii)) (lin fo q (nb nDim X3 n) (nb nDim X2 m) l).
Proof.
  intros nDim fo h oc gp kk jj ii n m l ND D M L. cbv zeta. intros F2 F3.
  assert (D' : nDim = 1%nat \/ nDim = 2%nat) by lia. destruct D' as [-> | ->].
  - destruct (F2 eq_refl) as (A1 & A2), (F3 eq_refl) as (A3 & A4). exact (lin_between1 fo (smap h (coarse 1 oc gp kk jj ii)) _ _ l L A1 A2 A3 A4).
  - destruct (F3 eq_refl) as (A3 & A4). exact (lin_between2 fo (smap h (coarse 2 oc gp kk jj ii)) _ _ l L M A3 A4).
Qed.
(** The mean over the fine faces of a coarse face. *)
Ltac sz H := repeat rewrite Z.mul_1_l in H; repeat rewrite Z.add_0_r in H; repeat rewrite Z.sub_0_r in H; try rewrite !slope_flat in H.
Ltac faces nDim ND D2 T1 T2 T3 T4 := let N := fresh "N" in let R1 := fresh "R1" in let R2 := fresh "R2" in let R3 := fresh "R3" in
  destruct (ratio_cases nDim ND) as [(N & _)|[(N & R1 & R2 & R3)|(N & R1 & R2 & R3)]]; [lia| |];
  try rewrite (cover2 nDim _ X1) by assumption; try rewrite (cover2 nDim _ X2) by assumption; first [rewrite (cover2 nDim _ X3) by assumption|rewrite (cover1 nDim _ X3) by assumption|idtac];
  unfold fine in *; rewrite ?R1, ?R2, ?R3 in *; clear R1 R2 R3; subst nDim; unfold tr, nb, sg in *; cbn [many Nat.leb Z.eqb] in *;
  sz T1; sz T2; sz T3; sz T4; repeat rewrite Z.mul_1_l; repeat rewrite Z.add_0_r;
  unfold cells3, cells2; cbn [map flat_map app]; unfold at3;
  rewrite ?T1, ?T2, ?T3, ?T4; unfold mean; cbn [fold_right length INR]; field.
