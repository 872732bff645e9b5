(** Properties of the utility functions: C45-C49. *)
From Coq Require Import ZArith List Bool Reals Lia ZifyBool Lra.
From Verif Require Import CStr MeshModel PosModel GasModel ConvProps UtilModel.
Import ListNotations.
Open Scope R_scope.

(** * C45: ath_gcd *)

Lemma gcd_loop_ok : forall n a b, b <> 0%Z -> (Z.abs b < Z.of_nat n)%Z ->
  exists g, gcd_loop n a b = Ok g /\ Z.abs g = Z.gcd a b.
Proof.
  induction n as [|n IH]; intros a b Hb Hn; [lia|]. cbn [gcd_loop].
  destruct (Z.eqb_spec b 0); [lia|].
  assert (G : Z.gcd b (Z.rem a b) = Z.gcd a b).
  { rewrite (Z.gcd_comm a b). rewrite (Z.quot_rem' a b) at 2.
    rewrite (Z.mul_comm b). rewrite Z.add_comm. rewrite (Z.gcd_comm b (_ + _)). rewrite (Z.gcd_comm b).
    symmetry. rewrite Z.gcd_comm, Z.gcd_add_mult_diag_r, Z.gcd_comm. reflexivity. }
  destruct (Z.eqb_spec (Z.rem a b) 0) as [E|E].
  - exists b. split; [reflexivity|]. rewrite E, Z.gcd_0_r in G. exact G.
  - destruct (IH b (Z.rem a b)) as (g & E1 & E2); [exact E|pose proof (Z.rem_bound_abs a b Hb); lia|].
    exists g. split; [exact E1|]. congruence.
Qed.
Lemma gcd_loop_pos : forall n a b g, (0 <= a)%Z -> (0 < b)%Z -> gcd_loop n a b = Ok g -> (0 < g)%Z.
Proof.
  induction n as [|n IH]; intros a b g Ha Hb; cbn [gcd_loop]; destruct (Z.eqb_spec b 0); try lia; try discriminate.
  destruct (Z.eqb_spec (Z.rem a b) 0) as [E|E]; intros H; [injection H; intros; lia|].
  apply IH in H; auto; try lia. pose proof (Z.rem_nonneg a b ltac:(lia) Ha). lia.
Qed.

Theorem C45_gcd : forall a b, (0 < a)%Z -> (0 < b)%Z ->
  exists g, ath_gcd a b = Ok g /\ (0 < g)%Z /\ (g | a)%Z /\ (g | b)%Z /\
    forall d, (d | a)%Z -> (d | b)%Z -> (d | g)%Z.
Proof.
  intros a b Ha Hb. unfold ath_gcd.
  assert (K : forall x y, (0 < x)%Z -> (0 < y)%Z -> exists g, gcd_loop (S (Z.to_nat (Z.abs y))) x y = Ok g /\ g = Z.gcd x y).
  { intros x y Hx Hy. destruct (gcd_loop_ok (S (Z.to_nat (Z.abs y))) x y) as (g & E1 & E2); try lia.
    exists g. split; auto. apply gcd_loop_pos in E1; lia. }
  assert (D : exists g, (let '(a', b') := if (b >? a)%Z then (b, a) else (a, b) in gcd_loop (S (Z.to_nat (Z.abs b'))) a' b') = Ok g
     /\ g = Z.gcd a b).
  { destruct (b >? a)%Z; [rewrite Z.gcd_comm|]; apply K; auto. }
  destruct D as (g & E & ->). exists (Z.gcd a b). split; [exact E|].
  split. { pose proof (Z.gcd_nonneg a b). destruct (Z.eq_dec (Z.gcd a b) 0) as [Z0|]; [|lia]. apply Z.gcd_eq_0 in Z0. lia. }
  split; [apply Z.gcd_divide_l|]. split; [apply Z.gcd_divide_r|]. intros d. apply Z.gcd_greatest.
Qed.
Print Assumptions C45_gcd.

(** For any signs, as long as the smaller argument is not zero, the result is the greatest common
    divisor up to sign; with a zero smaller argument the remainder is undefined. *)
Theorem C45_gcd_signed : forall a b, (Z.min a b <> 0)%Z ->
  exists g, ath_gcd a b = Ok g /\ Z.abs g = Z.gcd a b.
Proof.
  intros a b H. unfold ath_gcd. destruct (b >? a)%Z eqn:E; [rewrite Z.gcd_comm|]; apply gcd_loop_ok; lia.
Qed.
Print Assumptions C45_gcd_signed.
Theorem C45_gcd_zero_refuted : forall a, (0 <= a)%Z -> ath_gcd a 0 = UB /\ ath_gcd 0 a = UB.
Proof.
  intros a H. unfold ath_gcd. destruct (0 >? a)%Z eqn:E, (a >? 0)%Z eqn:F; try lia; split; cbn; auto.
  destruct a; try lia; auto.
Qed.
Print Assumptions C45_gcd_zero_refuted.
Example ex_gcd : ath_gcd 84 36 = Ok 12%Z /\ ath_gcd 36 84 = Ok 12%Z /\ ath_gcd (-6) 4 = Ok (-2)%Z.
Proof. repeat split; reflexivity. Qed.

(** * C46: ath_bswap *)

(** Every one of [cnt] elements of [len] bytes starting at [dat] is reversed; other bytes are kept. *)
Definition bytes_reversed {A} (dat len cnt : Z) (m m' : mem A) : Prop :=
  (forall q r, (0 <= q < cnt)%Z -> (0 <= r < len)%Z ->
     m' (dat + q * len + r)%Z = m (dat + q * len + (len - 1 - r))%Z) /\
  (forall p, (p < dat \/ dat + cnt * len <= p)%Z -> m' p = m p).

Lemma while_cnt_rev : forall A (body : Z -> mem A -> mem A) len, (0 < len)%Z ->
  (forall d m, bytes_reversed d len 1 m (body d m)) ->
  forall n d m, bytes_reversed d len (Z.of_nat n) m (while_cnt body len n d m).
Proof.
  intros A body len Hl HB. induction n as [|n IH]; intros d m.
  - split; [intros; lia|]. reflexivity.
  - cbn [while_cnt]. destruct (IH (d + len)%Z (body d m)) as [I1 I2]. destruct (HB d m) as [B1 B2]. split.
    + intros q r Hq Hr. destruct (Z.eq_dec q 0) as [->|Nq].
      * rewrite I2 by lia. specialize (B1 0%Z r). rewrite !Z.mul_0_l, !Z.add_0_r in *. apply B1; lia.
      * specialize (I1 (q - 1)%Z r). replace (d + q * len + r)%Z with (d + len + (q - 1) * len + r)%Z by lia.
        rewrite I1 by lia. replace (d + len + (q - 1) * len + (len - 1 - r))%Z with (d + q * len + (len - 1 - r))%Z by lia.
        apply B2. right. nia.
    + intros p Hp. rewrite I2 by nia. apply B2. nia.
Qed.
Ltac bytes := unfold swap2, upd; repeat match goal with |- context [Z.eqb ?a ?b] => destruct (Z.eqb_spec a b); try lia end; try f_equal; try lia.
Lemma general_swaps_rev : forall A n len dat k (m : mem A) p, (0 <= k)%Z -> (2 * (k + Z.of_nat n) <= len)%Z ->
  general_swaps len dat k n m p =
    if ((dat + k <=? p) && (p <? dat + k + Z.of_nat n) || (dat + len - k - Z.of_nat n <=? p) && (p <? dat + len - k))%Z
    then m (2 * dat + len - 1 - p)%Z else m p.
Proof.
  intros A. induction n as [|n IH]; intros len dat k m p Hk Hn.
  - cbn [general_swaps].
    destruct ((dat + k <=? p) && (p <? dat + k + Z.of_nat 0) || (dat + len - k - Z.of_nat 0 <=? p) && (p <? dat + len - k))%Z eqn:E; auto; lia.
  - cbn [general_swaps]. rewrite IH by lia.
    destruct ((dat + (k+1) <=? p) && (p <? dat + (k+1) + Z.of_nat n) || (dat + len - (k+1) - Z.of_nat n <=? p) && (p <? dat + len - (k+1)))%Z eqn:E;
    destruct ((dat + k <=? p) && (p <? dat + k + Z.of_nat (S n)) || (dat + len - k - Z.of_nat (S n) <=? p) && (p <? dat + len - k))%Z eqn:F; try lia; bytes.
Qed.

(** What ath_bswap does, for any length. *)
Theorem C46_bswap : forall A dat len cnt (m : mem A), (len = 1 \/ len = 2 \/ len = 4 \/ len = 8)%Z -> (0 <= cnt)%Z ->
  exists m', ath_bswap dat len cnt m = Ok m' /\ bytes_reversed dat len cnt m m'.
Proof.
  intros A dat len cnt m Hl Hc. unfold ath_bswap. destruct (Z.ltb_spec cnt 0); [lia|].
  enough (exists m', (if (len =? 1)%Z then Ok m
    else if (len =? 2)%Z then Ok (while_cnt (fun d m => swap2 d (d + 1) m) 2 (Z.to_nat cnt) dat m)
    else if (len =? 4)%Z then Ok (while_cnt (fun d m => swap2 (d + 1) (d + 2) (swap2 d (d + 3) m)) 4 (Z.to_nat cnt) dat m)
    else if (len =? 8)%Z then Ok (while_cnt (fun d m => swap2 (d + 3) (d + 4) (swap2 (d + 2) (d + 5)
                                (swap2 (d + 1) (d + 6) (swap2 d (d + 7) m)))) 8 (Z.to_nat cnt) dat m)
    else Ok (general_swaps len dat 0 (Z.to_nat (Z.quot len 2)) m)) = Ok m'
    /\ bytes_reversed dat len (Z.of_nat (Z.to_nat cnt)) m m') as G by (rewrite Z2Nat.id in G by lia; exact G).
  destruct Hl as [-> | [-> | [-> | ->]]]; cbn [Z.eqb Pos.eqb]; (eexists; split; [reflexivity|]).
  - split; [|reflexivity]. intros q r _ Hr. f_equal. lia.
  - apply while_cnt_rev; [lia|]. intros d m0. split.
    + intros q r Hq Hr. assert (q = 0)%Z as -> by lia. assert (r = 0 \/ r = 1)%Z as [->| ->] by lia; bytes.
    + intros p Hp. bytes.
  - apply while_cnt_rev; [lia|]. intros d m0. split.
    + intros q r Hq Hr. assert (q = 0)%Z as -> by lia.
      assert (r = 0 \/ r = 1 \/ r = 2 \/ r = 3)%Z as [->|[->|[->| ->]]] by lia; bytes.
    + intros p Hp. bytes.
  - apply while_cnt_rev; [lia|]. intros d m0. split.
    + intros q r Hq Hr. assert (q = 0)%Z as -> by lia.
      assert (r = 0 \/ r = 1 \/ r = 2 \/ r = 3 \/ r = 4 \/ r = 5 \/ r = 6 \/ r = 7)%Z
        as [->|[->|[->|[->|[->|[->|[->| ->]]]]]]] by lia; bytes.
    + intros p Hp. bytes.
Qed.
Print Assumptions C46_bswap.
(** Reversing twice gives the data back. *)
Theorem C46_twice : forall A dat len cnt (m : mem A), (len = 1 \/ len = 2 \/ len = 4 \/ len = 8)%Z -> (0 <= cnt)%Z ->
  exists m', bind (ath_bswap dat len cnt m) (ath_bswap dat len cnt) = Ok m' /\ forall p, m' p = m p.
Proof.
  intros A dat len cnt m Hl Hc. destruct (C46_bswap A dat len cnt m Hl Hc) as (m1 & -> & [R1 K1]). cbn [bind].
  destruct (C46_bswap A dat len cnt m1 Hl Hc) as (m2 & -> & [R2 K2]). exists m2. split; [reflexivity|].
  intros p. assert (L : (0 < len)%Z) by lia.
  destruct (Z_lt_dec p dat); [rewrite K2, K1; auto|]. destruct (Z_le_dec (dat + cnt * len) p); [rewrite K2, K1; auto|].
  pose proof (Z_div_mod_eq_full (p - dat) len). pose proof (Z.mod_pos_bound (p - dat) len L).
  set (q := ((p - dat) / len)%Z) in *. set (r := ((p - dat) mod len)%Z) in *.
  assert (Q : (0 <= q < cnt)%Z) by nia.
  replace p with (dat + q * len + r)%Z by lia. rewrite R2 by lia. rewrite R1 by lia. f_equal. lia.
Qed.
Print Assumptions C46_twice.
(** Any other length: only the first element is reversed, whatever the count. *)
Theorem C46_other_lengths : forall A dat len cnt (m : mem A), (0 < len)%Z -> (len <> 1 /\ len <> 2 /\ len <> 4 /\ len <> 8)%Z ->
  exists m', ath_bswap dat len cnt m = Ok m' /\ bytes_reversed dat len 1 m m'.
Proof.
  intros A dat len cnt m Hl Hn. unfold ath_bswap.
  destruct (Z.eqb_spec len 1), (Z.eqb_spec len 2), (Z.eqb_spec len 4), (Z.eqb_spec len 8); try lia.
  eexists; split; [reflexivity|].
  assert (H2 : (2 * Z.quot len 2 <= len < 2 * Z.quot len 2 + 2)%Z).
  { pose proof (Z.quot_rem' len 2). pose proof (Z.rem_bound_pos len 2). lia. }
  assert (Q : (0 <= Z.quot len 2)%Z) by lia.
  split; intros; rewrite general_swaps_rev by lia.
  - assert (q = 0)%Z as -> by lia.
    match goal with |- (if ?b then _ else _) = _ => destruct b eqn:E end; f_equal; lia.
  - match goal with |- (if ?b then _ else _) = _ => destruct b eqn:E end; f_equal; lia.
Qed.
Print Assumptions C46_other_lengths.
(** So the claim for every length is false: two elements of three bytes. *)
Theorem C46_bswap_refuted : exists len cnt (m m' : mem Z), (0 < len)%Z /\ (0 <= cnt)%Z /\
  ath_bswap 0 len cnt m = Ok m' /\ ~ bytes_reversed 0 len cnt m m'.
Proof.
  exists 3%Z, 2%Z, (fun p => p). eexists. split; [lia|]. split; [lia|]. split; [reflexivity|].
  intros [H _]. specialize (H 1%Z 0%Z ltac:(lia) ltac:(lia)). vm_compute in H. discriminate.
Qed.
Print Assumptions C46_bswap_refuted.
Example ex_bswap : exists m', ath_bswap 10 4 3 (fun p => p) = Ok m' /\ m' 10%Z = 13%Z /\ m' 20%Z = 19%Z /\ m' 22%Z = 22%Z.
Proof. eexists. split; [reflexivity|]. repeat split. Qed.

(** * C48: minmax1, minmax2, minmax3 *)

Lemma for_up_inv : forall S (P : Z -> S -> Prop) body n i st, P i st ->
  (forall x s, (i <= x < i + Z.of_nat n)%Z -> P x s -> P (x + 1)%Z (body x s)) -> P (i + Z.of_nat n)%Z (for_up i n body st).
Proof.
  intros S P body. induction n as [|n IH]; intros i st H0 HS.
  - rewrite Z.add_0_r. exact H0.
  - cbn [for_up]. replace (i + Z.of_nat (Datatypes.S n))%Z with (i + 1 + Z.of_nat n)%Z by lia. apply IH.
    + apply HS; auto. lia.
    + intros. apply HS; auto. lia.
Qed.
Lemma fori_inv : forall S (P : Z -> S -> Prop) body lo hi st, (lo <= hi)%Z -> P lo st ->
  (forall x s, (lo <= x < hi)%Z -> P x s -> P (x + 1)%Z (body x s)) -> P hi (fori lo hi body st).
Proof.
  intros S P body lo hi st L H0 HS. unfold fori.
  pose proof (for_up_inv S P body (Z.to_nat (hi - lo)) lo st H0) as H.
  replace (lo + Z.of_nat (Z.to_nat (hi - lo)))%Z with hi in H by lia. apply H. exact HS.
Qed.

(** Invariant of the nests: both extremes occur in the visited data (or are the first element) and bound it. *)
Definition mmP (occ : R -> Prop) (vis : R -> Prop) (st : R * R) : Prop :=
  occ (fst st) /\ occ (snd st) /\ forall v, vis v -> fst st <= v <= snd st.
Lemma mm_step : forall (occ vis vis' : R -> Prop) v st, occ v -> (forall w, vis' w -> vis w \/ w = v) ->
  mmP occ vis st -> mmP occ vis' (mm v st).
Proof.
  intros occ vis vis' v [lo hi] Ho Hv (A & B & C). unfold mm, mmP; cbn [fst snd] in *.
  assert (E1 : MIN lo v <= lo /\ MIN lo v <= v /\ (MIN lo v = lo \/ MIN lo v = v)) by (unfold MIN; destruct (Rlt_dec lo v); lra).
  assert (E3 : hi <= MAX hi v /\ v <= MAX hi v /\ (MAX hi v = hi \/ MAX hi v = v)) by (unfold MAX; destruct (Rlt_dec v hi); lra).
  split; [destruct E1 as (_ & _ & [-> | ->]); auto|]. split; [destruct E3 as (_ & _ & [-> | ->]); auto|].
  intros w Hw. apply Hv in Hw. destruct Hw as [Hw| ->]; [apply C in Hw|]; lra.
Qed.

Theorem C48_minmax1 : forall data nx1, (1 <= nx1)%Z ->
  let '(dmin, dmax) := minmax1 data nx1 in
  (exists i, (0 <= i < nx1)%Z /\ data i = dmin) /\ (exists i, (0 <= i < nx1)%Z /\ data i = dmax) /\
  forall i, (0 <= i < nx1)%Z -> dmin <= data i <= dmax.
Proof.
  intros data nx1 Hn. destruct (minmax1 data nx1) as [lo hi] eqn:E.
  set (occ v := exists i, (0 <= i < nx1)%Z /\ data i = v).
  assert (H : mmP occ (fun v => exists i, (0 <= i < nx1)%Z /\ v = data i) (minmax1 data nx1)).
  { unfold minmax1. apply (fori_inv _ (fun n st => mmP occ (fun v => exists i, (0 <= i < n)%Z /\ v = data i) st)); [lia| |].
    - split; [|split]; cbn; try (exists 0%Z; split; [lia|auto]). intros v (i & Hi & _). lia.
    - intros x s Hx. apply mm_step; [exists x; auto|]. intros w (i & Hi & ->).
      destruct (Z.eq_dec i x) as [->|]; auto. left. exists i. split; auto. lia. }
  rewrite E in H. destruct H as (A & B & C). split; [exact A|]. split; [exact B|].
  intros i Hi. apply (C (data i)). exists i. auto.
Qed.
Print Assumptions C48_minmax1.
Theorem C48_minmax2 : forall data nx2 nx1, (1 <= nx2)%Z -> (1 <= nx1)%Z ->
  let '(dmin, dmax) := minmax2 data nx2 nx1 in
  (exists j i, (0 <= j < nx2)%Z /\ (0 <= i < nx1)%Z /\ data j i = dmin) /\
  (exists j i, (0 <= j < nx2)%Z /\ (0 <= i < nx1)%Z /\ data j i = dmax) /\
  forall j i, (0 <= j < nx2)%Z -> (0 <= i < nx1)%Z -> dmin <= data j i <= dmax.
Proof.
  intros data nx2 nx1 H2 H1. destruct (minmax2 data nx2 nx1) as [lo hi] eqn:E.
  set (occ v := exists j i, (0 <= j < nx2)%Z /\ (0 <= i < nx1)%Z /\ data j i = v).
  set (vis nj ni v := exists j i, ((0 <= j < nj /\ 0 <= i < nx1) \/ (j = nj /\ 0 <= i < ni))%Z /\ v = data j i).
  assert (H : mmP occ (vis nx2 0%Z) (minmax2 data nx2 nx1)).
  { unfold minmax2. apply (fori_inv _ (fun n st => mmP occ (vis n 0%Z) st)); [lia| |].
    - split; [|split]; cbn; try (exists 0%Z, 0%Z; repeat split; auto; lia). intros v (j & i & Hi & _). lia.
    - intros j s Hj Hs.
      assert (W : mmP occ (vis j nx1) (fori 0 nx1 (fun i => mm (data j i)) s)).
      { apply (fori_inv _ (fun n st => mmP occ (vis j n) st)); [lia|exact Hs|].
        intros i t Hi. apply mm_step; [exists j, i; auto|]. intros w (j' & i' & Hi' & ->).
        destruct (Z.eq_dec j' j) as [->|]; [destruct (Z.eq_dec i' i) as [->|]; auto|]; left; eexists; eexists; (split; [|reflexivity]); lia. }
      destruct W as (A & B & C). split; [exact A|]. split; [exact B|]. intros v (j' & i' & Hi' & ->). apply C.
      exists j', i'. split; [lia|reflexivity]. }
  rewrite E in H. destruct H as (A & B & C). split; [exact A|]. split; [exact B|].
  intros j i Hj Hi. apply (C (data j i)). exists j, i. split; [lia|auto].
Qed.
Print Assumptions C48_minmax2.
Theorem C48_minmax3 : forall data nx3 nx2 nx1, (1 <= nx3)%Z -> (1 <= nx2)%Z -> (1 <= nx1)%Z ->
  let '(dmin, dmax) := minmax3 data nx3 nx2 nx1 in
  (exists k j i, (0 <= k < nx3)%Z /\ (0 <= j < nx2)%Z /\ (0 <= i < nx1)%Z /\ data k j i = dmin) /\
  (exists k j i, (0 <= k < nx3)%Z /\ (0 <= j < nx2)%Z /\ (0 <= i < nx1)%Z /\ data k j i = dmax) /\
  forall k j i, (0 <= k < nx3)%Z -> (0 <= j < nx2)%Z -> (0 <= i < nx1)%Z -> dmin <= data k j i <= dmax.
Proof.
  intros data nx3 nx2 nx1 H3 H2 H1. destruct (minmax3 data nx3 nx2 nx1) as [lo hi] eqn:E.
  set (occ v := exists k j i, (0 <= k < nx3)%Z /\ (0 <= j < nx2)%Z /\ (0 <= i < nx1)%Z /\ data k j i = v).
  set (vis nk nj ni v := exists k j i, ((0 <= k < nk /\ 0 <= j < nx2 /\ 0 <= i < nx1) \/ (k = nk /\ 0 <= j < nj /\ 0 <= i < nx1)
                            \/ (k = nk /\ j = nj /\ 0 <= i < ni))%Z /\ v = data k j i).
  assert (H : mmP occ (vis nx3 0%Z 0%Z) (minmax3 data nx3 nx2 nx1)).
  { unfold minmax3. apply (fori_inv _ (fun n st => mmP occ (vis n 0%Z 0%Z) st)); [lia| |].
    - split; [|split]; cbn; try (exists 0%Z, 0%Z, 0%Z; repeat split; auto; lia). intros v (k & j & i & Hi & _). lia.
    - intros k s Hk Hs.
      assert (W : mmP occ (vis k nx2 0%Z) (fori 0 nx2 (fun j => fori 0 nx1 (fun i => mm (data k j i))) s)).
      { apply (fori_inv _ (fun n st => mmP occ (vis k n 0%Z) st)); [lia|exact Hs|].
        intros j t Hj Ht.
        assert (V : mmP occ (vis k j nx1) (fori 0 nx1 (fun i => mm (data k j i)) t)).
        { apply (fori_inv _ (fun n st => mmP occ (vis k j n) st)); [lia|exact Ht|].
          intros i u Hi. apply mm_step; [exists k, j, i; auto|]. intros w (k' & j' & i' & Hi' & ->).
          destruct (Z.eq_dec k' k) as [->|]; [destruct (Z.eq_dec j' j) as [->|]; [destruct (Z.eq_dec i' i) as [->|]; auto|]|];
            left; eexists; eexists; eexists; (split; [|reflexivity]); lia. }
        destruct V as (A & B & C). split; [exact A|]. split; [exact B|]. intros v (k' & j' & i' & Hi' & ->). apply C.
        exists k', j', i'. split; [lia|reflexivity]. }
      destruct W as (A & B & C). split; [exact A|]. split; [exact B|]. intros v (k' & j' & i' & Hi' & ->). apply C.
      exists k', j', i'. split; [lia|reflexivity]. }
  rewrite E in H. destruct H as (A & B & C). split; [exact A|]. split; [exact B|].
  intros k j i Hk Hj Hi. apply (C (data k j i)). exists k, j, i. split; [lia|auto].
Qed.
Print Assumptions C48_minmax3.
Example ex_minmax : exists d, (1 <= 3)%Z /\ minmax1 d 3 = (-1, 2).
Proof.
  exists (fun i => if (i =? 0)%Z then 0 else if (i =? 1)%Z then 2 else -1). split; [lia|].
  cbv [minmax1 fori]. change (Z.to_nat (3 - 0)) with 3%nat. cbn [for_up mm fst snd Z.eqb Z.add Pos.add Pos.succ Pos.eqb].
  unfold mm; cbn [fst snd]. unfold MIN, MAX. destruct (Rlt_dec 0 0); [lra|]. destruct (Rlt_dec 0 2); [|lra]. destruct (Rlt_dec 0 (-1)); [lra|].
  destruct (Rlt_dec 2 0); [lra|]. destruct (Rlt_dec (-1) 2); [|lra]. reflexivity.
Qed.
