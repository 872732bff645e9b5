(** * C104: the random number generator *)
From Coq Require Import Reals ZArith Lia Lra List Znumtheory.
From Verif Require Import CStr RanModel RanSpec.
Import ListNotations.
Open Scope Z_scope.
Open Scope bool_scope.

Lemma ck_ok lmax x : - lmax - 1 <= x <= lmax -> ck lmax x = Ok x.
Proof. intros [A B]. unfold ck. apply Z.leb_le in A, B. now rewrite A, B. Qed.

Lemma schrage_ok lmax ia iq ir im s : 2147483647 <= lmax -> 0 < ia -> 0 < iq -> 0 <= ir < iq -> im = ia * iq + ir -> im <= 2147483647 ->
  0 <= s < im -> schrage lmax ia iq ir im s = Ok ((ia * s) mod im).
Proof.
  intros HL A Q R E M S. unfold schrage. rewrite Z.quot_div_nonneg by lia. set (k := s / iq).
  pose proof (Z.div_mod s iq ltac:(lia)) as D. fold k in D. pose proof (Z.mod_pos_bound s iq Q) as B.
  assert (K : 0 <= k) by (apply Z.div_pos; lia).
  set (r := s mod iq) in *. clearbody k r.
  assert (RK : 0 <= k * ir < im) by nia.
  assert (AR : 0 <= ia * r < im) by nia.
  rewrite (ck_ok _ (k * iq)) by nia. cbn [bind]. rewrite (ck_ok _ (s - k * iq)) by nia. cbn [bind].
  replace (s - k * iq) with r by lia. rewrite (ck_ok _ (ia * r)) by lia. cbn [bind].
  rewrite (ck_ok _ (k * ir)) by lia. cbn [bind]. rewrite ck_ok by lia. cbn [bind].
  assert (X : ia * s = k * im + (ia * r - k * ir)) by (rewrite E, D; ring).
  destruct (Z.ltb_spec (ia * r - k * ir) 0) as [N|N].
  - rewrite ck_ok by lia. f_equal. apply (Z.mod_unique _ _ (k - 1)); [left; lia|]. rewrite X. ring.
  - f_equal. apply (Z.mod_unique _ _ k); [left; lia|]. rewrite X. ring.
Qed.

(** The two steps of the code are the multiplications modulo the two primes: exact, and
    without overflow even if long has 32 bits. *)
Theorem C104_schrage : forall lmax s, 2147483647 <= lmax ->
  (0 <= s < 2147483563 -> schrage lmax IA1 IQ1 IR1 IM1 s = Ok ((40014 * s) mod 2147483563)) /\
  (0 <= s < 2147483563 -> schrage lmax IA2 IQ2 IR2 IM2 s = Ok ((40692 * s) mod 2147483399)).
Proof.
  intros lmax s H. split; intro S.
  - apply schrage_ok; unfold IA1, IQ1, IR1, IM1 in *; lia.
  - destruct (Z_lt_ge_dec s 2147483399) as [L|G]; [apply schrage_ok; unfold IA2, IQ2, IR2, IM2 in *; lia|].
    unfold schrage, IA2, IQ2, IR2, IM2. rewrite Z.quot_div_nonneg by lia.
    rewrite <- (Z.div_unique s 52774 40692 (s - 40692 * 52774)) by lia.
    rewrite (ck_ok _ (40692 * 52774)) by lia. cbn [bind]. rewrite (ck_ok _ (s - _)) by lia. cbn [bind].
    rewrite (ck_ok _ (40692 * (s - _))) by lia. cbn [bind]. rewrite (ck_ok _ (40692 * 3791)) by lia. cbn [bind].
    rewrite ck_ok by lia. cbn [bind]. destruct (Z.ltb_spec (40692 * (s - 40692 * 52774) - 40692 * 3791) 0); [lia|].
    f_equal. apply (Z.mod_unique _ _ 40692); lia.
Qed.
Print Assumptions C104_schrage.

Section Gen.
Variable s : Z.
Hypothesis Hs : 1 <= s < 2147483563.
Lemma first_S n : first_gen s (S n) = (40014 * first_gen s n) mod 2147483563.
Proof.
  unfold first_gen. rewrite Nat2Z.inj_succ, Z.pow_succ_r by lia. rewrite Zmult_mod_idemp_r. f_equal. ring.
Qed.
Lemma second_S n : second_gen s (S n) = (40692 * second_gen s n) mod 2147483399.
Proof.
  unfold second_gen. rewrite Nat2Z.inj_succ, Z.pow_succ_r by lia. rewrite Zmult_mod_idemp_r. f_equal. ring.
Qed.
Lemma first_0 : first_gen s 0 = s.
Proof. unfold first_gen. cbn [Z.of_nat]. rewrite Z.pow_0_r, Z.mul_1_r. apply Z.mod_small. lia. Qed.
Lemma first_range n : 1 <= first_gen s n < 2147483563.
Proof.
  induction n as [|n IH]; [now rewrite first_0|]. rewrite first_S.
  pose proof (Z.mod_pos_bound (40014 * first_gen s n) 2147483563 ltac:(lia)) as B.
  enough ((40014 * first_gen s n) mod 2147483563 <> 0) by lia. intro Z0.
  apply Z.mod_divide in Z0; [|lia]. apply Z.gauss in Z0; [|vm_compute; reflexivity].
  destruct Z0 as (q & Z0). assert (q = 0 \/ 1 <= q \/ q <= -1) by lia. nia.
Qed.
Lemma second_range n : 0 <= second_gen s n < 2147483399.
Proof. apply Z.mod_pos_bound. lia. Qed.
End Gen.

Section Seq.
Variables lmax s : Z.
Hypothesis HL : 2147483647 <= lmax.
Hypothesis Hs : 1 <= s < 2147483563.

Lemma load_ok n : forall m v, exists v', load lmax n (first_gen s m) v = Ok (first_gen s (n + m), v') /\
  forall j, v' j = if (0 <=? j) && (j <? Z.min (Z.of_nat n) 32) then first_gen s (n + m - Z.to_nat j) else v j.
Proof.
  induction n as [|n IH]; intros m v; cbn [load].
  - exists v. split; [reflexivity|]. intro j. destruct (Z.leb_spec 0 j); [|reflexivity]. destruct (Z.ltb_spec j (Z.min (Z.of_nat 0) 32)); [lia|reflexivity].
  - pose proof (first_range s Hs m) as R. rewrite (proj1 (C104_schrage lmax _ HL)) by lia. cbn [bind]. rewrite <- first_S.
    destruct (IH (S m) (if Z.of_nat n <? NTAB then fun i => if i =? Z.of_nat n then first_gen s (S m) else v i else v)) as (v' & E & V).
    exists v'. rewrite E. replace (n + S m)%nat with (S n + m)%nat by lia. split; [reflexivity|].
    intro j. rewrite V. unfold NTAB.
    destruct (Z.leb_spec 0 j); cbn [andb].
    + destruct (Z.ltb_spec j (Z.min (Z.of_nat n) 32)); destruct (Z.ltb_spec j (Z.min (Z.of_nat (S n)) 32)); try lia.
      * f_equal. lia.
      * destruct (Z.ltb_spec (Z.of_nat n) 32); [|lia]. destruct (Z.eqb_spec j (Z.of_nat n)); [|lia]. f_equal. lia.
      * destruct (Z.ltb_spec (Z.of_nat n) 32); [|reflexivity]. destruct (Z.eqb_spec j (Z.of_nat n)); [lia|reflexivity].
    + destruct (Z.ltb_spec (Z.of_nat n) 32); [|reflexivity]. destruct (Z.eqb_spec j (Z.of_nat n)); [lia|reflexivity].
Qed.

(** After [t] calls; [mt j] says which element of the first generator is in the table. *)
Definition inv (t : nat) (mt : Z -> nat) (q : ran_st) : Prop :=
  idum q = first_gen s (40 + t) /\ 0 <= idum2 q < 2147483563 /\ idum2 q mod 2147483399 = second_gen s t /\ 0 <= iy q <= 2147483562 /\
  (forall j, 0 <= j < 32 -> iv q j = first_gen s (mt j) /\ (9 <= mt j <= 40 + t)%nat) /\
  (forall i j, 0 <= i < 32 -> 0 <= j < 32 -> mt i = mt j -> i = j).

Lemma deviate_eq a b y : 0 <= a < 2147483563 -> 0 <= b < 2147483399 ->
  y = (if a - b <? 1 then a - b + IMM1 else a - b) ->
  1 <= y <= 2147483562 /\ deviate a b = (IZR y / 2147483563)%R.
Proof.
  intros A B E. unfold IMM1, IM1 in E. assert (Y : 1 <= y <= 2147483562 /\ 1 + (a - b - 1) mod 2147483562 = y).
  { destruct (Z.ltb_spec (a - b) 1).
    - split; [lia|]. rewrite <- (Z.mod_unique (a - b - 1) 2147483562 (-1) (y - 1)); lia.
    - split; [lia|]. rewrite Z.mod_small; lia. }
  split; [apply Y|]. unfold deviate. now rewrite (proj2 Y).
Qed.

Lemma no_clip y : 1 <= y <= 2147483562 -> (if Rlt_dec RNMX (AM * IZR y) then RNMX else AM * IZR y)%R = (IZR y / 2147483563)%R.
Proof.
  intros [A B]. assert (E : (AM * IZR y = IZR y / 2147483563)%R) by (unfold AM, IM1; field).
  destruct (Rlt_dec RNMX (AM * IZR y)) as [X|X]; [|exact E]. exfalso. rewrite E in X. apply IZR_le in B.
  unfold RNMX in X. assert (2147483562 / 2147483563 < 1 - / 2 ^ 52)%R by lra. lra.
Qed.

Lemma call_ok t mt q : inv t mt q -> exists q' x j, ran2 lmax q = Ok (q', x) /\ 0 <= j < 32 /\
  x = deviate (first_gen s (mt j)) (second_gen s (S t)) /\
  inv (S t) (fun i => if i =? j then (41 + t)%nat else mt i) q'.
Proof.
  intros (I1 & I0 & I2 & I3 & I4 & I5). unfold ran2.
  pose proof (first_range s Hs (40 + t)) as F.
  destruct (Z.leb_spec (idum q) 0) as [X|_]; [rewrite I1 in X; lia|]. cbn [bind].
  rewrite I1. rewrite (proj1 (C104_schrage lmax _ HL)) by lia. cbn [bind]. rewrite <- first_S.
  rewrite (proj2 (C104_schrage lmax _ HL)) by exact I0. cbn [bind].
  rewrite <- Zmult_mod_idemp_r, I2, <- second_S.
  set (j := Z.quot (iy q) NDIV). assert (J : 0 <= j < 32).
  { unfold j. replace NDIV with 67108862 by reflexivity. rewrite Z.quot_div_nonneg by lia. split; [apply Z.div_pos; lia|]. apply Z.div_lt_upper_bound; lia. }
  clearbody j. unfold NTAB. destruct (Z.leb_spec 0 j); [|lia]. destruct (Z.ltb_spec j 32); [|lia]. cbn [andb].
  destruct (I4 j J) as [V M]. rewrite V. pose proof (first_range s Hs (mt j)) as F2. pose proof (second_range s (S t)) as G.
  rewrite ck_ok by lia. cbn [bind].
  destruct (deviate_eq (first_gen s (mt j)) (second_gen s (S t)) _ ltac:(lia) G eq_refl) as (Y & D).
  set (y := if first_gen s (mt j) - second_gen s (S t) <? 1 then _ else _) in *.
  assert (E : (if first_gen s (mt j) - second_gen s (S t) <? 1 then ck lmax (first_gen s (mt j) - second_gen s (S t) + IMM1)
               else Ok (first_gen s (mt j) - second_gen s (S t))) = Ok y).
  { unfold y in *. destruct (_ <? 1); [|reflexivity]. apply ck_ok. lia. }
  rewrite E. cbn [bind]. rewrite no_clip by exact Y. do 2 eexists. exists j. split; [reflexivity|]. split; [exact J|].
  split; [now rewrite D|]. unfold inv. cbn [idum idum2 iy iv]. split; [f_equal; lia|]. split; [lia|]. split; [apply Z.mod_small, G|]. split; [lia|]. split.
  - intros i HI. destruct (Z.eqb_spec i j); [split; [f_equal|]; lia|]. destruct (I4 i HI). split; [assumption|lia].
  - intros i i' HI HI' EQ. destruct (I4 i HI) as [_ B1]. destruct (I4 i' HI') as [_ B2].
    destruct (Z.eqb_spec i j); destruct (Z.eqb_spec i' j); try lia. now apply I5.
Qed.

Lemma calls_ok n : forall t mt q, inv t mt q -> exists q' l ms, ran_calls lmax n q = Ok (q', l) /\ length l = n /\ length ms = n /\ NoDup ms /\
  (forall m, In m ms -> (40 + t < m)%nat \/ exists j, 0 <= j < 32 /\ m = mt j) /\
  (forall i, (i < n)%nat -> (9 <= nth i ms 0 <= 40 + t + i)%nat /\ nth i l 0%R = deviate (first_gen s (nth i ms 0%nat)) (second_gen s (S (t + i)))) /\
  exists mt', inv (t + n) mt' q'.
Proof.
  induction n as [|n IH]; intros t mt q I; cbn [ran_calls].
  - exists q, [], []. split; [reflexivity|]. split; [reflexivity|]. split; [reflexivity|]. split; [constructor|]. split; [intros m []|]. split; [intros; lia|]. rewrite Nat.add_0_r. now exists mt.
  - destruct (call_ok t mt q I) as (q1 & x & j & -> & J & X & I1). cbn [bind].
    destruct (IH _ _ _ I1) as (q' & l & ms & -> & L1 & L2 & ND & IN & V & I2). cbn [bind].
    exists q', (x :: l), (mt j :: ms). destruct I as (_ & _ & _ & _ & I4 & I5). split; [reflexivity|].
    split; [cbn; lia|]. split; [cbn; lia|]. split; [|split; [|split]].
    + constructor; [|exact ND]. intro C. destruct (I4 j J) as [_ B]. destruct (IN _ C) as [C1|(i & HI & C1)]; [lia|].
      destruct (Z.eqb_spec i j); [lia|]. apply n0. symmetry. now apply I5.
    + intros m [<-|M]; [right; now exists j|]. destruct (IN _ M) as [C1|(i & HI & C1)]; [left; lia|].
      destruct (Z.eqb_spec i j); [left; lia|]. right. now exists i.
    + intros [|i] HI; cbn [nth].
      * rewrite !Nat.add_0_r. destruct (I4 j J). split; [lia|exact X].
      * destruct (V i ltac:(lia)) as [V1 V2]. split; [lia|]. rewrite V2. do 2 f_equal. lia.
    + destruct I2 as (mt' & I2). exists mt'. replace (t + S n)%nat with (S t + n)%nat by lia. exact I2.
Qed.

Lemma init_ok q : idum q = - s -> exists q', ran_init lmax q = Ok q' /\ inv 0 (fun j => (40 - Z.to_nat j)%nat) q'.
Proof.
  intro E. unfold ran_init. rewrite E, Z.opp_involutive. rewrite ck_ok by lia. cbn [bind]. cbv zeta.
  destruct (Z.ltb_spec s 1); [lia|]. replace (Z.to_nat (NTAB + 8)) with 40%nat by reflexivity.
  destruct (load_ok 40 0 (iv q)) as (v & EL & V). rewrite first_0 in EL by exact Hs. rewrite EL. cbn [bind].
  assert (VJ : forall j, 0 <= j < 32 -> v j = first_gen s (40 - Z.to_nat j)).
  { intros j J. rewrite V. destruct (Z.leb_spec 0 j); [|lia]. destruct (Z.ltb_spec j (Z.min (Z.of_nat 40) 32)); [|lia]. cbn [andb]. f_equal. }
  eexists. split; [reflexivity|]. unfold inv. cbn [idum idum2 iy iv]. split; [reflexivity|]. split; [lia|]. split; [|split; [|split]].
  - unfold second_gen. cbn [Z.of_nat]. now rewrite Z.pow_0_r, Z.mul_1_r.
  - rewrite VJ by lia. pose proof (first_range s Hs (40 - Z.to_nat 0)). lia.
  - intros j J. split; [now apply VJ|lia].
  - intros i j HI HJ H0. lia.
Qed.

Lemma fresh_ok n q : idum q = - s -> (0 < n)%nat -> exists q0 q' l, ran_init lmax q = Ok q0 /\ ran_calls lmax n q = Ok (q', l) /\ length l = n /\ shuffled s l /\ ran_calls lmax n q0 = Ok (q', l).
Proof.
  intros E HN. destruct (init_ok q E) as (q0 & EI & I).
  destruct (calls_ok n 0 _ _ I) as (q' & l & ms & EC & L1 & L2 & ND & _ & V & _). exists q0, q', l. split; [exact EI|].
  assert (C : ran_calls lmax n q = ran_calls lmax n q0).
  { destruct n as [|n]; [lia|]. cbn [ran_calls]. f_equal. unfold ran2. rewrite E. destruct (Z.leb_spec (- s) 0); [|lia].
    rewrite EI. destruct I as (I1 & _). destruct (Z.leb_spec (idum q0) 0) as [X|_]; [|reflexivity].
    pose proof (first_range s Hs (40 + 0)). rewrite I1 in X. lia. }
  rewrite C. split; [exact EC|]. split; [exact L1|]. split; [|exact EC]. exists ms. split; [lia|]. split; [exact ND|].
  intros t HT. apply (V t). lia.
Qed.
End Seq.

Lemma deviate_open a b : (0 < deviate a b < 1)%R.
Proof.
  unfold deviate. pose proof (Z.mod_pos_bound (a - b - 1) 2147483562 ltac:(lia)) as [A B].
  set (y := (a - b - 1) mod 2147483562) in *. clearbody y. assert (C : 1 <= 1 + y) by lia. assert (D : 1 + y <= 2147483562) by lia.
  apply IZR_le in C, D. lra.
Qed.

(** Started with a seed from -2147483562 to 0 the generator never stops the program,
    never reads outside of its table and overflows no long, 32 or more bits wide; its
    numbers are shuffled differences of the two generators, whatever it was used for before. *)
Theorem C104_sequence : forall lmax seed n q, 2147483647 <= lmax -> - 2147483562 <= seed <= 0 -> idum q = seed ->
  exists q' l, ran_calls lmax n q = Ok (q', l) /\ length l = n /\ shuffled (Z.max 1 (- seed)) l /\
    (forall x, In x l -> (0 < x < 1)%R).
Proof.
  intros lmax seed n q HL HS E.
  assert (G : exists q' l, ran_calls lmax n q = Ok (q', l) /\ length l = n /\ shuffled (Z.max 1 (- seed)) l).
  { destruct n as [|n].
    { exists q, []. split; [reflexivity|]. split; [reflexivity|]. exists []. split; [reflexivity|]. split; [constructor|]. cbn. intros; lia. }
    destruct (Z.eq_dec seed 0) as [->|NZ].
    - (* a zero seed is as good as -1 *)
      set (q1 := RanSt (-1) (idum2 q) (iy q) (iv q)).
      destruct (fresh_ok lmax 1 HL ltac:(lia) (S n) q1 eq_refl ltac:(lia)) as (q0 & q' & l & EI & EC & L & SH & _).
      exists q', l. split; [|split; [exact L|exact SH]]. rewrite <- EC. cbn [ran_calls]. f_equal. unfold ran2. f_equal. rewrite E. cbn [idum q1].
      change (0 <=? 0) with true. change (-1 <=? 0) with true. cbv iota. unfold ran_init. rewrite E. cbn [idum iv q1].
      rewrite !ck_ok by lia. reflexivity.
    - replace (Z.max 1 (- seed)) with (- seed) by lia.
      destruct (fresh_ok lmax (- seed) HL ltac:(lia) (S n) q ltac:(lia) ltac:(lia)) as (q0 & q' & l & EI & EC & L & SH & _).
      exists q', l. auto. }
  destruct G as (q' & l & EC & L & SH). exists q', l. split; [exact EC|]. split; [exact L|]. split; [exact SH|].
  intros x X. destruct SH as (ms & _ & _ & V). destruct (In_nth _ _ 0%R X) as (t & T & <-). destruct (V t T) as [_ ->]. apply deviate_open.
Qed.
Print Assumptions C104_sequence.

(** Two states that differ only outside of the table. *)
Definition same (q q1 : ran_st) : Prop := idum q1 = idum q /\ idum2 q1 = idum2 q /\ iy q1 = iy q /\ forall j, 0 <= j < 32 -> iv q1 j = iv q j.
Definition rel (a b : res (ran_st * R)) : Prop :=
  match a, b with Ok (q, x), Ok (q1, x1) => same q q1 /\ x1 = x | Fatal, Fatal => True | UB, UB => True | _, _ => False end.
Lemma same_load lmax n s v v1 : (forall j, 0 <= j < 32 -> v1 j = v j) ->
  match load lmax n s v, load lmax n s v1 with
  | Ok (a, w), Ok (a1, w1) => a1 = a /\ forall j, 0 <= j < 32 -> w1 j = w j
  | Fatal, Fatal => True | UB, UB => True | _, _ => False end.
Proof.
  revert s v v1. induction n as [|n IH]; intros s v v1 H; cbn [load]; [now split|].
  destruct (schrage lmax IA1 IQ1 IR1 IM1 s) as [a| |]; cbn [bind]; auto. apply IH. intros j J.
  destruct (Z.of_nat n <? NTAB); [|now apply H]. destruct (j =? Z.of_nat n); [reflexivity|now apply H].
Qed.
Lemma same_call lmax q q1 : same q q1 -> rel (ran2 lmax q) (ran2 lmax q1).
Proof.
  intros (A & B & C & D). unfold ran2. rewrite A.
  assert (I : match (if idum q <=? 0 then ran_init lmax q else Ok q), (if idum q <=? 0 then ran_init lmax q1 else Ok q1) with
              | Ok p, Ok p1 => same p p1 | Fatal, Fatal => True | UB, UB => True | _, _ => False end).
  { destruct (idum q <=? 0); [|now repeat split]. unfold ran_init. rewrite A. destruct (ck lmax (- idum q)) as [m| |]; cbn [bind]; auto. cbv zeta.
    pose proof (same_load lmax (Z.to_nat (NTAB + 8)) (if m <? 1 then 1 else m) (iv q) (iv q1) D) as L.
    destruct (load lmax (Z.to_nat (NTAB + 8)) (if m <? 1 then 1 else m) (iv q)) as [[a w]| |];
      destruct (load lmax (Z.to_nat (NTAB + 8)) (if m <? 1 then 1 else m) (iv q1)) as [[a1 w1]| |]; cbn [bind]; try tauto.
    destruct L as [-> L]. split; [reflexivity|]. split; [reflexivity|]. split; [cbn [iy]; apply L; lia|exact L]. }
  destruct (if idum q <=? 0 then ran_init lmax q else Ok q) as [p| |]; destruct (if idum q <=? 0 then ran_init lmax q1 else Ok q1) as [p1| |]; try tauto; cbn [bind].
  destruct I as (A1 & B1 & C1 & D1). rewrite A1, B1, C1.
  destruct (schrage lmax IA1 IQ1 IR1 IM1 (idum p)) as [s1| |]; cbn [bind]; try exact Logic.I.
  destruct (schrage lmax IA2 IQ2 IR2 IM2 (idum2 p)) as [s2| |]; cbn [bind]; try exact Logic.I. cbv zeta.
  set (j := Z.quot (iy p) NDIV). unfold NTAB. destruct (Z.leb_spec 0 j); cbn [andb]; [|exact Logic.I]. destruct (Z.ltb_spec j 32); [|exact Logic.I].
  rewrite (D1 j) by lia. destruct (ck lmax (iv p j - s2)) as [y| |]; cbn [bind]; try exact Logic.I.
  destruct (if y <? 1 then ck lmax (y + IMM1) else Ok y) as [z| |]; cbn [bind]; try exact Logic.I. cbn [rel]. split; [|reflexivity].
  split; [reflexivity|]. split; [reflexivity|]. split; [reflexivity|]. intros i HI. cbn [iv]. destruct (i =? j); [reflexivity|]. now apply D1.
Qed.
Lemma same_calls lmax n : forall q q1 q' l q1' l1, same q q1 -> ran_calls lmax n q = Ok (q', l) -> ran_calls lmax n q1 = Ok (q1', l1) -> l1 = l.
Proof.
  induction n as [|n IH]; intros q q1 q' l q1' l1 S E E1; cbn [ran_calls] in E, E1; [congruence|].
  pose proof (same_call lmax q q1 S) as R. destruct (ran2 lmax q) as [[p x]| |]; try discriminate. destruct (ran2 lmax q1) as [[p1 x1]| |]; try discriminate.
  cbn [bind] in E, E1. destruct R as [R ->].
  destruct (ran_calls lmax n p) as [[a m]| |] eqn:F; try discriminate. destruct (ran_calls lmax n p1) as [[a1 m1]| |] eqn:F1; try discriminate.
  cbn [bind] in E, E1. pose proof (IH _ _ _ _ _ _ R F F1). congruence.
Qed.

(** The numbers depend on the seed alone, not on what was drawn before. *)
Theorem C104_repeats : forall lmax seed n q q1, 2147483647 <= lmax -> - 2147483562 <= seed <= 0 -> idum q = seed -> idum q1 = seed ->
  exists q' q1' l, ran_calls lmax n q = Ok (q', l) /\ ran_calls lmax n q1 = Ok (q1', l).
Proof.
  intros lmax seed n q q1 HL HS E E1.
  destruct (C104_sequence lmax seed n q HL HS E) as (q' & l & EC & _).
  destruct (C104_sequence lmax seed n q1 HL HS E1) as (q1' & l1 & EC1 & _).
  exists q', q1', l. split; [exact EC|]. enough (l1 = l) by (subst; exact EC1).
  destruct n as [|n]; [cbn in EC, EC1; congruence|]. cbn [ran_calls] in EC, EC1. unfold ran2 in EC, EC1.
  rewrite E in EC. rewrite E1 in EC1. destruct (Z.leb_spec seed 0); [|lia]. unfold ran_init in EC, EC1. rewrite E in EC. rewrite E1 in EC1.
  rewrite ck_ok in EC, EC1 by lia. cbn [bind] in EC, EC1. cbv zeta in EC, EC1.
  set (s := if - seed <? 1 then 1 else - seed) in *. assert (Hs : 1 <= s < 2147483563) by (unfold s; destruct (Z.ltb_spec (- seed) 1); lia).
  clearbody s. replace (Z.to_nat (NTAB + 8)) with 40%nat in * by reflexivity.
  destruct (load_ok lmax s HL Hs 40 0 (iv q)) as (v & EL & V). destruct (load_ok lmax s HL Hs 40 0 (iv q1)) as (v1 & EL1 & V1).
  rewrite first_0 in EL, EL1 by exact Hs. rewrite EL in EC. rewrite EL1 in EC1. cbn [bind] in EC, EC1.
  assert (VV : forall j, 0 <= j < 32 -> v1 j = v j).
  { intros j J. rewrite V, V1. destruct (Z.leb_spec 0 j); [|lia]. destruct (Z.ltb_spec j (Z.min (Z.of_nat 40) 32)); [|lia]. reflexivity. }
  assert (QV : same (RanSt (first_gen s (40 + 0)) s (v 0) v) (RanSt (first_gen s (40 + 0)) s (v1 0) v1)).
  { split; [reflexivity|]. split; [reflexivity|]. split; [cbn [iy]; apply VV; lia|exact VV]. }
  assert (P : 0 < first_gen s (40 + 0)) by (pose proof (first_range s Hs (40 + 0)); lia).
  apply (same_calls lmax (S n) _ _ q' l q1' l1 QV).
  - cbn [ran_calls]. unfold ran2. cbn [idum]. destruct (Z.leb_spec (first_gen s (40 + 0)) 0); [lia|]. exact EC.
  - cbn [ran_calls]. unfold ran2. cbn [idum]. destruct (Z.leb_spec (first_gen s (40 + 0)) 0); [lia|]. exact EC1.
Qed.
Print Assumptions C104_repeats.

(** A seed below -2^31: with a 64-bit long the second call reads outside of the table. *)
Theorem C104_large_seed_refuted : exists lmax seed, 2147483647 <= lmax /\ - lmax <= seed < 0 /\
  ran_calls lmax 2 (ran_start seed) = UB.
Proof.
  exists (2 ^ 63 - 1), (- 2 ^ 40). split; [lia|]. split; [lia|].
  assert (E : exists q x, ran2 (2 ^ 63 - 1) (ran_start (- 2 ^ 40)) = Ok (q, x) /\ ran2 (2 ^ 63 - 1) q = UB).
  { unfold ran2 at 1. cbn [idum ran_start]. change (- 2 ^ 40 <=? 0) with true. cbv iota.
    assert (I : match ran_init (2 ^ 63 - 1) (ran_start (- 2 ^ 40)) with
                | Ok p => idum p = (239525617) /\ idum2 p = 2 ^ 40 /\ iy p = (239525617) /\ iv p (3) = (1412141834) | _ => False end) by (vm_compute; repeat split).
    destruct (ran_init (2 ^ 63 - 1) (ran_start (- 2 ^ 40))) as [p| |]; try tauto. destruct I as (A & B & C & VJ).
    cbn [bind]. rewrite A, B, C.
    replace (schrage (2 ^ 63 - 1) IA1 IQ1 IR1 IM1 (239525617)) with (@Ok Z (158896969)) by (vm_compute; reflexivity).
    replace (schrage (2 ^ 63 - 1) IA2 IQ2 IR2 IM2 (2 ^ 40)) with (@Ok Z (-76416627466)) by (vm_compute; reflexivity). cbn [bind]. cbv zeta.
    replace (Z.quot (239525617) NDIV) with (3) by reflexivity. change ((0 <=? (3)) && ((3) <? NTAB)) with true. cbv iota. rewrite VJ.
    replace (ck (2 ^ 63 - 1) ((1412141834) - (-76416627466))) with (@Ok Z (77828769300)) by (vm_compute; reflexivity). cbn [bind].
    change ((77828769300) <? 1) with false. cbv iota. cbn [bind]. do 2 eexists. split; [reflexivity|].
    unfold ran2. cbn [idum idum2 iy iv]. change ((158896969) <=? 0) with false. cbv iota. cbn [bind].
    replace (schrage (2 ^ 63 - 1) IA1 IQ1 IR1 IM1 (158896969)) with (@Ok Z (1551971086)) by (vm_compute; reflexivity).
    replace (schrage (2 ^ 63 - 1) IA2 IQ2 IR2 IM2 (-76416627466)) with (@Ok Z (4114455331)) by (vm_compute; reflexivity). cbn [bind]. cbv zeta.
    replace (Z.quot (77828769300) NDIV) with (1159) by reflexivity. reflexivity. }
  destruct E as (q & x & E & E2). cbn [ran_calls]. rewrite E. cbn [bind]. rewrite E2. reflexivity.
Qed.
Print Assumptions C104_large_seed_refuted.

(** Three numbers with the seed -1. *)
Example C104_seed_1 : exists q l, ran_calls (2 ^ 31 - 1) 3 (ran_start (-1)) = Ok (q, l) /\ length l = 3%nat /\ shuffled 1 l.
Proof.
  destruct (C104_sequence (2 ^ 31 - 1) (-1) 3 (ran_start (-1)) ltac:(lia) ltac:(lia) eq_refl) as (q & l & A & B & C & _). eauto.
Qed.

(** Started with a positive seed the generator is not initialised: the first number is
    the same for all of them. *)
Theorem C104_positive_seed_refuted : forall lmax s s', 2147483647 <= lmax -> 1 <= s < 2147483563 -> 1 <= s' < 2147483563 ->
  exists q q' x, ran2 lmax (ran_start s) = Ok (q, x) /\ ran2 lmax (ran_start s') = Ok (q', x).
Proof.
  intros lmax.
  assert (F : forall s, 2147483647 <= lmax -> 1 <= s < 2147483563 -> exists q, ran2 lmax (ran_start s) = Ok (q, deviate 0 ((40692 * 123456789) mod 2147483399))).
  { intros s HL Hs. unfold ran2, ran_start. cbn [idum idum2 iy iv]. destruct (Z.leb_spec s 0); [lia|]. cbn [bind idum idum2 iy iv].
    rewrite (proj1 (C104_schrage lmax _ HL)) by lia. cbn [bind]. rewrite (proj2 (C104_schrage lmax _ HL)) by lia. cbn [bind]. cbv zeta.
    change (Z.quot 0 NDIV) with 0. change ((0 <=? 0) && (0 <? NTAB)) with true. cbv iota.
    pose proof (Z.mod_pos_bound (40692 * 123456789) 2147483399 ltac:(lia)) as B. set (b := (40692 * 123456789) mod 2147483399) in *. clearbody b.
    rewrite ck_ok by lia. cbn [bind]. destruct (deviate_eq 0 b _ ltac:(lia) B eq_refl) as (Y & D).
    destruct (Z.ltb_spec (0 - b) 1) as [_|X]; [|lia]. rewrite ck_ok by (unfold IMM1, IM1 in *; lia). cbn [bind]. rewrite no_clip by exact Y.
    rewrite D. eauto. }
  intros s s' HL H H'. destruct (F s HL H) as (q & E). destruct (F s' HL H') as (q' & E'). eauto.
Qed.
Print Assumptions C104_positive_seed_refuted.
