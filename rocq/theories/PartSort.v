(** Property C64: resorting the particles; property C69: removing ghost particles. *)
From Coq Require Import ZArith Bool Reals Lra Lia ZifyBool List Permutation.
From Verif Require Import CStr MeshModel PosModel PosProps PartModel.
From Verif Require UtilModel.
Import UtilModel (upd).
Import ListNotations.
Open Scope Z_scope.

(** ** Vocabulary *)

(** The first [n] elements of an array. *)
Definition first {A} (n : Z) (a : Z -> A) : list A := map (fun k => a (Z.of_nat k)) (seq 0 (Z.to_nat n)).
(** Particle [g] has number [z] when the cells along axis [ax] are counted from the Grid's lower edge;
    an axis with one cell counts as number 0. *)
Definition coord (ax : axis) (x : v3) : R := match ax with X1 => q1 x | X2 => q2 x | X3 => q3 x end.
Definition in_cell (Nx : axis -> Z) (pG : pgrid) (ax : axis) (g : grain) (z : Z) : Prop :=
  if Nx ax >? 1 then 0 <= z < 2 ^ 31 /\
    (p_MinX pG ax + IZR z * p_dx pG ax <= coord ax (g_x g) < p_MinX pG ax + IZR (z + 1) * p_dx pG ax)%R
  else z = 0.
Definition in_grid (Nx : axis -> Z) (pG : pgrid) (g : grain) : Prop := forall ax, exists z, in_cell Nx pG ax g z.
(** Storage order of cells: x1 fastest. *)
Definition before (c d : Z * Z * Z) : Prop :=
  let '(k1, j1, i1) := c in let '(k2, j2, i2) := d in
  k1 < k2 \/ k1 = k2 /\ (j1 < j2 \/ j1 = j2 /\ i1 <= i2).

(** ** Permutations of an array *)
Definition perm_on {A} (s e : Z) (a b : Z -> A) : Prop :=
  exists f g : Z -> Z, (forall t, f (g t) = t) /\ (forall t, g (f t) = t) /\
    (forall t, t < s \/ e < t -> f t = t) /\ (forall t, b t = a (f t)).
Lemma perm_refl : forall {A} s e (a : Z -> A), perm_on s e a a.
Proof. intros. exists (fun t => t), (fun t => t). auto. Qed.
Lemma perm_trans : forall {A} s e (a b c : Z -> A), perm_on s e a b -> perm_on s e b c -> perm_on s e a c.
Proof.
  intros A s e a b c (f & g & F1 & F2 & F3 & F4) (f' & g' & G1 & G2 & G3 & G4).
  exists (fun t => f (f' t)), (fun t => g' (g t)). repeat split; intros.
  - rewrite G1, F1; auto.
  - rewrite F2, G2; auto.
  - rewrite G3 by auto. auto.
  - rewrite G4, F4. auto.
Qed.
Lemma perm_weaken : forall {A} s e s' e' (a b : Z -> A), s' <= s -> e <= e' -> perm_on s e a b -> perm_on s' e' a b.
Proof.
  intros A s e s' e' a b H1 H2 (f & g & F1 & F2 & F3 & F4). exists f, g. repeat split; auto. intros. apply F3. lia.
Qed.
Lemma perm_ext : forall {A} s e (a b c : Z -> A), perm_on s e a b -> (forall t, b t = c t) -> perm_on s e a c.
Proof. intros A s e a b c (f & g & F1 & F2 & F3 & F4) E. exists f, g. repeat split; auto. intros. rewrite <- E; auto. Qed.
Definition tr (x y t : Z) : Z := if t =? x then y else if t =? y then x else t.
Lemma perm_tr : forall {A} s e (a b : Z -> A) x y, s <= x <= e -> s <= y <= e ->
  (forall t, b t = a (tr x y t)) -> perm_on s e a b.
Proof.
  intros A s e a b x y Hx Hy E. exists (tr x y), (tr x y). unfold tr. repeat split; auto; intros;
  destruct (Z.eqb_spec t x), (Z.eqb_spec t y); rewrite ?Z.eqb_refl; try lia;
  repeat (match goal with |- context [?p =? ?q] => destruct (Z.eqb_spec p q) end); try lia.
Qed.
Lemma perm_out : forall {A} s e (a b : Z -> A) t, perm_on s e a b -> t < s \/ e < t -> b t = a t.
Proof. intros A s e a b t (f & g & F1 & F2 & F3 & F4) H. rewrite F4, F3; auto. Qed.
Lemma perm_all : forall {A} (P : A -> Prop) s e (a b : Z -> A), perm_on s e a b ->
  (forall t, s <= t <= e -> P (a t)) -> forall t, s <= t <= e -> P (b t).
Proof.
  intros A P s e a b (f & g & F1 & F2 & F3 & F4) H t Ht. rewrite F4. apply H.
  assert (D : s <= f t <= e \/ f t < s \/ e < f t) by lia. destruct D as [|D]; auto.
  apply F3 in D. apply (f_equal g) in D. rewrite !F2 in D. lia.
Qed.
Lemma perm_list : forall {A} n (a b : Z -> A), perm_on 0 (n - 1) a b -> Permutation (first n b) (first n a).
Proof.
  intros A n a b (f & g & F1 & F2 & F3 & F4). unfold first.
  assert (E : map (fun k => b (Z.of_nat k)) (seq 0 (Z.to_nat n)) = map (fun k => a (Z.of_nat k)) (map (fun k => Z.to_nat (f (Z.of_nat k))) (seq 0 (Z.to_nat n)))).
  { rewrite map_map. apply map_ext_in. intros k Hk. apply in_seq in Hk. rewrite F4. f_equal. rewrite Z2Nat.id; auto.
    destruct (Z_lt_le_dec (f (Z.of_nat k)) 0) as [L|]; auto. pose proof (F3 (f (Z.of_nat k)) ltac:(lia)) as Q.
    apply (f_equal g) in Q. rewrite !F2 in Q. lia. }
  rewrite E. apply Permutation_map. symmetry.
  assert (I : forall k, (0 <= k <= n - 1) -> 0 <= f k <= n - 1).
  { intros k Hk. assert (D : 0 <= f k <= n - 1 \/ f k < 0 \/ n - 1 < f k) by lia. destruct D as [|D]; auto.
    pose proof (F3 (f k) D) as Q. apply (f_equal g) in Q. rewrite !F2 in Q. lia. }
  apply NoDup_Permutation_bis.
  - apply seq_NoDup.
  - rewrite map_length. lia.
  - intros k Hk. apply in_seq in Hk. apply in_map_iff. exists (Z.to_nat (g (Z.of_nat k))).
    assert (G : 0 <= g (Z.of_nat k) <= n - 1).
    { assert (D : 0 <= g (Z.of_nat k) <= n - 1 \/ g (Z.of_nat k) < 0 \/ n - 1 < g (Z.of_nat k)) by lia. destruct D as [|D]; auto.
      apply F3 in D. rewrite F1 in D. lia. }
    rewrite Z2Nat.id by lia. rewrite F1. split; [lia|]. apply in_seq. lia.
Qed.

(** ** Quicksort *)
Section Sort.
Context {A : Type} (cmp : A -> A -> res Z) (le : A -> A -> Prop) (P : A -> Prop).
Hypothesis le_trans : forall x y z, P x -> P y -> P z -> le x y -> le y z -> le x z.
Hypothesis cmp_ok : forall x y, P x -> P y -> cmp x y = Ok 1 /\ le x y \/ cmp x y = Ok 2 /\ le y x.

Lemma partition_ok : forall m i pivot a start e,
  start <= pivot < i -> i + Z.of_nat m = e + 1 -> (forall t, start <= t <= e -> P (a t)) ->
  (forall t, start <= t < pivot -> le (a t) (a pivot)) -> (forall t, pivot < t < i -> le (a pivot) (a t)) ->
  exists b p, partition cmp m i pivot a = Ok (b, p) /\ start <= p <= e /\ perm_on start e a b /\
    (forall t, start <= t < p -> le (b t) (b p)) /\ (forall t, p < t <= e -> le (b p) (b t)).
Proof.
  induction m as [|m IH]; intros i pivot a start e H1 H2 HP HL HG.
  - exists a, pivot. cbn. split; auto. split; [lia|]. split; [apply perm_refl|]. split; auto. intros. apply HG. lia.
  - cbn [partition]. destruct (cmp_ok (a pivot) (a i)) as [[E L]|[E L]]; try (apply HP; lia); rewrite E; cbn [bind].
    + change (1 =? 2) with false. cbv iota. apply IH; auto; try lia. intros t Ht.
      destruct (Z.eq_dec t i) as [->|]; auto. apply HG. lia.
    + change (2 =? 2) with true. cbv iota zeta.
      match goal with |- context [partition cmp m (i+1) (pivot+1) ?x] => set (a' := x) end.
      assert (V : forall t, a' t = if t =? pivot + 1 then a pivot else if t =? i then a (pivot + 1) else if t =? pivot then a i else a t).
      { intros t. unfold a', upd. repeat (match goal with |- context [?p =? ?q] => destruct (Z.eqb_spec p q) end); try lia; auto; try (f_equal; lia). }
      clearbody a'.
      assert (PM : perm_on start e a a').
      { apply perm_trans with (b := fun t => a (tr pivot i t)).
        - apply perm_tr with (x := pivot) (y := i); auto; lia.
        - apply perm_tr with (x := i) (y := pivot + 1); try lia. intros t. rewrite V. unfold tr.
          destruct (Z.eqb_spec t i), (Z.eqb_spec t (pivot + 1)), (Z.eqb_spec t pivot); try lia;
          repeat (match goal with |- context [?p =? ?q] => destruct (Z.eqb_spec p q) end); try lia; auto; try (f_equal; lia). }
      destruct (IH (i + 1) (pivot + 1) a' start e) as (b & p & E1 & E2 & E3 & E4 & E5); try lia.
      * eapply perm_all; eauto.
      * intros t Ht. rewrite !V. rewrite Z.eqb_refl.
        destruct (Z.eqb_spec t (pivot + 1)); [lia|]. destruct (Z.eqb_spec t i); [lia|].
        destruct (Z.eqb_spec t pivot); auto. apply HL. lia.
      * intros t Ht. rewrite !V. rewrite Z.eqb_refl.
        destruct (Z.eqb_spec t (pivot + 1)); [lia|]. destruct (Z.eqb_spec t i).
        -- destruct (Z.eq_dec (pivot + 1) i); [lia|]. apply HG. lia.
        -- destruct (Z.eqb_spec t pivot); [lia|]. apply HG. lia.
      * exists b, p. split; auto. split; auto. split; [eapply perm_trans; eauto|]. auto.
Qed.
Lemma quicksort_ok : forall f start e a, e - start <= Z.of_nat f -> 0 <= start -> (forall t, start <= t <= e -> P (a t)) ->
  exists b, quicksort_particle cmp f start e a = Ok b /\ perm_on start e a b /\
    (forall t u, start <= t < u -> u <= e -> le (b t) (b u)).
Proof.
  induction f as [|f IH]; intros start e a HF H0 HP; cbn [quicksort_particle]; destruct (e <=? start) eqn:E; try lia.
  - exists a. split; auto. split; [apply perm_refl|]. intros. lia.
  - exists a. split; auto. split; [apply perm_refl|]. intros. lia.
  - cbv zeta. set (pv := Z.quot (start + e + 1) 2).
    assert (Hpv : start <= pv <= e). { unfold pv. rewrite Z.quot_div_nonneg by lia. split; [apply Z.div_le_lower_bound; lia|]. apply Z.div_le_upper_bound; lia. }
    match goal with |- context [partition cmp _ _ _ ?x] => set (a' := x) end.
    assert (PM : perm_on start e a a').
    { apply perm_tr with (x := start) (y := pv); try lia. intros t. unfold a', upd, tr.
      repeat (match goal with |- context [?p =? ?q] => destruct (Z.eqb_spec p q) end); try lia; auto; try (f_equal; lia). }
    clearbody a'.
    destruct (partition_ok (Z.to_nat (e - start)) (start + 1) start a' start e) as (b & p & E1 & E2 & E3 & E4 & E5); try lia.
    { eapply perm_all; eauto. }
    rewrite E1. cbn [bind].
    assert (HPb : forall t, start <= t <= e -> P (b t)). { eapply perm_all; [exact E3|]. eapply perm_all; eauto. }
    destruct (IH start (p - 1) b) as (c & C1 & C2 & C3); try lia. { intros. apply HPb. lia. }
    rewrite C1. cbn [bind].
    assert (HPc : forall t, start <= t <= e -> P (c t)). { eapply perm_all; [|exact HPb]. eapply perm_weaken; [| |exact C2]; lia. }
    destruct (IH (p + 1) e c) as (d & D1 & D2 & D3); try lia. { intros. apply HPc. lia. }
    rewrite D1. exists d. split; auto. split.
    { eapply perm_trans; [exact PM|]. eapply perm_trans; [exact E3|]. eapply perm_trans; (eapply perm_weaken; [| |eassumption]; lia). }
    assert (Lc : forall t, start <= t < p -> le (c t) (b p)).
    { intros t Ht. apply (perm_all (fun x => le x (b p)) start (p - 1) b c C2); [intros; apply E4; lia|lia]. }
    assert (Ld : forall t, p < t <= e -> le (b p) (d t)).
    { intros t Ht. apply (perm_all (fun x => le (b p) x) (p + 1) e c d D2); [|lia]. intros u Hu.
      rewrite (perm_out start (p - 1) b c u C2) by lia. apply E5. lia. }
    assert (Kd : forall t, t <= p -> d t = c t) by (intros; apply (perm_out (p + 1) e c d _ D2); lia).
    assert (Kp : c p = b p) by (apply (perm_out start (p - 1) b c _ C2); lia).
    intros t u Ht Hu.
    destruct (Z_lt_le_dec p t) as [|X]. { apply D3; lia. }
    destruct (Z_lt_le_dec u p) as [|Y]. { rewrite !Kd by lia. apply C3; lia. }
    rewrite (Kd t) by lia.
    destruct (Z.eq_dec u p) as [->|]. { rewrite Kd by lia. rewrite Kp. apply Lc. lia. }
    destruct (Z.eq_dec t p) as [->|]. { rewrite Kp. apply Ld. lia. }
    apply le_trans with (b p). { apply HPc; lia. } { apply HPb; lia. }
    { apply (perm_all P (p+1) e c d D2); [intros; apply HPc; lia|lia]. } { apply Lc. lia. } { apply Ld. lia. }
Qed.
End Sort.

(** ** compare_gr *)
Definition key (Nx : axis -> Z) (pG : pgrid) (g : grain) (c : Z * Z * Z) : Prop :=
  let '(k, j, i) := c in in_cell Nx pG X3 g k /\ in_cell Nx pG X2 g j /\ in_cell Nx pG X1 g i.
Lemma c_int_cell : forall Nx pG ax g z, (0 < p_dx pG ax)%R -> in_cell Nx pG ax g z ->
  c_int ((coord ax (g_x g) - p_MinX pG ax) * coord ax (cell1_of Nx pG))%R = Ok z.
Proof.
  intros Nx pG ax g z D H. unfold in_cell in H. unfold c_int.
  assert (E : coord ax (cell1_of Nx pG) = if Nx ax >? 1 then (1 / p_dx pG ax)%R else 0%R) by (destruct ax; reflexivity).
  rewrite E. clear E. destruct (Nx ax >? 1).
  - destruct H as [Hz [H1 H2]]. rewrite plus_IZR in H2.
    set (x := ((coord ax (g_x g) - p_MinX pG ax) * (1 / p_dx pG ax))%R).
    assert (B : (IZR z <= x < IZR z + 1)%R).
    { assert (X : coord ax (g_x g) = (p_MinX pG ax + x * p_dx pG ax)%R) by (unfold x; field; lra). rewrite X in H1, H2. split; nra. }
    assert (X0 : (0 <= x)%R). { pose proof (IZR_le 0 z ltac:(lia)). lra. }
    destruct (Rle_dec 0 x); [|contradiction]. rewrite (int_part_unique x z B). cbv zeta.
    destruct ((INT_MIN <=? z) && (z <=? INT_MAX)) eqn:E; auto. unfold INT_MIN, INT_MAX in E. lia.
  - subst z. rewrite Rmult_0_r. destruct (Rle_dec 0 0) as [|N]; [|exfalso; apply N; lra].
    rewrite (int_part_unique 0 0) by (cbn; lra). reflexivity.
Qed.
Lemma in_cell_fun : forall Nx pG ax g z z', (0 < p_dx pG ax)%R -> in_cell Nx pG ax g z -> in_cell Nx pG ax g z' -> z = z'.
Proof. intros Nx pG ax g z z' D H H'. apply c_int_cell in H, H'; auto. congruence. Qed.
Lemma compare_ok : forall Nx pG g h c d, (forall ax, 0 < p_dx pG ax)%R -> key Nx pG g c -> key Nx pG h d ->
  compare_gr pG (cell1_of Nx pG) g h = Ok 1 /\ before c d \/ compare_gr pG (cell1_of Nx pG) g h = Ok 2 /\ before d c.
Proof.
  intros Nx pG g h [[k1 j1] i1] [[k2 j2] i2] D (K1 & J1 & I1) (K2 & J2 & I2). unfold compare_gr.
  pose proof (c_int_cell Nx pG X3 g k1 (D _) K1) as C1. pose proof (c_int_cell Nx pG X3 h k2 (D _) K2) as C2.
  pose proof (c_int_cell Nx pG X2 g j1 (D _) J1) as C3. pose proof (c_int_cell Nx pG X2 h j2 (D _) J2) as C4.
  pose proof (c_int_cell Nx pG X1 g i1 (D _) I1) as C5. pose proof (c_int_cell Nx pG X1 h i2 (D _) I2) as C6.
  cbn [coord] in *. rewrite C1, C2, C3, C4, C5, C6. cbn [bind].
  destruct (k1 <? k2) eqn:E1; [left; split; auto; cbn; lia|]. destruct (k1 >? k2) eqn:E2; [right; split; auto; cbn; lia|].
  destruct (j1 <? j2) eqn:E3; [left; split; auto; cbn; lia|]. destruct (j1 >? j2) eqn:E4; [right; split; auto; cbn; lia|].
  destruct (i1 <? i2) eqn:E5; [left; split; auto; cbn; lia|]. destruct (i1 >? i2) eqn:E6; [right; split; auto; cbn; lia|].
  left; split; auto; cbn; lia.
Qed.

(** ** C64 *)
Theorem C64_shuffle : forall Nx pG n a, (forall ax, 0 < p_dx pG ax)%R -> (forall p, 0 <= p < n -> in_grid Nx pG (a p)) ->
  exists b, shuffle Nx pG n a = Ok b /\ Permutation (first n b) (first n a) /\ (forall p, p < 0 \/ n <= p -> b p = a p) /\
    forall p q k j i k' j' i', 0 <= p < q -> q < n ->
      in_cell Nx pG X3 (b p) k -> in_cell Nx pG X2 (b p) j -> in_cell Nx pG X1 (b p) i ->
      in_cell Nx pG X3 (b q) k' -> in_cell Nx pG X2 (b q) j' -> in_cell Nx pG X1 (b q) i' ->
      before (k, j, i) (k', j', i').
Proof.
  intros Nx pG n a D HG. unfold shuffle.
  destruct (@quicksort_ok grain (compare_gr pG (cell1_of Nx pG))
    (fun g h => forall c d, key Nx pG g c -> key Nx pG h d -> before c d) (fun g => in_grid Nx pG g)) with (f := Z.to_nat n) (start := 0) (e := n - 1) (a := a)
    as (b & E & PM & S); try lia.
  - intros x y z Hx Hy Hz L1 L2 c d Kc Kd. destruct (Hy X3) as [k Hk], (Hy X2) as [j Hj], (Hy X1) as [i Hi].
    assert (K : key Nx pG y (k, j, i)) by (cbn; auto). specialize (L1 _ _ Kc K). specialize (L2 _ _ K Kd).
    destruct c as [[? ?] ?], d as [[? ?] ?]. cbn in *. lia.
  - intros x y Hx Hy. destruct (Hx X3) as [k Hk], (Hx X2) as [j Hj], (Hx X1) as [i Hi].
    destruct (Hy X3) as [k' Hk'], (Hy X2) as [j' Hj'], (Hy X1) as [i' Hi'].
    destruct (compare_ok Nx pG x y (k, j, i) (k', j', i')) as [[E B]|[E B]]; auto; try (cbn; auto; fail).
    + left. split; auto. intros [[kc jc] ic] [[kd jd] id] (A1 & A2 & A3) (B1 & B2 & B3).
      rewrite (in_cell_fun _ _ _ _ _ _ (D X3) A1 Hk), (in_cell_fun _ _ _ _ _ _ (D X2) A2 Hj), (in_cell_fun _ _ _ _ _ _ (D X1) A3 Hi).
      rewrite (in_cell_fun _ _ _ _ _ _ (D X3) B1 Hk'), (in_cell_fun _ _ _ _ _ _ (D X2) B2 Hj'), (in_cell_fun _ _ _ _ _ _ (D X1) B3 Hi'). auto.
    + right. split; auto. intros [[kd jd] id] [[kc jc] ic] (B1 & B2 & B3) (A1 & A2 & A3).
      rewrite (in_cell_fun _ _ _ _ _ _ (D X3) A1 Hk), (in_cell_fun _ _ _ _ _ _ (D X2) A2 Hj), (in_cell_fun _ _ _ _ _ _ (D X1) A3 Hi).
      rewrite (in_cell_fun _ _ _ _ _ _ (D X3) B1 Hk'), (in_cell_fun _ _ _ _ _ _ (D X2) B2 Hj'), (in_cell_fun _ _ _ _ _ _ (D X1) B3 Hi'). auto.
  - intros t Ht. apply HG. lia.
  - exists b. split; auto. split; [apply perm_list; auto|]. split; [intros; apply (perm_out 0 (n - 1) a b); auto; lia|].
    intros p q k j i k' j' i' Hp Hq H1 H2 H3 H4 H5 H6. apply (S p q); try lia; cbn; auto.
Qed.
Print Assumptions C64_shuffle.

(** ** C69: Delete_Ghost *)
Definition ghost (g : grain) : bool := g_pos g =? 0.
Definition how_many (ty : Z) (l : list grain) : Z := Z.of_nat (length (filter (fun g => g_type g =? ty) l)).

Lemma first_cons : forall {A} n (a : Z -> A), 0 < n -> first n a = first (n - 1) a ++ [a (n - 1)].
Proof.
  intros. unfold first. replace (Z.to_nat n) with (S (Z.to_nat (n - 1))) by lia. rewrite seq_S, map_app. cbn.
  replace (Z.of_nat (Z.to_nat (n - 1))) with (n - 1) by lia. auto.
Qed.
(** elements p .. n-1 *)
Definition seg {A} (p n : Z) (a : Z -> A) : list A := map (fun k => a (p + Z.of_nat k)) (seq 0 (Z.to_nat (n - p))).
Lemma seg_step : forall {A} p n (a : Z -> A), p < n -> seg p n a = a p :: seg (p + 1) n a.
Proof.
  intros. unfold seg. replace (Z.to_nat (n - p)) with (S (Z.to_nat (n - (p + 1)))) by lia. cbn [seq map]. f_equal; [f_equal; lia|].
  rewrite <- seq_shift, map_map. apply map_ext. intros. f_equal. lia.
Qed.
Lemma seg_last : forall {A} p n (a : Z -> A), p < n -> seg p n a = seg p (n - 1) a ++ [a (n - 1)].
Proof.
  intros. unfold seg. replace (Z.to_nat (n - p)) with (S (Z.to_nat (n - 1 - p))) by lia. rewrite seq_S, map_app. cbn [map].
  do 3 f_equal. lia.
Qed.
Lemma seg_ext : forall {A} p n (a b : Z -> A), (forall t, p <= t < n -> a t = b t) -> seg p n a = seg p n b.
Proof. intros. unfold seg. apply map_ext_in. intros k Hk. apply in_seq in Hk. apply H. lia. Qed.
Lemma first_seg : forall {A} n (a : Z -> A), first n a = seg 0 n a.
Proof. intros. unfold first, seg. rewrite Z.sub_0_r. apply map_ext. intros. f_equal. Qed.
Lemma first_split : forall {A} p n (a : Z -> A), 0 <= p <= n -> first n a = first p a ++ seg p n a.
Proof.
  intros A p n a H. unfold first, seg. replace (Z.to_nat n) with (Z.to_nat p + Z.to_nat (n - p))%nat by lia.
  rewrite seq_app, map_app. f_equal. cbn. replace (seq (Z.to_nat p) (Z.to_nat (n - p))) with (map (fun k => (Z.to_nat p + k)%nat) (seq 0 (Z.to_nat (n - p)))).
  - rewrite map_map. apply map_ext. intros. f_equal. lia.
  - induction (Z.to_nat p) as [|q IH]; cbn. { apply map_id. } rewrite <- seq_shift, <- IH, map_map. auto.
Qed.

Lemma delete_ok : forall fuel p n a num, n - p <= Z.of_nat fuel -> p <= n ->
  exists b m num', delete_from fuel p n a num = Ok (b, m, num') /\ p <= m <= n /\
    (forall t, t < p -> b t = a t) /\
    Permutation (seg p m b) (filter (fun g => negb (ghost g)) (seg p n a)) /\
    (forall ty, num' ty = num ty - how_many ty (filter ghost (seg p n a))).
Proof.
  induction fuel as [|fuel IH]; intros p n a num HF Hpn; cbn [delete_from]; destruct (p <? n) eqn:E; try lia.
  - replace p with n by lia. exists a, n, num. unfold seg. rewrite Z.sub_diag. cbn [Z.to_nat seq map filter]. split; [reflexivity|]. split; [lia|]. split; [auto|]. split; [constructor|]. intros; unfold how_many; cbn; lia.
  - assert (Hn : p < n) by lia. clear E. destruct (g_pos (a p) =? 0) eqn:E; cbv zeta.
    + destruct (IH p (n - 1) (upd a p (a (n - 1))) (upd num (g_type (a p)) (num (g_type (a p)) - 1))) as (b & m & num' & E1 & E2 & E3 & E4 & E5); try lia.
      rewrite E1. exists b, m, num'. split; auto. split; [lia|].
      split. { intros t Ht. rewrite E3 by auto. unfold upd. replace (t =? p) with false by lia. auto. }
      assert (PS : Permutation (seg p n a) (a p :: seg p (n - 1) (upd a p (a (n - 1))))).
      { rewrite seg_step by auto. apply perm_skip. destruct (Z.eq_dec (p + 1) n) as [<-|].
        - unfold seg. rewrite Z.sub_diag. replace (p + 1 - 1 - p) with 0 by lia. auto.
        - rewrite seg_last by lia. rewrite (seg_step p) by lia. unfold upd at 1. rewrite Z.eqb_refl.
          rewrite (seg_ext (p + 1) (n - 1) (upd a p (a (n - 1))) a). { apply Permutation_sym, Permutation_cons_append. }
          intros t Ht. unfold upd. replace (t =? p) with false by lia. auto. }
      assert (FP : forall f, Permutation (filter f (seg p n a)) (filter f (a p :: seg p (n - 1) (upd a p (a (n - 1)))))).
      { intros f. clear - PS. induction PS; cbn; auto. { destruct (f x); auto. } { destruct (f x), (f y); auto using perm_swap. } eapply Permutation_trans; eauto. }
      split.
      * rewrite E4. rewrite (FP (fun g => negb (ghost g))). cbn [filter]. unfold ghost at 2. rewrite E. cbn [negb]. reflexivity.
      * intros ty. rewrite E5. unfold how_many. 
        assert (LEN : forall l l' : list grain, Permutation l l' -> length (filter (fun g => g_type g =? ty) l) = length (filter (fun g => g_type g =? ty) l')).
        { intros l l' Q. induction Q; cbn; auto. { destruct (g_type x =? ty); cbn; auto. } { destruct (g_type x =? ty), (g_type y =? ty); cbn; auto. } congruence. }
        rewrite (LEN _ _ (FP ghost)). cbn [filter]. unfold ghost at 2. rewrite E. cbn [filter]. unfold upd.
        destruct (Z.eqb_spec ty (g_type (a p))) as [->|N].
        -- rewrite Z.eqb_refl. cbn [length]. lia.
        -- replace (g_type (a p) =? ty) with false by lia. auto.
    + destruct (IH (p + 1) n a num) as (b & m & num' & E1 & E2 & E3 & E4 & E5); try lia.
      rewrite E1. exists b, m, num'. split; auto. split; [lia|]. split; [intros; apply E3; lia|].
      rewrite (seg_step p n) by auto. destruct (Z.eq_dec p m) as [->|]; [lia|]. rewrite (seg_step p m) by lia. cbn [filter].
      assert (G : ghost (a p) = false) by exact E. rewrite G. cbn [negb].
      split; [|exact E5]. rewrite E3 by lia. apply perm_skip. auto.
  - replace p with n by lia. exists a, n, num. unfold seg. rewrite Z.sub_diag. cbn [Z.to_nat seq map filter]. split; [reflexivity|]. split; [lia|]. split; [auto|]. split; [constructor|]. intros; unfold how_many; cbn; lia.
Qed.
(** Exactly the ghost particles are removed, none is lost or duplicated, and the counters per type go down by the
    number of ghosts of that type. *)
Theorem C69_delete_ghost : forall n a num, 0 <= n ->
  exists b m num', Delete_Ghost n a num = Ok (b, m, num') /\ 0 <= m <= n /\
    Permutation (first m b) (filter (fun g => negb (ghost g)) (first n a)) /\
    (forall ty, num' ty = num ty - how_many ty (filter ghost (first n a))).
Proof.
  intros n a num Hn. destruct (delete_ok (Z.to_nat n) 0 n a num) as (b & m & num' & E1 & E2 & E3 & E4 & E5); try lia.
  exists b, m, num'. rewrite !first_seg. auto.
Qed.
Print Assumptions C69_delete_ghost.

(** ** Examples: the hypotheses hold of real cases *)
Definition ex_pg : pgrid := PG (fun _ => 4) (fun _ => 0%R) (fun _ => 1%R).
Definition ex_Nx (a : axis) : Z := match a with X1 => 8 | X2 => 4 | X3 => 1 end.
Definition ex_a (p : Z) : grain :=
  Grain (V3 (if p =? 0 then 13/2 else if p =? 1 then 1/2 else 9/4)%R (if p =? 1 then 3/2 else 1/4)%R 0%R) (V3 0%R 0%R 0%R) (p mod 2) (if p =? 2 then 0 else 1) p.
Lemma in_cell_intro : forall Nx pG ax g z, (Nx ax >? 1) = true -> 0 <= z < 2 ^ 31 ->
  (p_MinX pG ax + IZR z * p_dx pG ax <= coord ax (g_x g) < p_MinX pG ax + IZR (z + 1) * p_dx pG ax)%R -> in_cell Nx pG ax g z.
Proof. intros Nx pG ax g z H H1 H2. unfold in_cell. rewrite H. auto. Qed.
Example ex_shuffle : (forall ax, 0 < p_dx ex_pg ax)%R /\ (forall p, 0 <= p < 3 -> in_grid ex_Nx ex_pg (ex_a p)) /\
  in_cell ex_Nx ex_pg X1 (ex_a 0) 6 /\ in_cell ex_Nx ex_pg X2 (ex_a 1) 1.
Proof.
  split; [intros; cbn; lra|]. split.
  - intros p Hp. assert (D : p = 0 \/ p = 1 \/ p = 2) by lia.
    intros [| |]; destruct D as [ -> | [ -> | -> ] ];
    first [ (exists 6; apply in_cell_intro; [reflexivity|lia|cbn; lra]) | (exists 0; apply in_cell_intro; [reflexivity|lia|cbn; lra])
          | (exists 1; apply in_cell_intro; [reflexivity|lia|cbn; lra]) | (exists 2; apply in_cell_intro; [reflexivity|lia|cbn; lra]) | (exists 0; reflexivity) ].
  - split; (apply in_cell_intro; [reflexivity|lia|cbn; lra]).
Qed.
Example ex_delete : exists b num', Delete_Ghost 3 ex_a (fun _ => 5) = Ok (b, 2, num') /\ num' 0 = 4 /\ num' 1 = 5 /\ g_id (b 0) = 0 /\ g_id (b 1) = 1.
Proof. eexists. eexists. split; [cbv -[IZR Rdiv]; reflexivity|]. cbv -[IZR Rdiv]. auto. Qed.
