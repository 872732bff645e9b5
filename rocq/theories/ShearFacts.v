(** * Lemmas about the shearing sheet model *)
From Coq Require Import Reals ZArith Bool Lia Lra Psatz List.
From Verif Require Import CStr PosModel GasModel ReconModel IntegModel IntegSpec IntegFacts SumFacts MeshProps ShearModel.
From Verif Require Import IntegSpec IntegFacts.
Import ListNotations.
Open Scope R_scope.

(** ** Shifts over whole cells *)
Section Shift.
Variable A : Type.
Variables (NG js n : Z) (buf : Z -> Z -> A).
Open Scope Z_scope.
Hypothesis HN : 0 < NG.
Hypothesis Hn : 0 < n.

Lemma row_ok : forall p j, js <= j <= js + n - 1 -> row A js n buf p j = Ok (buf p j).
Proof. intros p j H. unfold row. replace (js <=? j) with true by (symmetry; apply Z.leb_le; lia).
  replace (j <=? js + n - 1) with true by (symmetry; apply Z.leb_le; lia). reflexivity. Qed.
Lemma rows_ok : forall p l, (forall j, In j l -> js <= j <= js + n - 1) -> rows A js n buf p l = Ok (map (buf p) l).
Proof. intros p l. induction l as [|j l IH]; intros H; [reflexivity|]. cbn [rows map]. rewrite row_ok by (apply H; now left).
  cbn [bind]. rewrite IH by (intros; apply H; now right). reflexivity. Qed.
Lemma from_to_in : forall l u j, In j (from_to l u) -> l <= j <= u.
Proof. intros l u j H. unfold from_to in H. apply in_map_iff in H. destruct H as [m [<- Hm]]. apply in_seq in Hm. lia. Qed.
Lemma from_to_len : forall l u, l <= u + 1 -> Z.of_nat (length (from_to l u)) = u - l + 1.
Proof. intros l u H. unfold from_to. rewrite map_length, seq_length. lia. Qed.
Lemma nth_row_ok : forall (f : Z -> A) l u m, 0 <= m <= u - l -> nth_row A (map f (from_to l u)) m = Ok (f (l + m)).
Proof.
  intros f l u m H. unfold nth_row, from_to. rewrite map_map.
  assert (E : nth_error (map (fun x => f (l + Z.of_nat x)) (seq 0 (Z.to_nat (u - l + 1)))) (Z.to_nat m) = Some (f (l + m))).
  { rewrite nth_error_map. rewrite (nth_error_nth' _ 0%nat) by (rewrite seq_length; lia). rewrite seq_nth by lia. cbn [option_map].
    repeat f_equal. lia. }
  rewrite E. destruct (m <? 0) eqn:E2; [apply Z.ltb_lt in E2; lia|reflexivity].
Qed.
Lemma in_ring_ok : forall q, 0 <= q < NG -> in_ring NG q = Ok q.
Proof. intros q H. unfold in_ring. replace (0 <=? q) with true by (symmetry; apply Z.leb_le; lia).
  replace (q <? NG) with true by (symmetry; apply Z.ltb_lt; lia). reflexivity. Qed.
Lemma up_ring : forall p m, 0 <= p < NG -> 0 <= m <= NG -> 0 <= up NG p m < NG /\ (up NG p m = p + m \/ up NG p m = p + m - NG).
Proof. intros p m Hp Hm. unfold up. cbv zeta. destruct (NG - 1 <? p + m) eqn:E; [apply Z.ltb_lt in E|apply Z.ltb_ge in E]; lia. Qed.
Lemma down_ring : forall p m, 0 <= p < NG -> 0 <= m <= NG -> 0 <= down NG p m < NG /\ (down NG p m = p - m \/ down NG p m = p - m + NG).
Proof. intros p m Hp Hm. unfold down. cbv zeta. destruct (p - m <? 0) eqn:E; [apply Z.ltb_lt in E|apply Z.ltb_ge in E]; lia. Qed.
Lemma up_down : forall p m, 0 <= p < NG -> 0 <= m <= NG -> up NG (down NG p m) m = p.
Proof. intros p m Hp Hm. unfold up, down. cbv zeta. destruct (p - m <? 0) eqn:E; [apply Z.ltb_lt in E|apply Z.ltb_ge in E];
  match goal with |- context [(NG - 1 <? ?x)] => destruct (NG - 1 <? x) eqn:E2 end; [apply Z.ltb_lt in E2|apply Z.ltb_ge in E2|apply Z.ltb_lt in E2|apply Z.ltb_ge in E2]; lia. Qed.
Lemma down_up : forall p m, 0 <= p < NG -> 0 <= m <= NG -> down NG (up NG p m) m = p.
Proof. intros p m Hp Hm. unfold up, down. cbv zeta. destruct (NG - 1 <? p + m) eqn:E; [apply Z.ltb_lt in E|apply Z.ltb_ge in E];
  match goal with |- context [(?x <? 0)] => destruct (x <? 0) eqn:E2 end; [apply Z.ltb_lt in E2|apply Z.ltb_ge in E2|apply Z.ltb_lt in E2|apply Z.ltb_ge in E2]; lia. Qed.
Lemma exchange_ok : forall sendto data getfrom cnt me l,
  0 <= getfrom < NG -> sendto getfrom = me -> 0 <= me < NG -> data getfrom = Ok l -> Z.of_nat (length l) = cnt ->
  exchange A NG sendto data getfrom cnt me = Ok l.
Proof.
  intros. unfold exchange. rewrite in_ring_ok by assumption. cbn [bind]. rewrite H0. rewrite in_ring_ok by assumption. cbn [bind].
  rewrite H2. cbn [bind]. rewrite Z.eqb_refl, H3, Z.eqb_refl. reflexivity.
Qed.

Lemma shift_ix1_ok : forall joffset p j, 0 <= joffset < NG * n -> 0 <= p < NG -> js <= j <= js + n - 1 ->
  exists q j' c, 0 <= q < NG /\ js <= j' <= js + n - 1 /\
    q * n + (j' - js) = p * n + (j - js) - joffset + c * (NG * n) /\
    shift_ix1 A NG js n buf joffset p j = Ok (buf q j').
Proof.
  intros joffset p j Ho Hp Hj. unfold shift_ix1. cbv zeta.
  destruct (NG =? 1) eqn:E1.
  - apply Z.eqb_eq in E1. assert (p = 0) by lia. subst p.
    destruct (j - joffset <? js) eqn:E.
    + apply Z.ltb_lt in E. exists 0, (j - joffset + n), 1. rewrite row_ok by nia. repeat split; nia.
    + apply Z.ltb_ge in E. exists 0, (j - joffset), 0. rewrite row_ok by nia. repeat split; nia.
  - apply Z.eqb_neq in E1.
    assert (Q : Z.quot joffset n = joffset / n) by (apply Z.quot_div_nonneg; lia). rewrite Q.
    pose proof (Z.div_mod joffset n ltac:(lia)) as DM. pose proof (Z.mod_pos_bound joffset n Hn) as MB.
    assert (OV : joffset - joffset / n * n = joffset mod n) by lia. rewrite OV.
    set (g := joffset / n) in *. set (o := joffset mod n) in *. clearbody g o. clear Q OV.
    assert (Hg : 0 <= g < NG) by nia.
    destruct (negb (o =? 0) && (j <=? js + (o - 1)))%bool eqn:E2.
    + apply andb_true_iff in E2. destruct E2 as [E2 E3]. apply Z.leb_le in E3. apply negb_true_iff, Z.eqb_neq in E2.
      destruct (down_ring p (g + 1) Hp ltac:(lia)) as [D1 D2].
      rewrite (exchange_ok _ _ _ _ _ (map (buf (down NG p (g + 1))) (from_to (js + n - 1 - (o - 1)) (js + n - 1)))).
      * cbn [bind]. rewrite nth_row_ok by lia.
        destruct D2 as [D2|D2].
        -- eexists _, _, 0. split; [exact D1|]. split; [|split; [|reflexivity]]; [lia|]. rewrite D2. nia.
        -- eexists _, _, 1. split; [exact D1|]. split; [|split; [|reflexivity]]; [lia|]. rewrite D2. nia.
      * exact D1.
      * apply up_down; lia.
      * lia.
      * apply rows_ok. intros x Hx. apply from_to_in in Hx. lia.
      * rewrite map_length, from_to_len; lia.
    + assert (L : js + o <= j).
      { apply andb_false_iff in E2. destruct E2 as [E2|E2]; [apply negb_false_iff, Z.eqb_eq in E2; lia|apply Z.leb_gt in E2; lia]. }
      destruct (g =? 0) eqn:E3.
      * apply Z.eqb_eq in E3. exists p, (j - o), 0. rewrite row_ok by lia. repeat split; nia.
      * apply Z.eqb_neq in E3. destruct (down_ring p g Hp ltac:(lia)) as [D1 D2].
        rewrite (exchange_ok _ _ _ _ _ (map (buf (down NG p g)) (from_to js (js + n - 1 - o)))).
        -- cbn [bind]. rewrite nth_row_ok by lia.
           destruct D2 as [D2|D2].
           ++ eexists _, _, 0. split; [exact D1|]. split; [|split; [|reflexivity]]; [lia|]. rewrite D2. nia.
           ++ eexists _, _, 1. split; [exact D1|]. split; [|split; [|reflexivity]]; [lia|]. rewrite D2. nia.
        -- exact D1.
        -- apply up_down; lia.
        -- lia.
        -- apply rows_ok. intros x Hx. apply from_to_in in Hx. lia.
        -- rewrite map_length, from_to_len; lia.
Qed.

Lemma shift_ox1_ok : forall joffset p j, 0 <= joffset < NG * n -> 0 <= p < NG -> js <= j <= js + n - 1 ->
  exists q j' c, 0 <= q < NG /\ js <= j' <= js + n - 1 /\
    q * n + (j' - js) = p * n + (j - js) + joffset + c * (NG * n) /\
    shift_ox1 A NG js n buf joffset p j = Ok (buf q j').
Proof.
  intros joffset p j Ho Hp Hj. unfold shift_ox1. cbv zeta.
  destruct (NG =? 1) eqn:E1.
  - apply Z.eqb_eq in E1. assert (p = 0) by lia. subst p.
    destruct (js + n - 1 <? j + joffset) eqn:E.
    + apply Z.ltb_lt in E. exists 0, (j + joffset - n), (-1). rewrite row_ok by nia. repeat split; nia.
    + apply Z.ltb_ge in E. exists 0, (j + joffset), 0. rewrite row_ok by nia. repeat split; nia.
  - apply Z.eqb_neq in E1.
    assert (Q : Z.quot joffset n = joffset / n) by (apply Z.quot_div_nonneg; lia). rewrite Q.
    pose proof (Z.div_mod joffset n ltac:(lia)) as DM. pose proof (Z.mod_pos_bound joffset n Hn) as MB.
    assert (OV : joffset - joffset / n * n = joffset mod n) by lia. rewrite OV.
    set (g := joffset / n) in *. set (o := joffset mod n) in *. clearbody g o. clear Q OV.
    assert (Hg : 0 <= g < NG) by nia.
    destruct (negb (o =? 0) && (js + n - 1 - (o - 1) <=? j))%bool eqn:E2.
    + apply andb_true_iff in E2. destruct E2 as [E2 E3]. apply Z.leb_le in E3. apply negb_true_iff, Z.eqb_neq in E2.
      destruct (up_ring p (g + 1) Hp ltac:(lia)) as [D1 D2].
      rewrite (exchange_ok _ _ _ _ _ (map (buf (up NG p (g + 1))) (from_to js (js + (o - 1))))).
      * cbn [bind]. rewrite nth_row_ok by lia.
        destruct D2 as [D2|D2].
        -- eexists _, _, 0. split; [exact D1|]. split; [|split; [|reflexivity]]; [lia|]. rewrite D2. nia.
        -- eexists _, _, (-1). split; [exact D1|]. split; [|split; [|reflexivity]]; [lia|]. rewrite D2. nia.
      * exact D1.
      * apply down_up; lia.
      * lia.
      * apply rows_ok. intros x Hx. apply from_to_in in Hx. lia.
      * rewrite map_length, from_to_len; lia.
    + assert (L : j <= js + n - 1 - o).
      { apply andb_false_iff in E2. destruct E2 as [E2|E2]; [apply negb_false_iff, Z.eqb_eq in E2; lia|apply Z.leb_gt in E2; lia]. }
      destruct (g =? 0) eqn:E3.
      * apply Z.eqb_eq in E3. exists p, (j + o), 0. rewrite row_ok by lia. repeat split; nia.
      * apply Z.eqb_neq in E3. destruct (up_ring p g Hp ltac:(lia)) as [D1 D2].
        rewrite (exchange_ok _ _ _ _ _ (map (buf (up NG p g)) (from_to (js + o) (js + n - 1)))).
        -- cbn [bind]. rewrite nth_row_ok by lia.
           destruct D2 as [D2|D2].
           ++ eexists _, _, 0. split; [exact D1|]. split; [|split; [|reflexivity]]; [lia|]. rewrite D2. nia.
           ++ eexists _, _, (-1). split; [exact D1|]. split; [|split; [|reflexivity]]; [lia|]. rewrite D2. nia.
        -- exact D1.
        -- apply down_up; lia.
        -- lia.
        -- apply rows_ok. intros x Hx. apply from_to_in in Hx. lia.
        -- rewrite map_length, from_to_len; lia.
Qed.
End Shift.

(** ** The remap over a fraction of a cell *)
Lemma remap_local : forall third eps U U' j j', (forall d, (-3 <= d <= 3)%Z -> U (j + d)%Z = U' (j' + d)%Z) ->
  remap third eps U j = remap third eps U' j'.
Proof.
  intros third eps U U' j j' H.
  assert (S2 : forall d, (-2 <= d <= 2)%Z -> rf_slope U (j + d) = rf_slope U' (j' + d)).
  { intros d Hd. unfold rf_slope. cbv zeta. replace (j + d + 1)%Z with (j + (d + 1))%Z by lia. replace (j + d - 1)%Z with (j + (d - 1))%Z by lia.
    replace (j' + d + 1)%Z with (j' + (d + 1))%Z by lia. replace (j' + d - 1)%Z with (j' + (d - 1))%Z by lia.
    rewrite !H by lia. reflexivity. }
  assert (S3 : forall d, (-1 <= d <= 1)%Z -> rf_ends U (j + d) = rf_ends U' (j' + d)).
  { intros d Hd. unfold rf_ends. cbv zeta.
    assert (PH : forall e, (-1 <= e <= 2)%Z -> prim3_half (fun i _ => U i) (j + e) 0 = prim3_half (fun i _ => U' i) (j' + e) 0).
    { intros e He. unfold prim3_half. cbv zeta.
      replace (j + e - 1)%Z with (j + (e - 1))%Z by lia. replace (j + e - 2)%Z with (j + (e - 2))%Z by lia. replace (j + e + 1)%Z with (j + (e + 1))%Z by lia.
      replace (j' + e - 1)%Z with (j' + (e - 1))%Z by lia. replace (j' + e - 2)%Z with (j' + (e - 2))%Z by lia. replace (j' + e + 1)%Z with (j' + (e + 1))%Z by lia.
      rewrite !H by lia. reflexivity. }
    rewrite (PH d) by lia. replace (j + d + 1)%Z with (j + (d + 1))%Z by lia. replace (j' + d + 1)%Z with (j' + (d + 1))%Z by lia. rewrite (PH (d + 1)%Z) by lia.
    set (l := prim3_half _ (j' + d)%Z _). set (r := prim3_half _ _ _). clearbody l r.
    assert (PE : prim3_extremum (fun i _ => U i) (j + d) 0 l r = prim3_extremum (fun i _ => U' i) (j' + d) 0 l r).
    { unfold prim3_extremum. cbv zeta.
      replace (j + d - 1)%Z with (j + (d - 1))%Z by lia. replace (j + d - 2)%Z with (j + (d - 2))%Z by lia. replace (j + d + 1)%Z with (j + (d + 1))%Z by lia. replace (j + d + 2)%Z with (j + (d + 2))%Z by lia.
      replace (j' + d - 1)%Z with (j' + (d - 1))%Z by lia. replace (j' + d - 2)%Z with (j' + (d - 2))%Z by lia. replace (j' + d + 1)%Z with (j' + (d + 1))%Z by lia. replace (j' + d + 2)%Z with (j' + (d + 2))%Z by lia.
      rewrite !H by lia. reflexivity. }
    rewrite PE, H by lia. reflexivity. }
  assert (F : forall d, (0 <= d <= 1)%Z -> RemapFlux third U eps (j + d) = RemapFlux third U' eps (j' + d)).
  { intros d Hd. unfold RemapFlux, RemapFlux2, RemapFlux3. cbv zeta.
    replace (j + d - 1)%Z with (j + (d - 1))%Z by lia. replace (j' + d - 1)%Z with (j' + (d - 1))%Z by lia.
    rewrite !S2, !S3, !H by lia. reflexivity. }
  unfold remap. pose proof (F 0%Z ltac:(lia)) as F0. pose proof (F 1%Z ltac:(lia)) as F1.
  pose proof (H 0%Z ltac:(lia)) as H0. rewrite !Z.add_0_r in *. rewrite F0, F1, H0. reflexivity.
Qed.

Lemma flux_periodic : forall third eps U N j, (forall J, U (J + N)%Z = U J) -> RemapFlux third U eps (j + N) = RemapFlux third U eps j.
Proof.
  intros third eps U N j H.
  assert (H' : forall a b, a = (b + N)%Z -> U a = U b) by (intros; subst; apply H).
  assert (S2 : forall a b, a = (b + N)%Z -> rf_slope U a = rf_slope U b).
  { intros a b ->. unfold rf_slope. cbv zeta. rewrite (H' (b + N + 1)%Z (b + 1)%Z), (H' (b + N - 1)%Z (b - 1)%Z), H by lia. reflexivity. }
  assert (P3 : forall a b, a = (b + N)%Z -> prim3_half (fun i _ => U i) a 0 = prim3_half (fun i _ => U i) b 0).
  { intros a b ->. unfold prim3_half. cbv zeta. rewrite (H' (b + N + 1)%Z (b + 1)%Z), (H' (b + N - 1)%Z (b - 1)%Z), (H' (b + N - 2)%Z (b - 2)%Z), H by lia. reflexivity. }
  assert (S3 : forall a b, a = (b + N)%Z -> rf_ends U a = rf_ends U b).
  { intros a b ->. unfold rf_ends. cbv zeta. rewrite (P3 (b + N)%Z b), (P3 (b + N + 1)%Z (b + 1)%Z) by lia.
    set (l := prim3_half _ b _). set (r := prim3_half _ _ _). clearbody l r.
    assert (PE : prim3_extremum (fun i _ => U i) (b + N) 0 l r = prim3_extremum (fun i _ => U i) b 0 l r).
    { unfold prim3_extremum. cbv zeta.
      rewrite (H' (b + N + 1)%Z (b + 1)%Z), (H' (b + N - 1)%Z (b - 1)%Z), (H' (b + N - 2)%Z (b - 2)%Z), (H' (b + N + 2)%Z (b + 2)%Z), H by lia. reflexivity. }
    rewrite PE, H. reflexivity. }
  unfold RemapFlux, RemapFlux2, RemapFlux3. cbv zeta.
  rewrite (S2 (j + N - 1)%Z (j - 1)%Z), (S2 (j + N)%Z j), (S3 (j + N - 1)%Z (j - 1)%Z), (S3 (j + N)%Z j), (H' (j + N - 1)%Z (j - 1)%Z), H by lia.
  reflexivity.
Qed.
Lemma remap_periodic : forall third eps U N, (forall J, U (J + N)%Z = U J) -> forall j, remap third eps U (j + N) = remap third eps U j.
Proof. intros third eps U N H j. apply remap_local. intros d _. replace (j + N + d)%Z with (j + d + N)%Z by lia. apply H. Qed.
Lemma periodic_mult : forall {B} (f : Z -> B) N, (forall J, f (J + N)%Z = f J) -> forall c J, f (J + c * N)%Z = f J.
Proof.
  intros B f N H. assert (P : forall c J, (0 <= c)%Z -> f (J + c * N)%Z = f J).
  { intros c J Hc. revert J. apply (natlike_ind (fun c => forall J, f (J + c * N)%Z = f J)); [intros; f_equal; lia| |exact Hc].
    intros x Hx IH J. replace (J + Z.succ x * N)%Z with (J + x * N + N)%Z by lia. rewrite H. apply IH. }
  intros c J. destruct (Z.le_gt_cases 0 c) as [Hc|Hc]; [now apply P|].
  rewrite <- (P (- c)%Z (J + c * N)%Z) by lia. f_equal. lia.
Qed.
Lemma sum_shift1 : forall (f : Z -> R) N a, (0 < N)%Z -> (forall J, f (J + N)%Z = f J) ->
  sumZ (a + 1) (a + 1 + N - 1) f = sumZ a (a + N - 1) f.
Proof.
  intros f N a HN H. rewrite (sumZ_last (a + 1)) by lia. replace (a + 1 + N - 1)%Z with (a + N)%Z by lia. rewrite H.
  rewrite <- (sumZ_cat a a (a + N - 1)) by lia. replace (a + N - 1)%Z with (a + N - 1)%Z by lia.
  assert (E : sumZ a a f = f a). { rewrite sumZ_last by lia. rewrite sumZ_empty by lia. ring. } rewrite E. ring.
Qed.
Lemma sum_period : forall (f : Z -> R) N, (0 < N)%Z -> (forall J, f (J + N)%Z = f J) ->
  forall s, sumZ 0 (N - 1) (fun J => f (J + s)%Z) = sumZ 0 (N - 1) f.
Proof.
  intros f N HN H s.
  assert (M : sumZ 0 (N - 1) (fun J => f (J + s)%Z) = sumZ s (s + N - 1) f).
  { pose proof (sumZ_move 0 (N - 1) s f) as M. replace (s + (N - 1 - 0))%Z with (s + N - 1)%Z in M by lia. rewrite <- M.
    apply sumZ_ext. intros i _. f_equal. lia. }
  rewrite M. clear M.
  assert (P : forall c, (0 <= c)%Z -> forall a, sumZ (a + c) (a + c + N - 1) f = sumZ a (a + N - 1) f).
  { intros c Hc. apply (natlike_ind (fun c => forall a, sumZ (a + c) (a + c + N - 1) f = sumZ a (a + N - 1) f)); [| |exact Hc].
    - intros a. rewrite Z.add_0_r. reflexivity.
    - intros x Hx IH a. replace (a + Z.succ x)%Z with (a + x + 1)%Z by lia. rewrite sum_shift1 by assumption. apply IH. }
  destruct (Z.le_gt_cases 0 s) as [Hs|Hs].
  - pose proof (P s Hs 0%Z) as Q. rewrite Z.add_0_l in Q. exact Q.
  - pose proof (P (- s)%Z ltac:(lia) s) as Q. replace (s + - s)%Z with 0%Z in Q by lia. rewrite <- Q. reflexivity.
Qed.
Lemma remap_sum : forall third eps U N, (0 < N)%Z -> (forall J, U (J + N)%Z = U J) ->
  sumZ 0 (N - 1) (remap third eps U) = sumZ 0 (N - 1) U.
Proof.
  intros third eps U N HN H. unfold remap. rewrite sumZ_minus.
  rewrite (sumZ_tele 0 (N - 1) (RemapFlux third U eps)) by lia.
  replace (N - 1 + 1)%Z with (0 + N)%Z by lia. rewrite flux_periodic by assumption. ring.
Qed.
Lemma remap_zero : forall third U j, remap third 0 U j = U j.
Proof.
  intros third U j. unfold remap, RemapFlux, RemapFlux2, RemapFlux3. cbv zeta.
  destruct (Rlt_dec 0 0) as [C|_]; [lra|]. destruct third; [|ring].
  destruct (rf_ends U (j + 1)) as [a b]. destruct (rf_ends U j) as [a' b']. ring.
Qed.

(** ** Linear profiles *)
Lemma slope_linear : forall a b j, rf_slope (fun J => a + b * IZR J) j = b.
Proof.
  intros a b j. unfold rf_slope. cbv zeta. rewrite !plus_IZR, !minus_IZR.
  replace (a + b * (IZR j + 1) - (a + b * (IZR j - 1))) with (2 * b) by ring.
  replace (a + b * IZR j - (a + b * (IZR j - 1))) with b by ring.
  replace (a + b * (IZR j + 1) - (a + b * IZR j)) with b by ring.
  unfold SIGN, MIN, half. destruct (Rlt_dec 0 (b * b)) as [P|P].
  - destruct (Rlt_dec (2 * b) 0) as [N|N]; unfold Rabs; repeat destruct (Rcase_abs _); repeat destruct (Rlt_dec _ _); nra.
  - nra.
Qed.
Lemma half_linear : forall a b j, prim3_half (fun J _ => a + b * IZR J) j 0 = a + b * (IZR j - half).
Proof.
  intros a b j. unfold prim3_half. cbv zeta. rewrite !plus_IZR, !minus_IZR.
  replace (a + b * (IZR j - 2) - 2 * (a + b * (IZR j - 1)) + (a + b * IZR j)) with 0 by ring.
  destruct (Rlt_dec 0 0) as [C|_]; [lra|].
  repeat match goal with |- context [Rlt_dec ?x ?y] => destruct (Rlt_dec x y); try lra end; unfold half; field.
Qed.
Lemma ends_linear : forall a b j, rf_ends (fun J => a + b * IZR J) j = (a + b * (IZR j - half), a + b * (IZR j + half)).
Proof.
  intros a b j. unfold rf_ends. cbv zeta. rewrite !half_linear, plus_IZR.
  replace (a + b * (IZR j + 1 - half)) with (a + b * (IZR j + half)) by (unfold half; field).
  assert (X : prim3_extremum (fun J _ => a + b * IZR J) j 0 (a + b * (IZR j - half)) (a + b * (IZR j + half))
              = (a + b * (IZR j - half), a + b * (IZR j + half))).
  { unfold prim3_extremum. cbv zeta. rewrite !plus_IZR, !minus_IZR.
    destruct (Rle_dec _ 0) as [q|q]; [|reflexivity].
    assert (b = 0) by (unfold half in q; nra). subst b.
    destruct (Rle_dec _ 0) as [q'|q']; [|reflexivity].
    destruct (Req_EM_T _ 0) as [e|e]; [f_equal; ring|exfalso; apply e; unfold half; field]. }
  rewrite X. cbn [fst snd]. unfold monotonize. cbv zeta.
  destruct (Rle_dec _ 0) as [q|q].
  - assert (b = 0) by (unfold half in q; nra). subst b. f_equal; ring.
  - assert (Z1 : 6 * (a + b * IZR j - half * (a + b * (IZR j - half) + (a + b * (IZR j + half)))) = 0) by (unfold half; field).
    rewrite Z1. destruct (Rlt_dec _ _) as [q1|q1]; [exfalso; revert q1; match goal with |- context [?x * ?x] => set (y := x * x); assert (0 <= y) by (unfold y; nra) end; nra|].
    destruct (Rlt_dec _ _) as [q2|q2]; [exfalso; revert q2; match goal with |- context [- (?x * ?x)] => set (y := x * x); assert (0 <= y) by (unfold y; nra) end; nra|].
    reflexivity.
Qed.
Lemma remap_linear : forall third eps a b U j, (forall d, (-3 <= d <= 3)%Z -> U (j + d)%Z = a + b * IZR d) ->
  remap third eps U j = a - b * eps.
Proof.
  intros third eps a b U j H.
  rewrite (remap_local third eps U (fun J => a + b * IZR J) j 0%Z) by (intros d Hd; rewrite Z.add_0_l; apply H; exact Hd).
  unfold remap, RemapFlux, RemapFlux2, RemapFlux3. cbv zeta. rewrite !slope_linear, !ends_linear.
  replace (0 + 1)%Z with 1%Z by reflexivity. replace (1 - 1)%Z with 0%Z by reflexivity. replace (0 - 1)%Z with (-1)%Z by reflexivity.
  destruct third; destruct (Rlt_dec 0 eps); unfold half; field.
Qed.

(** ** No new extrema at second order *)
Lemma slope_part : forall U j, exists s t, 0 <= s <= 1 /\ 0 <= t <= 1 /\
  half * rf_slope U j = s * (U j - U (j - 1)%Z) /\ half * rf_slope U j = t * (U (j + 1)%Z - U j).
Proof.
  intros U j. unfold rf_slope. cbv zeta.
  replace (U (j + 1)%Z - U (j - 1)%Z) with ((U j - U (j - 1)%Z) + (U (j + 1)%Z - U j)) by ring.
  set (l := U j - U (j - 1)%Z). set (r := U (j + 1)%Z - U j). clearbody l r.
  destruct (Rlt_dec 0 (l * r)) as [P|P].
  2:{ exists 0, 0. unfold half. repeat split; try lra. }
  set (m := MIN (half * Rabs (l + r)) (2 * MIN (Rabs l) (Rabs r))).
  assert (Hm : 0 <= m /\ m <= 2 * Rabs l /\ m <= 2 * Rabs r).
  { unfold m, MIN, half. pose proof (Rabs_pos l). pose proof (Rabs_pos r). pose proof (Rabs_pos (l + r)).
    repeat destruct (Rlt_dec _ _); lra. }
  clearbody m. destruct Hm as [M0 [M1 M2]].
  assert (NZ : l <> 0 /\ r <> 0) by (split; intro; subst; lra). destruct NZ as [Nl Nr].
  assert (SG : SIGN (l + r) * Rabs l = l /\ SIGN (l + r) * Rabs r = r).
  { unfold SIGN. destruct (Rle_dec 0 l) as [a|a].
    - assert (0 < l) by lra. assert (0 < r) by nra. rewrite !Rabs_right by lra. destruct (Rlt_dec (l + r) 0); lra.
    - assert (r < 0) by nra. rewrite !Rabs_left by lra. destruct (Rlt_dec (l + r) 0); lra. }
  destruct SG as [SGl SGr].
  pose proof (Rabs_pos_lt l Nl) as Al. pose proof (Rabs_pos_lt r Nr) as Ar.
  exists (m / (2 * Rabs l)), (m / (2 * Rabs r)). split; [|split; [|split]].
  - split; [apply Rmult_le_pos; [lra|apply Rlt_le, Rinv_0_lt_compat; lra]|]. apply (Rmult_le_reg_r (2 * Rabs l)); [lra|]. unfold Rdiv. rewrite Rmult_assoc, Rinv_l by lra. lra.
  - split; [apply Rmult_le_pos; [lra|apply Rlt_le, Rinv_0_lt_compat; lra]|]. apply (Rmult_le_reg_r (2 * Rabs r)); [lra|]. unfold Rdiv. rewrite Rmult_assoc, Rinv_l by lra. lra.
  - replace (m / (2 * Rabs l) * l) with (m / (2 * Rabs l) * (SIGN (l + r) * Rabs l)) by (rewrite SGl; reflexivity). unfold half. field. lra.
  - replace (m / (2 * Rabs r) * r) with (m / (2 * Rabs r) * (SIGN (l + r) * Rabs r)) by (rewrite SGr; reflexivity). unfold half. field. lra.
Qed.
Lemma remap2_forward : forall eps U j, 0 <= eps <= 1 ->
  exists x, 0 <= x <= 1 /\ remap false eps U j = (1 - x) * U j + x * U (j - 1)%Z.
Proof.
  intros eps U j He. destruct (Req_EM_T eps 0) as [->|Hne].
  { exists 0. split; [lra|]. rewrite remap_zero. ring. }
  unfold remap, RemapFlux, RemapFlux2. cbv zeta. destruct (Rlt_dec 0 eps); [|lra].
  replace (j + 1 - 1)%Z with j by lia.
  destruct (slope_part U j) as [s [_ [Hs [_ [Es _]]]]].
  destruct (slope_part U (j - 1)%Z) as [_ [t [_ [Ht [_ Et]]]]]. replace (j - 1 + 1)%Z with j in Et by lia.
  exists (eps * ((1 - eps) * s + 1 - (1 - eps) * t)). split.
  - assert (0 <= (1 - eps) * s <= 1 - eps) by nra. assert (0 <= (1 - eps) * t <= 1 - eps) by nra. split; nra.
  - replace (half * (1 - eps) * rf_slope U j) with ((1 - eps) * (half * rf_slope U j)) by ring.
    replace (half * (1 - eps) * rf_slope U (j - 1)%Z) with ((1 - eps) * (half * rf_slope U (j - 1)%Z)) by ring.
    rewrite Es, Et. ring.
Qed.
Lemma remap2_backward : forall eps U j, 0 <= eps <= 1 ->
  exists x, 0 <= x <= 1 /\ remap false (- eps) U j = (1 - x) * U j + x * U (j + 1)%Z.
Proof.
  intros eps U j He.
  unfold remap, RemapFlux, RemapFlux2. cbv zeta. destruct (Rlt_dec 0 (- eps)); [lra|].
  destruct (slope_part U j) as [_ [t [_ [Ht [_ Et]]]]].
  destruct (slope_part U (j + 1)%Z) as [s [_ [Hs [_ [Es _]]]]]. replace (j + 1 - 1)%Z with j in Es by lia.
  exists (eps * ((1 - eps) * t + 1 - (1 - eps) * s)). split.
  - assert (0 <= (1 - eps) * s <= 1 - eps) by nra. assert (0 <= (1 - eps) * t <= 1 - eps) by nra. split; nra.
  - replace (half * (1 + - eps) * rf_slope U j) with ((1 - eps) * (half * rf_slope U j)) by ring.
    replace (half * (1 + - eps) * rf_slope U (j + 1)%Z) with ((1 - eps) * (half * rf_slope U (j + 1)%Z)) by ring.
    rewrite Es, Et. ring.
Qed.

(** ** fmod and the shift *)
Lemma Int_part_bound : forall x, IZR (Int_part x) <= x < IZR (Int_part x) + 1.
Proof. intros x. destruct (base_Int_part x). lra. Qed.
Lemma Int_part_nonneg : forall x, 0 <= x -> (0 <= Int_part x)%Z.
Proof. intros x H. pose proof (Int_part_bound x) as B. assert (L : (-1 < Int_part x)%Z) by (apply lt_IZR; lra). lia. Qed.
Lemma fmod_pos : forall x y, 0 <= x -> 0 < y -> exists m, (0 <= m)%Z /\ x = IZR m * y + fmod x y /\ 0 <= fmod x y < y.
Proof.
  intros x y Hx Hy. exists (Int_part (x / y)). assert (Q : 0 <= x / y) by (apply Rmult_le_pos; [lra|apply Rlt_le, Rinv_0_lt_compat; lra]).
  split; [now apply Int_part_nonneg|]. unfold fmod. destruct (Rle_dec 0 (x / y)); [|lra]. split; [ring|].
  pose proof (Int_part_bound (x / y)) as B. assert (E : x = x / y * y) by (field; lra). nra.
Qed.
