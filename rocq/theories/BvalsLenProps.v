(** C54: the number of words in a ghost-zone message. *)
From Coq Require Import ZArith List Bool Lia.
From Verif Require Import Loop BvalsModel BvalsSpec BvalsProofs BvalsMsg.
Import ListNotations.
Open Scope Z_scope.

(** Dimensions are filled in order: x3 is used only if x2 is (src/init_mesh.c:148-160). *)
Definition dims_ordered (G : geom) : Prop := 1 < g_N G A3 -> 1 < g_N G A2.
Lemma len_cells : forall F (f : @fields F) n L, wellformed n f ->
  Z.of_nat (length (flat_map (fun c => words (fU f c)) L)) = Z.of_nat (length L) * (8 + Z.of_nat n).
Proof.
  intros F f n L W. induction L as [|c L IH]; [reflexivity|]. cbn [flat_map length]. rewrite app_length, Nat2Z.inj_add, IH.
  unfold words. rewrite app_length, W. cbn [length]. lia.
Qed.
Lemma len3 : forall a b c d e f (g : Z -> Z -> Z -> idx), a <= b + 1 -> c <= d + 1 -> e <= f + 1 ->
  Z.of_nat (length (for_ a b (fun k => for_ c d (fun j => for_ e f (fun i => [g k j i]))))) = (b - a + 1) * ((d - c + 1) * (f - e + 1)).
Proof.
  intros. apply length_for; auto. intros. apply length_for; auto. intros. rewrite (length_for _ e f _ 1); auto. lia.
Qed.

Section Len.
Context {F : Type}.
Lemma len_pack : forall n (v : visit) (f : @fields F), wellformed n f ->
  Z.of_nat (length (pack v f)) = Z.of_nat (length (vU v)) * (8 + Z.of_nat n) + Z.of_nat (length (vB1 v)) + Z.of_nat (length (vB2 v)) + Z.of_nat (length (vB3 v)).
Proof. intros n v f W. unfold pack. rewrite !app_length, !map_length, !Nat2Z.inj_add, (len_cells _ _ n) by auto. lia. Qed.

Definition side_of (right : bool) (a : axis) : geom -> visit := if right then send_r a else send_l a.
(** C54: a message has exactly the number of words announced to MPI ... *)
Theorem C54_message_length : forall n right a G (f : @fields F), geom_ok G -> dims_ordered G -> 1 < g_N G a -> wellformed n f ->
  Z.of_nat (length (pack (side_of right a G) f)) = cnt (8 + Z.of_nat n) G a.
Proof.
  intros n right a G f (Hng & HN1 & HN) DO N W. rewrite (len_pack n) by auto.
  assert (N2 := HN A2). assert (N3 := HN A3). unfold dims_ordered in DO. cbn [g_N] in *.
  assert (E1 : (g_N1 G >? 1) = true) by (rewrite Z.gtb_ltb; apply Z.ltb_lt; lia).
  assert (C : (g_N2 G = 1 /\ g_N3 G = 1 /\ (g_N2 G >? 1) = false /\ (g_N3 G >? 1) = false) \/ (1 < g_N2 G /\ g_N3 G = 1 /\ (g_N2 G >? 1) = true /\ (g_N3 G >? 1) = false) \/
    (1 < g_N2 G /\ 1 < g_N3 G /\ (g_N2 G >? 1) = true /\ (g_N3 G >? 1) = true)).
  { rewrite !Z.gtb_ltb. destruct (Z.ltb_spec 1 (g_N2 G)), (Z.ltb_spec 1 (g_N3 G)); lia. }
  set (s := Z.of_nat n). unfold side_of, send_r, send_l, cnt.
  destruct right, a; cbn [g_N] in N; unfold pack_ix1, pack_ox1, pack_ix2, pack_ox2, pack_ix3, pack_ox3, g_is, g_ie, g_js, g_je, g_ks, g_ke; cbn [vU vB1 vB2 vB3];
    destruct C as [(Q2 & Q3 & K2 & K3)|[(Q2 & Q3 & K2 & K3)|(Q2 & Q3 & K2 & K3)]]; rewrite ?E1, ?K2, ?K3; try lia;
    rewrite !len3 by lia; rewrite ?Q2, ?Q3; ring.
Qed.
(** ... the receiver expects the same number, and ... *)
Theorem C54_same_count : forall nvar a G H, beside a G H -> cnt nvar G a = cnt nvar H a.
Proof.
  intros nvar a G H (E & EN & _ & _). unfold cnt. rewrite E.
  assert (Q1 := EN A1). assert (Q2 := EN A2). assert (Q3 := EN A3). cbn [g_N] in *.
  destruct a; [rewrite Q2, Q3 by discriminate|rewrite Q1, Q3 by discriminate|rewrite Q1, Q2 by discriminate]; reflexivity.
Qed.
(** ... it fits in the buffers. *)
Lemma max_ge : forall l m G, m <= fold_left (fun m a => Z.max m (area G a)) l m.
Proof. induction l as [|a l IH]; intros m G; cbn [fold_left]; [lia|]. etransitivity; [|apply IH]. lia. Qed.
Lemma max_in : forall l m G a, In a l -> area G a <= fold_left (fun m a => Z.max m (area G a)) l m.
Proof.
  induction l as [|b l IH]; intros m G a I; [destruct I|]. cbn [fold_left]. destruct I as [->|I]; [|apply IH; auto].
  etransitivity; [|apply max_ge]. lia.
Qed.
Lemma maxs_ge : forall gs m, m <= fold_left (fun m (G : geom * list axis) => fold_left (fun m a => Z.max m (area (fst G) a)) (snd G) m) gs m.
Proof. induction gs as [|G gs IH]; intros m; cbn [fold_left]; [lia|]. etransitivity; [|apply IH]. apply max_ge. Qed.
Lemma maxs_in : forall gs m G a, In G gs -> In a (snd G) ->
  area (fst G) a <= fold_left (fun m (G : geom * list axis) => fold_left (fun m a => Z.max m (area (fst G) a)) (snd G) m) gs m.
Proof.
  induction gs as [|H gs IH]; intros m G a I J; [destruct I|]. cbn [fold_left]. destruct I as [->|I]; [|apply IH; auto].
  etransitivity; [|apply maxs_ge]. apply max_in. auto.
Qed.
Theorem C54_buffer_size : forall nvar gs G axes a, 0 <= nvar -> In (G, axes) gs -> In a axes -> geom_ok G -> dims_ordered G -> 1 < g_N G a ->
  cnt nvar G a <= buf_size nvar (g_ng G) gs.
Proof.
  intros nvar gs G axes a Hv I J (Hng & HN1 & HN) DO N. unfold buf_size.
  assert (M := maxs_in gs 0 (G, axes) a I J). cbn [fst] in M. set (big := fold_left _ gs 0) in *.
  assert (K : cnt nvar G a <= area G a * (g_ng G * (nvar + 3))).
  { clear M big I J. assert (N2 := HN A2). assert (N3 := HN A3). unfold dims_ordered in DO. cbn [g_N] in *.
    unfold cnt, area. assert (E1 : (g_N1 G >? 1) = true) by (rewrite Z.gtb_ltb; apply Z.ltb_lt; lia). rewrite E1.
    assert (P2 : (if g_N2 G >? 1 then g_N2 G + 1 else 1) = (if g_N2 G >? 1 then g_N2 G + 1 else g_N2 G)) by (rewrite Z.gtb_ltb; destruct (Z.ltb_spec 1 (g_N2 G)); lia).
    assert (P3 : (if g_N3 G >? 1 then g_N3 G + 1 else 1) = (if g_N3 G >? 1 then g_N3 G + 1 else g_N3 G)) by (rewrite Z.gtb_ltb; destruct (Z.ltb_spec 1 (g_N3 G)); lia).
    rewrite P2, P3. clear P2 P3.
    set (u2 := if g_N2 G >? 1 then g_N2 G + 1 else g_N2 G). set (u3 := if g_N3 G >? 1 then g_N3 G + 1 else g_N3 G).
    assert (U2 : g_N2 G <= u2 /\ 1 <= g_N2 G) by (unfold u2; destruct (g_N2 G >? 1); lia).
    assert (U3 : g_N3 G <= u3 /\ 1 <= g_N3 G) by (unfold u3; destruct (g_N3 G >? 1); lia).
    set (ng := g_ng G) in *. set (N1 := g_N1 G) in *. set (n2 := g_N2 G) in *. set (n3 := g_N3 G) in *.
    assert (MM : forall x y x' y', 0 <= x <= x' -> 0 <= y <= y' -> 0 <= x * y <= x' * y') by (intros; nia).
    destruct a; cbn [g_N] in N.
    - assert (H1 := MM n2 n3 u2 u3 ltac:(lia) ltac:(lia)). assert (H2 := MM u2 n3 u2 u3 ltac:(lia) ltac:(lia)). assert (H3 := MM n2 u3 u2 u3 ltac:(lia) ltac:(lia)).
      set (A := u2 * u3) in *. 
      assert (G1 := MM (n2 * n3) (ng * nvar) A (ng * nvar) ltac:(lia) ltac:(nia)).
      assert (G2 := MM (n2 * n3) (ng - 1) A ng ltac:(lia) ltac:(lia)).
      assert (G3 := MM (u2 * n3) ng A ng ltac:(lia) ltac:(lia)). assert (G4 := MM (n2 * u3) ng A ng ltac:(lia) ltac:(lia)).
      replace (A * (ng * (nvar + 3))) with (A * (ng * nvar) + A * ng + A * ng + A * ng) by ring.
      replace (ng * n2 * n3 * nvar + (ng - 1) * n2 * n3 + ng * u2 * n3 + ng * n2 * u3) with
        (n2 * n3 * (ng * nvar) + n2 * n3 * (ng - 1) + u2 * n3 * ng + n2 * u3 * ng) by ring. lia.
    - set (L := N1 + 2 * ng) in *. assert (HL : 1 <= L) by (unfold L; lia).
      assert (H1 := MM L n3 L u3 ltac:(lia) ltac:(lia)). set (A := L * u3) in *.
      assert (H2 := MM (L - 1) n3 L u3 ltac:(lia) ltac:(lia)).
      assert (G1 := MM (L * n3) (ng * nvar) A (ng * nvar) ltac:(lia) ltac:(nia)).
      assert (G2 := MM ((L - 1) * n3) ng A ng ltac:(lia) ltac:(lia)).
      assert (G3 := MM (L * n3) (ng - 1) A ng ltac:(lia) ltac:(lia)).
      replace (A * (ng * (nvar + 3))) with (A * (ng * nvar) + A * ng + A * ng + A * ng) by ring.
      replace (L * ng * n3 * nvar + (L - 1) * ng * n3 + L * (ng - 1) * n3 + L * ng * u3) with
        (L * n3 * (ng * nvar) + (L - 1) * n3 * ng + L * n3 * (ng - 1) + A * ng) by (unfold A; ring). lia.
    - assert (E2 : (n2 >? 1) = true) by (rewrite Z.gtb_ltb; apply Z.ltb_lt; lia). rewrite E2.
      set (L := N1 + 2 * ng) in *. set (M := n2 + 2 * ng) in *. assert (HL : 1 <= L /\ 1 <= M) by (unfold L, M; lia).
      set (A := L * M) in *. assert (H0 : 0 <= A) by (unfold A; nia).
      assert (H1 := MM (L - 1) M L M ltac:(lia) ltac:(lia)). assert (H2 := MM L (M - 1) L M ltac:(lia) ltac:(lia)). fold A in H1, H2.
      assert (G1 := MM ((L - 1) * M) ng A ng ltac:(lia) ltac:(lia)). assert (G2 := MM (L * (M - 1)) ng A ng ltac:(lia) ltac:(lia)).
      assert (G3 := MM A (ng - 1) A ng ltac:(lia) ltac:(lia)).
      replace (A * (ng * (nvar + 3))) with (A * (ng * nvar) + A * ng + A * ng + A * ng) by ring.
      replace (L * M * ng * nvar + (L - 1) * M * ng + L * (M - 1) * ng + L * M * (ng - 1)) with
        (A * (ng * nvar) + (L - 1) * M * ng + L * (M - 1) * ng + A * (ng - 1)) by (unfold A; ring). lia. }
  etransitivity; [exact K|]. apply Z.mul_le_mono_nonneg_r; [|exact M]. apply Z.mul_nonneg_nonneg; lia.
Qed.
End Len.
Print Assumptions C54_message_length.
Print Assumptions C54_same_count.
Print Assumptions C54_buffer_size.

Example C54_example : let G := Geom 4 16 12 8 in geom_ok G /\ dims_ordered G /\
  cnt 8 G A3 = (24 * 20 * 4 * 8 + 23 * 20 * 4 + 24 * 19 * 4 + 24 * 20 * 3) /\ buf_size 8 4 [(G, [A1; A3])] = 24 * 20 * 44.
Proof. split; [|split; [|split; reflexivity]]. - split; [cbn; lia|]. split; [cbn; lia|]. intros []; cbn; lia. - intros _. cbn. lia. Qed.
