(** * Ghost zones of the potential: values, uniqueness, decomposition *)
From Coq Require Import ZArith List Bool Lia Reals.
From Verif Require Import Loop BvalsModel BvalsSpec BvalsProofs BvalsMsg BvalsParModel BvalsParProps BvalsLenProps PhiModel PhiSpec PhiProps.
Import ListNotations.
Open Scope Z_scope.

Section Phi.
Context {F : Type} (ext3 : F -> F -> F -> F).
(** A row continued [n] cells outwards; [u 0] is the outermost cell, [u 1] the next one. *)
Definition ostep (p : F * F * F) : F * F * F := match p with (a, b, c) => (ext3 a b c, a, b) end.
Fixpoint oiter (n : nat) (p : F * F * F) : F * F * F := match n with O => p | S m => ostep (oiter m p) end.
Definition openv (u : nat -> F) (n : nat) : F := fst (fst (oiter n (u 0%nat, u 1%nat, u 2%nat))).
Lemma openv_ext : forall u v n, (forall k, (k < 3)%nat -> u k = v k) -> openv u n = openv v n.
Proof. intros u v n H. unfold openv. rewrite !H by lia. reflexivity. Qed.
Lemma iter_open : forall u n, oiter n (u 0%nat, u 1%nat, u 2%nat) =
  (openv u n, match n with O => u 1%nat | S m => openv u m end, match n with O => u 2%nat | S O => u 1%nat | S (S m) => openv u m end).
Proof.
  intros u n. induction n as [|n IH]; [reflexivity|]. unfold openv at 1. cbn [oiter]. rewrite IH. cbn [ostep fst]. destruct n; reflexivity.
Qed.
Lemma openv_S : forall u n, openv u (S n) = ext3 (openv u n) (match n with O => u 1%nat | S m => openv u m end) (match n with O => u 2%nat | S O => u 1%nat | S (S m) => openv u m end).
Proof. intros u n. unfold openv at 1. cbn [oiter]. rewrite iter_open. reflexivity. Qed.

Definition rowv (b : gbc) (right : bool) (G : geom) (a : axis) (p : Z -> F) (x : Z) : F :=
  let s := fst_ G a in let e := lst_ G a in let N := g_N G a in
  match b with
  | GRefl => p (if right then 2 * e + 1 - x else 2 * s - 1 - x)
  | GPeri => p (if right then x - N else x + N)
  | GOpen => if right then openv (fun k => p (e - Z.of_nat k)) (Z.to_nat (x - e)) else openv (fun k => p (s + Z.of_nat k)) (Z.to_nat (s - x))
  end.
Lemma rowv_ext : forall b right G a p q x, (forall y, p y = q y) -> rowv b right G a p x = rowv b right G a q x.
Proof. intros b right G a p q x H. destruct b, right; cbn [rowv]; auto; apply openv_ext; auto. Qed.
Lemma gbox_a : forall right G a c, gbox right G a c = true -> bx Peri right G Cell a a (co a c) = true.
Proof. intros right G a c H. apply gbox_true in H. destruct a; tauto. Qed.
Lemma bx_aa : forall right G a x, bx Peri right G Cell a a x = if right then rng (lst_ G a + 1) (lst_ G a + g_ng G) x else rng (fst_ G a - g_ng G) (fst_ G a - 1) x.
Proof. intros right G a x. unfold bx. rewrite axis_eqb_refl. cbn [normal andb btoz]. rewrite !Z.add_0_r. reflexivity. Qed.
Lemma gbox_upd : forall right G a c y, gbox right G a c = true -> bx Peri right G Cell a a y = true -> gbox right G a (upd a c y) = true.
Proof.
  intros right G a c y H K. apply gbox_true in H. apply gbox_true. destruct H as (H1 & H2 & H3).
  destruct a, c as [[k j] i]; cbn [upd co] in *; auto.
Qed.
Lemma not_in_box : forall b right a G, geom_ok G -> 1 < g_N G a -> forall c, gbox right G a c = false -> ~ In c (map fst (gbc_fun b a right G)).
Proof. intros b right a G OK N c H I. apply in_map_iff in I. destruct I as ((t, e) & E & I). cbn [fst] in E. subst t. destruct (loop1 b right a G OK N c e I). congruence. Qed.
Lemma out_row : forall right G a c y, bx Peri right G Cell a a y = false -> gbox right G a (upd a c y) = false.
Proof. intros right G a c y H. destruct (gbox right G a (upd a c y)) eqn:E; auto. apply gbox_a in E. rewrite co_upd in E. congruence. Qed.

(** One boundary function. *)
Lemma side_val : forall b right a G (A : arr F) c, geom_ok G -> 1 < g_N G a -> (b = GOpen -> 3 <= g_N G a) ->
  grun ext3 (gbc_fun b a right G) A c = if gbox right G a c then rowv b right G a (fun y => A (upd a c y)) (co a c) else A c.
Proof.
  intros b right a G A c OK N N3. set (R := grun ext3 (gbc_fun b a right G) A).
  assert (OUT : forall d, gbox right G a d = false -> R d = A d) by (intros d H; apply grun_out, not_in_box; auto).
  assert (INN : forall d, gbox right G a d = true -> R d = geval ext3 R (gexp b a right G d)).
  { intros d H. apply grun_in; [apply loop_ordered; auto|apply loop2; auto]. }
  assert (EQ : lst_ G a - fst_ G a + 1 = g_N G a) by (unfold lst_, fst_; destruct (Z.gtb_spec (g_N G a) 1); lia).
  assert (NG : g_ng G <= g_N G a /\ 1 <= g_ng G) by (destruct OK as (Q1 & Q2 & Q3); destruct (Q3 a); lia).
  destruct (gbox right G a c) eqn:B; [|apply OUT; auto].
  assert (OUTR : forall y, bx Peri right G Cell a a y = false -> R (upd a c y) = A (upd a c y)) by (intros y H; apply OUT, out_row, H).
  assert (C := gbox_a _ _ _ _ B). rewrite bx_aa in C.
  destruct b.
  - rewrite INN by auto. cbn [gexp geval rowv]. apply OUTR. rewrite bx_aa. destruct right; apply rng_spec in C; apply rng_false; lia.
  - rewrite INN by auto. cbn [gexp geval rowv]. apply OUTR. rewrite bx_aa. destruct right; apply rng_spec in C; apply rng_false; lia.
  - specialize (N3 eq_refl). destruct right; apply rng_spec in C.
    + set (u := fun k => A (upd a c (lst_ G a - Z.of_nat k))).
      assert (K : forall m n, (n <= m)%nat -> Z.of_nat n <= g_ng G -> R (upd a c (lst_ G a + Z.of_nat n)) = openv u n).
      { induction m as [|m IH]; intros n Hn Hg.
        - assert (n = 0%nat) as -> by lia. unfold openv, u. cbn [oiter fst Z.of_nat]. rewrite Z.add_0_r, Z.sub_0_r. apply OUTR. rewrite bx_aa. apply rng_false. lia.
        - destruct n as [|n]; [apply IH; lia|]. rewrite INN by (apply gbox_upd; auto; rewrite bx_aa; apply rng_spec; lia).
          cbn [gexp geval]. rewrite !upd_upd, co_upd, openv_S. f_equal.
          + rewrite <- IH by lia. f_equal. f_equal. lia.
          + destruct n as [|n]; [|rewrite <- IH by lia; f_equal; f_equal; lia].
            unfold u. rewrite OUTR by (rewrite bx_aa; apply rng_false; lia). f_equal. f_equal. lia.
          + destruct n as [|[|n]]; [| |rewrite <- IH by lia; f_equal; f_equal; lia];
            unfold u; rewrite OUTR by (rewrite bx_aa; apply rng_false; lia); f_equal; f_equal; lia. }
      cbn [rowv]. rewrite <- (K (Z.to_nat (co a c - lst_ G a))) by lia. rewrite Z2Nat.id by lia. f_equal. rewrite <- (upd_same a c) at 1. f_equal. lia.
    + set (u := fun k => A (upd a c (fst_ G a + Z.of_nat k))).
      assert (K : forall m n, (n <= m)%nat -> Z.of_nat n <= g_ng G -> R (upd a c (fst_ G a - Z.of_nat n)) = openv u n).
      { induction m as [|m IH]; intros n Hn Hg.
        - assert (n = 0%nat) as -> by lia. unfold openv, u. cbn [oiter fst Z.of_nat]. rewrite Z.add_0_r, Z.sub_0_r. apply OUTR. rewrite bx_aa. apply rng_false. lia.
        - destruct n as [|n]; [apply IH; lia|]. rewrite INN by (apply gbox_upd; auto; rewrite bx_aa; apply rng_spec; lia).
          cbn [gexp geval]. rewrite !upd_upd, co_upd, openv_S. f_equal.
          + rewrite <- IH by lia. f_equal. f_equal. lia.
          + destruct n as [|n]; [|rewrite <- IH by lia; f_equal; f_equal; lia].
            unfold u. rewrite OUTR by (rewrite bx_aa; apply rng_false; lia). f_equal. f_equal. lia.
          + destruct n as [|[|n]]; [| |rewrite <- IH by lia; f_equal; f_equal; lia];
            unfold u; rewrite OUTR by (rewrite bx_aa; apply rng_false; lia); f_equal; f_equal; lia. }
      cbn [rowv]. rewrite <- (K (Z.to_nat (fst_ G a - co a c))) by lia. rewrite Z2Nat.id by lia. f_equal. rewrite <- (upd_same a c) at 1. f_equal. lia.
Qed.

(** One axis; the cells with data before and after. *)
Definition axisv (bl br : axis -> gbc) (G : geom) (a : axis) (A : arr F) (c : idx) : F :=
  let p y := A (upd a c y) in let x := co a c in
  if g_N G a >? 1 then
    if x <? fst_ G a then rowv (bl a) false G a p x else if lst_ G a <? x then rowv (br a) true G a p x else A c
  else A c.
Lemma gbox_iff : forall right G a c, geom_ok G -> 1 < g_N G a -> step_dom G Cell a c ->
  gbox right G a c = (if right then lst_ G a <? co a c else co a c <? fst_ G a).
Proof.
  intros right G a c OK N S. unfold gbox. rewrite (box_iff Peri right G Cell a c OK S).
  assert (X := S a). rewrite axis_eqb_refl in X. cbn [orb] in X. unfold ext in X. rewrite (gt1 _ N) in X. cbn [normal btoz] in X. apply rng_spec in X.
  rewrite bx_aa. destruct right; [destruct (Z.ltb_spec (lst_ G a) (co a c))|destruct (Z.ltb_spec (co a c) (fst_ G a))]; first [apply rng_spec; lia|apply rng_false; lia].
Qed.
Lemma gaxis_step : forall bl br G a A c, geom_ok G -> open_ok bl br G -> step_dom G Cell a c ->
  gphys_axis ext3 bl br G a A c = axisv bl br G a A c.
Proof.
  intros bl br G a A c OK OP S. unfold gphys_axis, axisv. destruct (Z.gtb_spec (g_N G a) 1) as [N|N]; [|reflexivity].
  assert (O1 : bl a = GOpen -> 3 <= g_N G a) by (intros E; destruct (OP a (or_introl E)); lia).
  assert (O2 : br a = GOpen -> 3 <= g_N G a) by (intros E; destruct (OP a (or_intror E)); lia).
  assert (EQ : lst_ G a - fst_ G a + 1 = g_N G a) by (unfold lst_, fst_; destruct (Z.gtb_spec (g_N G a) 1); lia).
  rewrite side_val by auto. rewrite (gbox_iff true G a c OK N S).
  assert (L : forall d, gbox false G a d = false -> grun ext3 (gbc_fun (bl a) a false G) A d = A d) by (intros d H; rewrite side_val by auto; rewrite H; reflexivity).
  destruct (Z.ltb_spec (lst_ G a) (co a c)) as [R|R].
  - destruct (Z.ltb_spec (co a c) (fst_ G a)); [lia|].
    assert (NGG : g_ng G <= g_N G a /\ 1 <= g_ng G) by (destruct OK as (Q1 & Q2 & Q3); destruct (Q3 a); lia).
    assert (X := S a). rewrite axis_eqb_refl in X. cbn [orb] in X. unfold ext in X. rewrite (gt1 _ N) in X. cbn [normal btoz] in X. apply rng_spec in X.
    assert (LL : forall y, fst_ G a <= y -> grun ext3 (gbc_fun (bl a) a false G) A (upd a c y) = A (upd a c y)) by (intros y Hy; apply L, out_row; rewrite bx_aa; apply rng_false; lia).
    unfold rowv. destruct (br a); try (apply LL; lia). apply openv_ext. intros k Hk. specialize (O2 eq_refl). apply LL. lia.
  - rewrite side_val by auto. rewrite (gbox_iff false G a c OK N S). reflexivity.
Qed.
End Phi.
