(** * Facts about the string and decimal helpers of CStr.v *)
From Coq Require Import String Ascii NArith ZArith Lia Bool Arith List.
From Verif Require Import CStr.
Import ListNotations.

Lemma str_eqb_eq : forall a b, str_eqb a b = true <-> a = b.
Proof.
  induction a as [|x a IH]; intros [|y b]; simpl; try (split; congruence).
  rewrite andb_true_iff, Ascii.eqb_eq, IH. split.
  - intros [-> ->]; reflexivity.
  - intros H; inversion H; auto.
Qed.

Lemma str_eqb_refl : forall a, str_eqb a a = true.
Proof. intros; apply str_eqb_eq; reflexivity. Qed.

Lemma str_eqb_neq : forall a b, str_eqb a b = false <-> a <> b.
Proof.
  intros a b. rewrite <- not_true_iff_false, str_eqb_eq. reflexivity.
Qed.

Lemma str_eqb_spec : forall a b, reflect (a = b) (str_eqb a b).
Proof.
  intros a b. destruct (str_eqb a b) eqn:E; constructor.
  - apply str_eqb_eq; auto.
  - apply str_eqb_neq; auto.
Qed.

Lemma str_eq_dec : forall a b : str, {a = b} + {a <> b}.
Proof. intros; apply list_eq_dec, ascii_dec. Defined.

Lemma prefixb_app : forall b a, prefixb b (b ++ a) = true.
Proof.
  induction b as [|x b IH]; simpl; intros; auto.
  rewrite Ascii.eqb_refl; simpl; auto.
Qed.

Lemma prefixb_spec : forall b a, prefixb b a = true <-> exists r, a = b ++ r.
Proof.
  induction b as [|x b IH]; simpl; intros a.
  - split; eauto.
  - destruct a as [|y a].
    + split; [congruence|]. intros [r H]; discriminate.
    + rewrite andb_true_iff, Ascii.eqb_eq, IH. split.
      * intros [-> [r ->]]; eauto.
      * intros [r H]; inversion H; subst; eauto.
Qed.

(** ** Buffers *)

Lemma rd_app : forall a c r, rd (a ++ c :: r) (List.length a) = Ok c.
Proof.
  intros. unfold rd. rewrite nth_error_app2 by lia.
  rewrite Nat.sub_diag. reflexivity.
Qed.

Lemma wr_app : forall a c r x, wr (a ++ c :: r) (List.length a) x = Ok (a ++ x :: r).
Proof.
  intros. unfold wr. rewrite app_length; simpl List.length.
  destruct (Nat.ltb_spec (List.length a) (List.length a + S (List.length r))); [|lia].
  rewrite firstn_app, firstn_all, Nat.sub_diag, firstn_O, app_nil_r.
  f_equal. f_equal. f_equal. clear H.
  induction a as [|y a IH]; [reflexivity|]. exact IH.
Qed.

Lemma skipn_len_app : forall (A : Type) (a r : list A), skipn (List.length a) (a ++ r) = r.
Proof. intros. rewrite skipn_app, skipn_all, Nat.sub_diag, skipn_O. reflexivity. Qed.

Lemma rd_total : forall b i, (i < List.length b)%nat -> exists c, rd b i = Ok c /\ nth_error b i = Some c.
Proof.
  intros b i H. unfold rd. destruct (nth_error b i) eqn:E; eauto.
  apply nth_error_None in E; lia.
Qed.

Lemma nth_error_app_len : forall (A : Type) (a : list A) x r,
  nth_error (a ++ x :: r) (List.length a) = Some x.
Proof. intros. rewrite nth_error_app2, Nat.sub_diag by lia. reflexivity. Qed.

Lemma nth_error_app_other : forall (A : Type) (a : list A) x y r j, j <> List.length a ->
  nth_error (a ++ x :: r) j = nth_error (a ++ y :: r) j.
Proof.
  intros A a x y r j H. destruct (Nat.lt_ge_cases j (List.length a)).
  - rewrite !nth_error_app1 by lia. reflexivity.
  - rewrite !nth_error_app2 by lia.
    destruct (j - List.length a)%nat eqn:E; [lia|]. reflexivity.
Qed.

Lemma wr_total : forall b i c, (i < List.length b)%nat ->
  exists b', wr b i c = Ok b' /\ List.length b' = List.length b /\
    nth_error b' i = Some c /\ (forall j, j <> i -> nth_error b' j = nth_error b j).
Proof.
  intros b i c H.
  destruct (rd_total b i H) as (x & _ & Ex).
  destruct (nth_error_split b i Ex) as (a & r & E & L). subst b i.
  exists (a ++ c :: r). rewrite wr_app. split; [reflexivity|].
  rewrite !app_length; simpl. split; [reflexivity|].
  rewrite nth_error_app_len. split; [reflexivity|].
  intros; apply nth_error_app_other; auto.
Qed.

Lemma cstr_at_app : forall a s r, ~ In NUL s ->
  cstr_at (a ++ s ++ NUL :: r) (List.length a) = Ok s.
Proof.
  intros a s r H. unfold cstr_at. rewrite skipn_len_app.
  induction s as [|c s IH]; simpl.
  - reflexivity.
  - destruct (Ascii.eqb_spec c NUL) as [E|E].
    + exfalso; apply H; left; auto.
    + rewrite IH; [reflexivity|]. intro; apply H; right; auto.
Qed.

Lemma until_nul_total : forall l, In NUL l -> exists s, until_nul l = Ok s.
Proof.
  induction l as [|c l IH]; simpl; [tauto|].
  destruct (Ascii.eqb_spec c NUL) as [E|E]; eauto.
  intros [H|H]; [congruence|]. destruct (IH H) as (s & ->). simpl; eauto.
Qed.

Lemma until_nul_nonul : forall l s, until_nul l = Ok s -> ~ In NUL s.
Proof.
  induction l as [|c l IH]; simpl; intros s H; [discriminate|].
  destruct (Ascii.eqb_spec c NUL) as [E|E].
  - inversion H; subst; auto.
  - destruct (until_nul l) as [s'| |] eqn:E'; simpl in H; try discriminate.
    inversion H; subst. simpl. intros [C|C]; [congruence|]. eapply IH; eauto.
Qed.

Lemma cstr_at_nonul : forall b i s, cstr_at b i = Ok s -> ~ In NUL s.
Proof. intros b i s H; eapply until_nul_nonul; eauto. Qed.

(** ** Decimal numbers *)

Lemma digit_char_N : forall d, (d < 10)%N -> N_of_ascii (digit_char d) = (48 + d)%N.
Proof.
  intros d H. unfold digit_char. rewrite N_ascii_embedding; lia.
Qed.

Lemma digit_char_isdigit : forall d, (d < 10)%N -> isdigit (digit_char d) = true.
Proof.
  intros d H. unfold isdigit. rewrite digit_char_N by assumption.
  apply andb_true_iff; split; apply N.leb_le; lia.
Qed.

Lemma digits_fuel_value : forall f n acc, (n < 2 ^ N.of_nat f)%N -> (0 < f)%nat ->
  atoi_digits (digits_fuel f n acc) 0 = atoi_digits acc (Z.of_N n).
Proof.
  induction f as [|f IH]; intros n acc Hn Hf; [lia|].
  simpl. destruct (N.ltb_spec n 10) as [H|H].
  - simpl. rewrite digit_char_isdigit, digit_char_N by assumption. f_equal. lia.
  - assert (Hmod : (n mod 10 < 10)%N) by (apply N.mod_lt; lia).
    assert (Hdm := N.div_mod' n 10).
    destruct f as [|f']; [simpl in Hn; lia|].
    rewrite Nat2N.inj_succ, N.pow_succ_r' in Hn.
    remember (2 ^ N.of_nat (S f'))%N as X eqn:EX. clear EX.
    remember (n / 10)%N as q eqn:Eq. remember (n mod 10)%N as m eqn:Em. clear Eq Em.
    rewrite IH; [|lia|lia].
    simpl. rewrite digit_char_isdigit, digit_char_N by assumption. f_equal. lia.
Qed.

Lemma pos_size_nat_bound : forall p, (N.pos p < 2 ^ N.of_nat (Pos.size_nat p))%N.
Proof.
  induction p as [p IH|p IH|]; simpl Pos.size_nat;
    rewrite ?Nat2N.inj_succ, ?N.pow_succ_r'; try lia.
Qed.

Lemma size_nat_bound : forall n, (n < 2 ^ N.of_nat (S (N.size_nat n)))%N.
Proof.
  intros [|p]; [simpl; lia|]. simpl N.size_nat.
  rewrite Nat2N.inj_succ, N.pow_succ_r'. assert (H := pos_size_nat_bound p). lia.
Qed.

Lemma atoi_digits_dec_N : forall n, atoi_digits (dec_N n) 0 = Z.of_N n.
Proof.
  intros n. unfold dec_N. rewrite digits_fuel_value; [reflexivity|apply size_nat_bound|lia].
Qed.

Lemma digits_fuel_digits : forall f n acc,
  Forall (fun c => isdigit c = true) acc -> Forall (fun c => isdigit c = true) (digits_fuel f n acc).
Proof.
  induction f as [|f IH]; simpl; intros n acc H; auto.
  destruct (N.ltb_spec n 10).
  - constructor; auto. apply digit_char_isdigit; auto.
  - apply IH. constructor; auto. apply digit_char_isdigit. apply N.mod_lt; lia.
Qed.

Lemma dec_N_digits : forall n, Forall (fun c => isdigit c = true) (dec_N n).
Proof. intros; apply digits_fuel_digits; constructor. Qed.

Lemma digits_fuel_len : forall f n acc, (List.length acc <= List.length (digits_fuel f n acc))%nat.
Proof.
  induction f as [|f IH]; simpl; intros n acc; auto.
  destruct (N.ltb_spec n 10); simpl; [lia|].
  specialize (IH (n / 10)%N (digit_char (n mod 10) :: acc)). simpl in IH. lia.
Qed.

Lemma dec_N_nonempty : forall n, dec_N n <> [].
Proof.
  intros n H. unfold dec_N in H. simpl in H.
  destruct (N.ltb_spec n 10); [discriminate|].
  assert (L := digits_fuel_len (N.size_nat n) (n / 10)%N [digit_char (n mod 10)]).
  rewrite H in L; simpl in L; lia.
Qed.

Lemma digit_not_space : forall c, isdigit c = true -> isspace c = false.
Proof.
  intros c H. unfold isdigit in H. unfold isspace.
  apply andb_true_iff in H. destruct H as [H1 H2].
  apply N.leb_le in H1, H2.
  assert (E : nat_of_ascii c = N.to_nat (N_of_ascii c)) by reflexivity.
  rewrite E. apply orb_false_iff; split.
  - apply Nat.eqb_neq; lia.
  - apply andb_false_iff. right. apply Nat.leb_gt. lia.
Qed.

Theorem atoi_dec_Z : forall z, atoi (dec_Z z) = z.
Proof.
  assert (P : forall n, atoi (dec_N n) = Z.of_N n).
  { intros n. assert (D := dec_N_digits n). assert (NE := dec_N_nonempty n).
    rewrite <- (atoi_digits_dec_N n). unfold atoi.
    destruct (dec_N n) as [|c l]; [congruence|].
    inversion D; subst. simpl skip_space. rewrite digit_not_space by assumption.
    destruct (Ascii.eqb_spec c "-"%char) as [->|_]; [vm_compute in H1; discriminate|].
    destruct (Ascii.eqb_spec c "+"%char) as [->|_]; [vm_compute in H1; discriminate|].
    reflexivity. }
  intros [|p|p]; simpl.
  - rewrite P; reflexivity.
  - rewrite P; reflexivity.
  - change (atoi ("-"%char :: dec_N (N.pos p))) with (Z.opp (atoi_digits (dec_N (N.pos p)) 0)).
    rewrite atoi_digits_dec_N. reflexivity.
Qed.

Lemma dec_Z_inj : forall x y, dec_Z x = dec_Z y -> x = y.
Proof. intros x y H. rewrite <- (atoi_dec_Z x), <- (atoi_dec_Z y), H. reflexivity. Qed.

Lemma atoi_digits_zeros : forall k l, atoi_digits (repeat "0"%char k ++ l) 0 = atoi_digits l 0.
Proof. induction k; simpl; auto. Qed.

Lemma dec_pad_value : forall w n, atoi_digits (dec_pad w n) 0 = Z.of_N n.
Proof. intros. unfold dec_pad. rewrite atoi_digits_zeros. apply atoi_digits_dec_N. Qed.

Lemma dec_pad_inj : forall w n m, dec_pad w n = dec_pad w m -> n = m.
Proof.
  intros w n m H. apply N2Z.inj. rewrite <- (dec_pad_value w n), <- (dec_pad_value w m), H. reflexivity.
Qed.

Lemma dec_pad_length : forall w n,
  List.length (dec_pad w n) = Nat.max w (List.length (dec_N n)).
Proof. intros. unfold dec_pad. rewrite app_length, repeat_length. lia. Qed.

Lemma dec_pad_digits : forall w n, Forall (fun c => isdigit c = true) (dec_pad w n).
Proof.
  intros. unfold dec_pad. apply Forall_app; split; [|apply dec_N_digits].
  apply Forall_forall. intros x Hx. apply repeat_spec in Hx; subst; reflexivity.
Qed.

(** A number below [10^k] has at most [max 1 k] digits. *)
Lemma digits_fuel_length : forall k f n acc, (n < 10 ^ N.of_nat k)%N ->
  (List.length (digits_fuel f n acc) <= Nat.max 1 k + List.length acc)%nat.
Proof.
  induction k as [|k IH]; intros f n acc H.
  - simpl in H. assert (n = 0)%N by lia. subst. destruct f; simpl; lia.
  - destruct f as [|f]; simpl; [lia|].
    destruct (N.ltb_spec n 10) as [L|L]; [simpl; lia|].
    rewrite Nat2N.inj_succ, N.pow_succ_r' in H.
    assert (Q : (n / 10 < 10 ^ N.of_nat k)%N) by (apply N.div_lt_upper_bound; lia).
    specialize (IH f (n / 10)%N (digit_char (n mod 10) :: acc) Q). simpl in IH.
    destruct k; [|lia]. simpl in H. lia.
Qed.

Lemma dec_N_length : forall k n, (n < 10 ^ N.of_nat k)%N ->
  (List.length (dec_N n) <= Nat.max 1 k)%nat.
Proof. intros k n H. unfold dec_N. 
  assert (L := digits_fuel_length k (S (N.size_nat n)) n [] H). simpl List.length at 2 in L. lia. Qed.

Global Arguments prefixb : simpl never.
Global Arguments S_ : simpl never.
Global Arguments Ascii.eqb : simpl never.
Global Arguments isspace : simpl never.
