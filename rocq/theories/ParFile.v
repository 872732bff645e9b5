(** * C05, C07: whole input files *)
From Coq Require Import String Ascii NArith ZArith Bool Arith Lia List.
From Verif Require Import CStr CStrFacts ParModel ParSpec ParSafety ParDbProofs ParParse.
Import ListNotations.

(** ** Effect of one well-formed line *)

Definition apply_item (st : db * option str) (i : item) : db * option str :=
  let (d, bp) := st in
  match i with
  | IBlank _ | IComment _ _ => (d, bp)
  | IBlock _ _ n _ _ => (add_block d n, Some n)
  | IPar _ n _ _ v _ =>
      match bp with
      | Some b => (with_block d b (fun x => add_par x n v None), bp)
      | None => (d, bp)
      end
  | IParC _ n _ _ v _ _ c _ =>
      match bp with
      | Some b => (with_block d b (fun x => add_par x n v (match c with [] => None | _ => Some c end)), bp)
      | None => (d, bp)
      end
  end.
Definition needs_block (i : item) : bool :=
  match i with IPar _ _ _ _ _ _ | IParC _ _ _ _ _ _ _ _ _ => true | _ => false end.

Lemma skipwhite_app0 : forall w c r, spaces w -> isspace c = false ->
  skipwhite (w ++ c :: r) 0 = Ok (length w).
Proof. intros w c r W C. apply (skipwhite_app [] w c r); auto. Qed.

Lemma cstr_at_line : forall w s, ~ In NUL s -> cstr_at (w ++ s ++ [NUL]) (length w) = Ok s.
Proof. intros. apply (cstr_at_app w s []); auto. Qed.

Lemma notin_b : forall c s, existsb (Ascii.eqb c) s = false -> ~ In c s.
Proof.
  intros c s H HI. assert (existsb (Ascii.eqb c) s = true); [|congruence].
  apply existsb_exists. exists c. split; [assumption|apply Ascii.eqb_refl].
Qed.

Lemma isspace_LT : isspace chLT = false. Proof. reflexivity. Qed.
Lemma isspace_GT : isspace chGT = false. Proof. reflexivity. Qed.

Lemma line_block_name_app : forall w1 w2 n w3 r, spaces w2 -> spaces w3 ->
  field n -> ~ In chGT n ->
  exists buf', line_block_name (w1 ++ chLT :: w2 ++ n ++ w3 ++ chGT :: r) (length w1)
               = Ok (buf', length w1 + 1 + length w2) /\
          cstr_at buf' (length w1 + 1 + length w2) = Ok n.
Proof.
  intros w1 w2 n w3 r W2 W3 Fn NG.
  destruct (field_first n Fn) as (n0 & n1 & En & Sn0).
  destruct (field_last n Fn) as (na & nx & Enl & Snx).
  assert (NUn := field_nonul n Fn).
  set (buf := w1 ++ chLT :: w2 ++ n ++ w3 ++ chGT :: r).
  unfold line_block_name.
  assert (K1 : skipwhite buf (S (length w1)) = Ok (length w1 + 1 + length w2)).
  { unfold buf. rewrite En.
    replace (w1 ++ chLT :: w2 ++ (n0 :: n1) ++ w3 ++ chGT :: r)
      with ((w1 ++ [chLT]) ++ w2 ++ n0 :: (n1 ++ w3 ++ chGT :: r)) by lapp.
    replace (S (length w1)) with (length (w1 ++ [chLT])) by (rewrite app_length; simpl; lia).
    rewrite skipwhite_app by assumption. f_equal. rewrite app_length; simpl; lia. }
  rewrite K1; cbn [bind].
  set (h := w1 ++ chLT :: w2).
  assert (LH : length w1 + 1 + length w2 = length h) by (unfold h; rewrite app_length; simpl; lia).
  assert (EB : buf = h ++ (n ++ w3) ++ chGT :: r) by (unfold buf, h; lapp).
  rewrite LH, EB.
  rewrite find_stop_app; auto.
  2:{ rewrite in_app_iff. intros [H|H]; [auto|revert H; apply spaces_notin; auto]. }
  2:{ rewrite in_app_iff. intros [H|H]; [auto|revert H; apply spaces_notin; auto]. }
  cbn [bind].
  replace (h ++ (n ++ w3) ++ chGT :: r) with ((h ++ n ++ w3) ++ chGT :: r) by lapp.
  replace (length h + length (n ++ w3)) with (length (h ++ n ++ w3)) by (rewrite !app_length; lia).
  rewrite rd_app; cbn [bind]. rewrite Ascii.eqb_refl. cbn [negb].
  destruct (str_term_app (h ++ na) nx w3 chGT r Snx W3) as (w3' & L3 & _ & T & _).
  replace ((h ++ n ++ w3) ++ chGT :: r) with ((h ++ na) ++ nx :: w3 ++ chGT :: r)
    by (rewrite Enl; lapp).
  replace (length (h ++ n ++ w3)) with (length (h ++ na) + 1 + length w3)
    by (rewrite Enl, !app_length; simpl; lia).
  rewrite T; cbn [bind]. eexists; split; [reflexivity|].
  apply (cstr_at_pos _ _ h n (w3' ++ r)); auto. rewrite Enl; lapp.
Qed.

Lemma spaces_app : forall a b, spaces a -> spaces b -> spaces (a ++ b).
Proof. intros; apply Forall_app; auto. Qed.

(** [t] is what follows the line: its newline, or nothing at end of file. *)
Lemma par_line_item : forall i d bp t, item_ok i -> ~ is_end i -> spaces t ->
  (needs_block i = true -> bp <> None) ->
  par_line d bp ((print_item i ++ t) ++ [NUL]) = Ok (Some (apply_item (d, bp) i)).
Proof.
  intros i d bp t OK NEnd T NB.
  assert (NUt := spaces_notin t NUL T isspace_NUL).
  unfold par_line. destruct i as [w|w x|w1 w2 n w3 r|w1 n w2 w3 v w4|w1 n w2 w3 v w4 w5 c w6];
    cbn [print_item apply_item] in *.
  - rewrite skipwhite_app0; auto using isspace_NUL, spaces_app, all_space_spaces.
    cbn [bind]. rewrite rd_app; cbn [bind]. rewrite Ascii.eqb_refl. reflexivity.
  - destruct OK as [W P].
    replace (((w ++ chHASH :: x) ++ t) ++ [NUL]) with (w ++ chHASH :: x ++ t ++ [NUL]) by lapp.
    rewrite skipwhite_app0; auto using isspace_HASH, all_space_spaces.
    cbn [bind]. rewrite rd_app; cbn [bind].
    rewrite (proj2 (Ascii.eqb_neq chHASH NUL)) by discriminate.
    rewrite Ascii.eqb_refl. reflexivity.
  - destruct OK as (W1 & W2 & W3 & [Fn NG] & [P1 P2]).
    apply all_space_spaces in W1 as W1'. apply all_space_spaces in W2 as W2'.
    apply all_space_spaces in W3 as W3'.
    replace (((w1 ++ chLT :: w2 ++ n ++ w3 ++ chGT :: r) ++ t) ++ [NUL])
      with (w1 ++ (chLT :: w2 ++ n ++ w3 ++ chGT :: r ++ t) ++ [NUL]) by lapp.
    set (s := chLT :: w2 ++ n ++ w3 ++ chGT :: r ++ t).
    assert (NUs : ~ In NUL s).
    { unfold s. intros [H|H]; [discriminate|]. rewrite !in_app_iff in H. simpl in H.
      rewrite !in_app_iff in H. destruct H as [H|[H|[H|[H|[H|H]]]]].
      - revert H; apply spaces_notin; auto.
      - revert H; apply field_nonul; auto.
      - revert H; apply spaces_notin; auto.
      - discriminate.
      - auto.
      - auto. }
    assert (SK : skipwhite (w1 ++ s ++ [NUL]) 0 = Ok (length w1))
      by (apply skipwhite_app0; auto).
    rewrite SK; cbn [bind]. unfold s at 1. cbn [app]. rewrite rd_app; cbn [bind].
    rewrite (proj2 (Ascii.eqb_neq chLT NUL)) by discriminate.
    rewrite (proj2 (Ascii.eqb_neq chLT chHASH)) by discriminate.
    rewrite cstr_at_line by assumption. cbn [bind].
    assert (NP : prefixb PAR_END s = false).
    { destruct (prefixb PAR_END s) eqn:E; [|reflexivity]. exfalso.
      apply prefixb_spec in E. destruct E as [q E]. apply NEnd.
      unfold s in E. apply (f_equal (@tl ascii)) in E. cbn [tl] in E.
      change (PAR_END ++ q) with (chLT :: S_ "par_end" ++ chGT :: q) in E. cbn [tl] in E.
      assert (w2 = []).
      { destruct w2 as [|y w2]; [reflexivity|]. exfalso.
        inversion W2' as [|? ? Hy _]; subst. cbn in E. injection E as E _. subst y. discriminate. }
      subst w2. cbn [app] in E.
      assert (E3 : forall a b (x y : str), ~ In chGT a -> ~ In chGT b ->
                 a ++ chGT :: x = b ++ chGT :: y -> a = b).
      { induction a as [|a0 a IHa]; intros b x y Na Nb Ex.
        - destruct b as [|b0 b]; [reflexivity|]. injection Ex as Ex _. exfalso; apply Nb; left; auto.
        - destruct b as [|b0 b].
          + injection Ex as Ex _. exfalso; apply Na; left; auto.
          + injection Ex as Ex1 Ex2. subst. f_equal. eapply IHa; eauto;
            intro; [apply Na|apply Nb]; right; auto. }
      assert (E4 : n ++ w3 = S_ "par_end").
      { apply (E3 _ _ (r ++ t) q).
        - rewrite in_app_iff. intros [H|H]; [auto|revert H; apply spaces_notin; auto].
        - apply notin_b. reflexivity.
        - rewrite <- E, <- app_assoc. reflexivity. }
      exists w1, r. split; [|assumption].
      unfold print_item. f_equal. cbn [app]. 
      change (S_ "<par_end>" ++ r) with (chLT :: S_ "par_end" ++ chGT :: r).
      rewrite <- E4. f_equal. rewrite <- app_assoc. reflexivity. }
    rewrite NP. rewrite Ascii.eqb_refl.
    destruct (line_block_name_app w1 w2 n w3 (r ++ t ++ [NUL]) W2' W3' Fn NG) as (buf' & L1 & L2).
    replace (w1 ++ s ++ [NUL]) with (w1 ++ chLT :: w2 ++ n ++ w3 ++ chGT :: r ++ t ++ [NUL])
      by (unfold s; lapp).
    rewrite L1; cbn [bind]. rewrite L2; cbn [bind]. reflexivity.
  - destruct OK as (W1 & W2 & W3 & W4 & (Fn & NE & NH & NL) & V).
    apply all_space_spaces in W1. apply all_space_spaces in W2.
    apply all_space_spaces in W3. apply all_space_spaces in W4.
    destruct (field_first n Fn) as (n0 & n1 & En & Sn0).
    destruct bp as [b|]; [|exfalso; apply (NB eq_refl); reflexivity].
    assert (NP : forall x, prefixb PAR_END (n ++ x) = false).
    { intros x. destruct (prefixb PAR_END (n ++ x)) eqn:E; [|reflexivity]. exfalso.
      apply prefixb_spec in E. destruct E as [q E]. rewrite En in E.
      cbn in E. injection E as E _. apply (NL n1). rewrite En, E. reflexivity. }
    assert (n0 <> NUL) by (intros ->; apply (field_nonul n Fn); rewrite En; left; auto).
    assert (n0 <> chHASH) by (intros ->; apply NH; rewrite En; left; auto).
    assert (n0 <> chLT) by (intros ->; apply (NL n1); rewrite En; auto).
    set (body := n ++ w2 ++ chEQ :: w3 ++ v ++ w4 ++ t).
    replace (((w1 ++ n ++ w2 ++ chEQ :: w3 ++ v ++ w4) ++ t) ++ [NUL])
      with (w1 ++ body ++ [NUL]) by (unfold body; lapp).
    assert (NUb : ~ In NUL body).
    { unfold body. rewrite !in_app_iff. simpl. rewrite !in_app_iff.
      assert (~ In NUL v) by (destruct V as [->|[V _]]; [auto|apply field_nonul; auto]).
      assert (H3 := field_nonul n Fn).
      assert (H4 := spaces_notin w2 NUL W2 isspace_NUL).
      assert (H5 := spaces_notin w3 NUL W3 isspace_NUL).
      assert (H6 := spaces_notin w4 NUL W4 isspace_NUL).
      intuition discriminate. }
    assert (SK : skipwhite (w1 ++ body ++ [NUL]) 0 = Ok (length w1)).
    { unfold body. rewrite En. cbn [app]. apply skipwhite_app0; auto. }
    rewrite SK; cbn [bind].
    assert (RD : rd (w1 ++ body ++ [NUL]) (length w1) = Ok n0).
    { unfold body. rewrite En. cbn [app]. apply rd_app. }
    rewrite RD; cbn [bind].
    rewrite (proj2 (Ascii.eqb_neq n0 NUL)) by assumption.
    rewrite (proj2 (Ascii.eqb_neq n0 chHASH)) by assumption.
    rewrite cstr_at_line by assumption. cbn [bind].
    unfold body at 1. rewrite NP.
    rewrite (proj2 (Ascii.eqb_neq n0 chLT)) by assumption.
    destruct V as [->|[Fv Nv]].
    + replace (w1 ++ body ++ [NUL]) with (w1 ++ n ++ w2 ++ chEQ :: (w3 ++ w4 ++ t) ++ [NUL])
        by (unfold body; lapp).
      rewrite parse_par_empty; auto using spaces_app.
    + replace (w1 ++ body ++ [NUL]) with (w1 ++ n ++ w2 ++ chEQ :: w3 ++ v ++ (w4 ++ t) ++ [NUL])
        by (unfold body; lapp).
      rewrite parse_par_value; auto using spaces_app.
  - destruct OK as (W1 & W2 & W3 & W4 & W5 & W6 & (Fn & NE & NH & NL) & [Fv Nv] & [[P1 P2] Tc]).
    apply all_space_spaces in W1. apply all_space_spaces in W2.
    apply all_space_spaces in W3. apply all_space_spaces in W4.
    apply all_space_spaces in W5. apply all_space_spaces in W6.
    assert (Fc : c = [] \/ field c).
    { destruct c; [auto|right]. split; [discriminate|]. split; [split|]; auto. }
    destruct (field_first n Fn) as (n0 & n1 & En & Sn0).
    destruct bp as [b|]; [|exfalso; apply (NB eq_refl); reflexivity].
    assert (NP : forall x, prefixb PAR_END (n ++ x) = false).
    { intros x. destruct (prefixb PAR_END (n ++ x)) eqn:E; [|reflexivity]. exfalso.
      apply prefixb_spec in E. destruct E as [q E]. rewrite En in E.
      cbn in E. injection E as E _. apply (NL n1). rewrite En, E. reflexivity. }
    assert (n0 <> NUL) by (intros ->; apply (field_nonul n Fn); rewrite En; left; auto).
    assert (n0 <> chHASH) by (intros ->; apply NH; rewrite En; left; auto).
    assert (n0 <> chLT) by (intros ->; apply (NL n1); rewrite En; auto).
    set (body := n ++ w2 ++ chEQ :: w3 ++ v ++ w4 ++ chHASH :: w5 ++ c ++ w6 ++ t).
    replace (((w1 ++ n ++ w2 ++ chEQ :: w3 ++ v ++ w4 ++ chHASH :: w5 ++ c ++ w6) ++ t) ++ [NUL])
      with (w1 ++ body ++ [NUL]) by (unfold body; lapp).
    assert (NUb : ~ In NUL body).
    { unfold body. rewrite !in_app_iff. simpl. rewrite !in_app_iff. simpl. rewrite !in_app_iff.
      assert (H2 := field_nonul v Fv).
      assert (H3 := field_nonul n Fn).
      assert (H4 := spaces_notin w2 NUL W2 isspace_NUL).
      assert (H5 := spaces_notin w3 NUL W3 isspace_NUL).
      assert (H6 := spaces_notin w4 NUL W4 isspace_NUL).
      assert (H7 := spaces_notin w5 NUL W5 isspace_NUL).
      assert (H8 := spaces_notin w6 NUL W6 isspace_NUL).
      intuition discriminate. }
    assert (SK : skipwhite (w1 ++ body ++ [NUL]) 0 = Ok (length w1)).
    { unfold body. rewrite En. cbn [app]. apply skipwhite_app0; auto. }
    rewrite SK; cbn [bind].
    assert (RD : rd (w1 ++ body ++ [NUL]) (length w1) = Ok n0).
    { unfold body. rewrite En. cbn [app]. apply rd_app. }
    rewrite RD; cbn [bind].
    rewrite (proj2 (Ascii.eqb_neq n0 NUL)) by assumption.
    rewrite (proj2 (Ascii.eqb_neq n0 chHASH)) by assumption.
    rewrite cstr_at_line by assumption. cbn [bind].
    unfold body at 1. rewrite NP.
    rewrite (proj2 (Ascii.eqb_neq n0 chLT)) by assumption.
    replace (w1 ++ body ++ [NUL])
      with (w1 ++ n ++ w2 ++ chEQ :: w3 ++ v ++ w4 ++ chHASH :: w5 ++ c ++ (w6 ++ t) ++ [NUL])
      by (unfold body; lapp).
    rewrite parse_par_comment; auto using spaces_app.
Qed.

(** ** Lines without newline inside *)

Lemma all_space_noLF : forall w, all_space w -> ~ In LF w.
Proof.
  intros w W H. unfold all_space in W. rewrite Forall_forall in W.
  destruct (W LF H) as [_ X]; apply X; reflexivity.
Qed.
Lemma field_noLF : forall s, field s -> ~ In LF s.
Proof. intros s (_ & [_ H] & _); auto. Qed.

Lemma print_item_noLF : forall i, item_ok i -> ~ In LF (print_item i).
Proof.
  intros i OK. destruct i; simpl in *.
  - apply all_space_noLF; auto.
  - destruct OK as [W [_ P]]. rewrite in_app_iff. simpl.
    assert (H := all_space_noLF w W). intuition discriminate.
  - destruct OK as (W1 & W2 & W3 & [Fn _] & [_ P]).
    rewrite !in_app_iff. simpl. rewrite !in_app_iff. simpl.
    apply all_space_noLF in W1. apply all_space_noLF in W2. apply all_space_noLF in W3.
    assert (H := field_noLF _ Fn). intuition discriminate.
  - destruct OK as (W1 & W2 & W3 & W4 & [Fn _] & V).
    rewrite !in_app_iff. simpl. rewrite !in_app_iff. simpl.
    apply all_space_noLF in W1. apply all_space_noLF in W2. apply all_space_noLF in W3.
    apply all_space_noLF in W4.
    assert (H := field_noLF _ Fn).
    assert (~ In LF value) by (destruct V as [->|[V _]]; [auto|apply field_noLF; auto]).
    intuition discriminate.
  - destruct OK as (W1 & W2 & W3 & W4 & W5 & W6 & [Fn _] & [Fv _] & [[_ P] _]).
    rewrite !in_app_iff. simpl. rewrite !in_app_iff. simpl. rewrite !in_app_iff.
    apply all_space_noLF in W1. apply all_space_noLF in W2. apply all_space_noLF in W3.
    apply all_space_noLF in W4. apply all_space_noLF in W5. apply all_space_noLF in W6.
    assert (H := field_noLF _ Fn). assert (H1 := field_noLF _ Fv). intuition discriminate.
Qed.

Lemma fgets_n_line : forall l n r, ~ In LF l -> length l < n ->
  fgets_n n (l ++ LF :: r) = (l ++ [LF], r).
Proof.
  induction l as [|c l IH]; intros n r N L; destruct n as [|n]; simpl in *; try lia.
  - reflexivity.
  - destruct (Ascii.eqb_spec c LF) as [E|E]; [exfalso; apply N; auto|].
    rewrite IH; auto; lia.
Qed.
Lemma fgets_n_last : forall l n, ~ In LF l -> length l <= n -> fgets_n n l = (l, []).
Proof.
  induction l as [|c l IH]; intros n N L; destruct n as [|n]; simpl in *; try lia; try reflexivity.
  destruct (Ascii.eqb_spec c LF) as [E|E]; [exfalso; apply N; auto|].
  rewrite IH; auto; lia.
Qed.

Lemma fgets_line : forall l r, ~ In LF l -> length l < MAXLEN - 1 ->
  fgets (l ++ LF :: r) = Some (l ++ [LF], r).
Proof.
  intros l r N L. unfold fgets. rewrite fgets_n_line by assumption. destruct l; reflexivity.
Qed.
Lemma fgets_last : forall l, ~ In LF l -> length l <= MAXLEN - 1 -> l <> [] ->
  fgets l = Some (l, []).
Proof.
  intros l N L NE. unfold fgets. rewrite fgets_n_last by assumption. destruct l; [congruence|reflexivity].
Qed.

(** The line, its newline and the terminating NUL fit the line buffer. *)
Definition fits (i : item) : Prop := length (print_item i) + 2 <= MAXLEN.

Lemma open_loop_fuel : forall f g d bp s, length s <= f -> length s <= g ->
  open_loop f d bp s = open_loop g d bp s.
Proof.
  induction f as [|f IH]; intros g d bp s Lf Lg.
  - destruct s; [|simpl in Lf; lia]. destruct g; reflexivity.
  - destruct g as [|g].
    + destruct s; [|simpl in Lg; lia]. reflexivity.
    + cbn [open_loop]. destruct (fgets s) as [[l r]|] eqn:E; [|reflexivity].
      destruct (fgets_some s l r E) as [Es Nl].
      destruct (par_line d bp (l ++ [NUL])) as [[[d' bp']|]| |]; cbn [bind]; try reflexivity.
      apply IH; subst s; rewrite app_length in Lf, Lg; destruct l; simpl in *; try congruence; lia.
Qed.

Definition load (d : db) (bp : option str) (s : str) : res db := open_loop (length s) d bp s.

Lemma load_unfold : forall d bp s,
  load d bp s = match fgets s with
                | None => Ok d
                | Some (l, r) =>
                    x <- par_line d bp (l ++ [NUL]);;
                    match x with None => Ok d | Some (d', bp') => load d' bp' r end
                end.
Proof.
  intros d bp s. unfold load. destruct s as [|c s]; [reflexivity|].
  cbn [length open_loop]. destruct (fgets (c :: s)) as [[l r]|] eqn:E; [|reflexivity].
  destruct (fgets_some _ l r E) as [Es Nl].
  destruct (par_line d bp (l ++ [NUL])) as [[[d' bp']|]| |]; cbn [bind]; try reflexivity.
  apply open_loop_fuel; [|lia].
  assert (length (c :: s) = length (l ++ r)) by (rewrite Es; reflexivity).
  rewrite app_length in H. destruct l; [congruence|]. simpl in *. lia.
Qed.

Fixpoint apply_items (st : db * option str) (is : list item) : db * option str :=
  match is with [] => st | i :: r => apply_items (apply_item st i) r end.

(** Every parameter line has a block line before it ([o]: a block is open). *)
Fixpoint placed (o : bool) (is : list item) : Prop :=
  match is with
  | [] => True
  | i :: r => (needs_block i = true -> o = true) /\
              placed (match i with IBlock _ _ _ _ _ => true | _ => o end) r
  end.

Lemma starts_placed : forall is, starts_in_block is -> placed false is.
Proof.
  assert (T : forall is, placed true is).
  { induction is as [|i is IH]; simpl; [auto|]. split; [auto|]. destruct i; auto. }
  induction is as [|i is IH]; simpl; [auto|]. intros H.
  destruct i; simpl in *; try tauto.
  split; [discriminate|apply T].
Qed.
Lemma placed_starts : forall is, placed false is -> (forall i, In i is -> needs_block i = false) \/ starts_in_block is.
Proof.
  induction is as [|i is IH]; intros H; [left; intros ? []|].
  destruct H as [H1 H2]. destruct i; simpl in *;
    try (right; exact I);
    try (specialize (H1 eq_refl); discriminate).
  - destruct (IH H2) as [A|A]; [left; intros j [<-|J]; [reflexivity|auto]|right; exact A].
  - destruct (IH H2) as [A|A]; [left; intros j [<-|J]; [reflexivity|auto]|right; exact A].
Qed.

Lemma apply_item_bp : forall d bp i, item_ok i ->
  snd (apply_item (d, bp) i) = match i with IBlock _ _ n _ _ => Some n | _ => bp end.
Proof. intros d bp i _. destruct i; simpl; auto; destruct bp; reflexivity. Qed.

Lemma load_items : forall is d bp rest,
  Forall item_ok is -> Forall (fun i => ~ is_end i) is -> Forall fits is ->
  placed (match bp with Some _ => true | None => false end) is ->
  load d bp (file_of is ++ rest) =
  (let (d', bp') := apply_items (d, bp) is in load d' bp' rest).
Proof.
  induction is as [|i is IH]; intros d bp rest OK NE FT PL; [reflexivity|].
  inversion OK as [|? ? OKi OKr]; inversion NE as [|? ? NEi NEr];
    inversion FT as [|? ? FTi FTr]; subst. destruct PL as [P1 P2].
  cbn [file_of flat_map apply_items].
  replace (((print_item i ++ [LF]) ++ flat_map (fun i => print_item i ++ [LF]) is) ++ rest)
    with (print_item i ++ LF :: (file_of is ++ rest)) by (unfold file_of; lapp).
  rewrite load_unfold. rewrite fgets_line;
    [|apply print_item_noLF; auto | unfold fits in FTi; unfold MAXLEN in *; lia].
  rewrite par_line_item; auto.
  - cbn [bind]. destruct (apply_item (d, bp) i) as [d' bp'] eqn:EA.
    apply IH; auto.
    assert (E := apply_item_bp d bp i OKi). rewrite EA in E. simpl in E. subst bp'.
    destruct i; auto.
  - repeat constructor.
  - intros Hn. specialize (P1 Hn). destruct bp; [discriminate|discriminate].
Qed.

Lemma load_last : forall i d bp,
  item_ok i -> ~ is_end i -> fits i -> (needs_block i = true -> bp <> None) ->
  load d bp (print_item i) = Ok (fst (apply_item (d, bp) i)).
Proof.
  intros i d bp OK NE FT NB. rewrite load_unfold.
  destruct (print_item i) as [|c s] eqn:E.
  - destruct i; simpl in *; try reflexivity; exfalso;
      match goal with H : ?x = [] |- _ =>
        apply (f_equal (@length ascii)) in H; rewrite ?app_length in H; simpl in H;
        rewrite ?app_length in H; simpl in H; lia end.
  - rewrite <- E. rewrite fgets_last.
    + assert (H := par_line_item i d bp [] OK NE (Forall_nil _) NB).
      rewrite app_nil_r in H. rewrite H. cbn [bind].
      destruct (apply_item (d, bp) i); reflexivity.
    + apply print_item_noLF; auto.
    + unfold fits, MAXLEN in *; lia.
    + rewrite E; discriminate.
Qed.

Lemma load_end : forall d bp w rest, all_space w -> length w + 9 <= MAXLEN - 1 ->
  load d bp (w ++ PAR_END ++ rest) = Ok d.
Proof.
  intros d bp w rest W L. rewrite load_unfold.
  assert (FG : exists l r, fgets (w ++ PAR_END ++ rest) = Some (w ++ PAR_END ++ l, r)).
  { unfold fgets.
    assert (G : forall a n x, ~ In LF a -> length a <= n ->
       exists l r, fgets_n n (a ++ x) = (a ++ l, r)).
    { induction a as [|c a IHa]; intros n x N La.
      - simpl. destruct (fgets_n n x) as [l r]. exists l, r; reflexivity.
      - destruct n as [|n]; simpl in La; [lia|]. simpl.
        destruct (Ascii.eqb_spec c LF) as [E|E]; [exfalso; apply N; left; auto|].
        destruct (IHa n x) as (l & r & ->); [intro; apply N; right; auto|lia|].
        exists l, r; reflexivity. }
    destruct (G (w ++ PAR_END) (MAXLEN - 1) rest) as (l & r & G1).
    - rewrite in_app_iff. intros [H|H]; [revert H; apply all_space_noLF; auto|].
      revert H. apply notin_b. reflexivity.
    - rewrite app_length. exact L.
    - rewrite <- !app_assoc in G1. exists l, r. rewrite G1.
      destruct w; reflexivity. }
  destruct FG as (l & r & FG). rewrite FG.
  unfold par_line.
  change PAR_END with (chLT :: S_ "par_end>"). 
  replace ((w ++ (chLT :: S_ "par_end>") ++ l) ++ [NUL])
    with (w ++ chLT :: (S_ "par_end>" ++ l ++ [NUL])) by lapp.
  rewrite skipwhite_app0; auto using all_space_spaces. cbn [bind].
  rewrite rd_app; cbn [bind].
  rewrite (proj2 (Ascii.eqb_neq chLT NUL)) by discriminate.
  rewrite (proj2 (Ascii.eqb_neq chLT chHASH)) by discriminate.
  assert (CS : exists s, cstr_at (w ++ chLT :: S_ "par_end>" ++ l ++ [NUL]) (length w)
                  = Ok (PAR_END ++ s)).
  { assert (U : exists s, until_nul (l ++ [NUL]) = Ok s)
      by (apply until_nul_total; rewrite in_app_iff; right; left; reflexivity).
    destruct U as [s U]. exists s. unfold cstr_at. rewrite skipn_len_app.
    change (chLT :: S_ "par_end>" ++ l ++ [NUL]) with (PAR_END ++ (l ++ [NUL])).
    assert (G : forall a x, ~ In NUL a -> until_nul x = Ok s -> until_nul (a ++ x) = Ok (a ++ s)).
    { induction a as [|c a IHa]; intros x N Ux; [exact Ux|]. simpl.
      destruct (Ascii.eqb_spec c NUL) as [E|E]; [exfalso; apply N; left; auto|].
      rewrite IHa; auto; intro; apply N; right; auto. }
    apply G; auto. apply notin_b. reflexivity. }
  destruct CS as [s CS]. rewrite CS; cbn [bind].
  fold PAR_END. change (chLT :: S_ "par_end>") with PAR_END.
  rewrite prefixb_app. reflexivity.
Qed.

(** ** The state reached is the expected one *)

Lemma existsb_str_In : forall x l, existsb (str_eqb x) l = true <-> In x l.
Proof.
  intros. rewrite existsb_exists. split.
  - intros (y & H & E). apply str_eqb_eq in E. subst; auto.
  - intros H; exists x; split; auto. apply str_eqb_refl.
Qed.

Lemma firsts_snoc : forall l seen x,
  firsts seen (l ++ [x]) =
  firsts seen l ++ (if existsb (str_eqb x) (seen ++ l) then [] else [x]).
Proof.
  induction l as [|y l IH]; intros seen x; simpl.
  - rewrite app_nil_r. destruct (existsb (str_eqb x) seen); reflexivity.
  - assert (P : existsb (str_eqb x) ((y :: seen) ++ l) = existsb (str_eqb x) (seen ++ y :: l)).
    { apply eq_true_iff_eq. rewrite !existsb_str_In. rewrite !in_app_iff. simpl. tauto. }
    destruct (existsb (str_eqb y) seen) eqn:E.
    + rewrite IH. f_equal.
      assert (Q : existsb (str_eqb x) (seen ++ l) = existsb (str_eqb x) (seen ++ y :: l)).
      { apply eq_true_iff_eq. rewrite !existsb_str_In. rewrite !in_app_iff. simpl.
        apply existsb_str_In in E. split; intros H; intuition (subst; auto). }
      rewrite Q; reflexivity.
    + simpl. rewrite IH, P. reflexivity.
Qed.

Lemma firsts_In : forall l seen x, In x (firsts seen l) <-> In x l /\ ~ In x seen.
Proof.
  induction l as [|y l IH]; intros seen x; simpl; [tauto|].
  destruct (existsb (str_eqb y) seen) eqn:E.
  - apply existsb_str_In in E. rewrite IH. intuition (subst; tauto).
  - assert (~ In y seen) by (intro H; apply existsb_str_In in H; congruence).
    simpl. rewrite IH. simpl. destruct (str_eq_dec y x) as [->|N]; intuition.
Qed.
Lemma firsts_NoDup : forall l seen, NoDup (firsts seen l).
Proof.
  induction l as [|y l IH]; intros seen; simpl; [constructor|].
  destruct (existsb (str_eqb y) seen); auto. constructor; auto.
  rewrite firsts_In. simpl. tauto.
Qed.

(** view-level update *)
Fixpoint pset (ps : list (str * entry)) (n v : str) (c : option str) : list (str * entry) :=
  match ps with
  | [] => [(n, (v, c))]
  | (m, (u, k)) :: r =>
      if str_eqb m n then (m, (v, match c with Some x => Some x | None => k end)) :: r
      else (m, (u, k)) :: pset r n v c
  end.
Fixpoint vwith (w : view) (b : str) (f : list (str * entry) -> list (str * entry)) : view :=
  match w with
  | [] => [(b, f [])]
  | (m, ps) :: r => if str_eqb m b then (m, f ps) :: r else (m, ps) :: vwith r b f
  end.

Lemma view_add_par_list : forall ps n v c,
  map pview (add_par_list ps n v c) = pset (map pview ps) n v c.
Proof.
  induction ps as [|p ps IH]; intros; simpl; [reflexivity|].
  destruct (str_eqb (p_name p) n); simpl; [reflexivity|].
  rewrite IH. reflexivity.
Qed.
Lemma view_with_block : forall d b n v c,
  view_of (with_block d b (fun x => add_par x n v c)) =
  vwith (view_of d) b (fun ps => pset ps n v c).
Proof.
  intros d b n v c. rewrite !view_of_map.
  induction d as [|q d IH]; simpl; [reflexivity|].
  destruct (str_eqb (b_name q) b); simpl.
  - unfold bview. simpl. rewrite view_add_par_list. reflexivity.
  - rewrite IH. reflexivity.
Qed.
Lemma view_add_block : forall d b, view_of (add_block d b) = vwith (view_of d) b (fun ps => ps).
Proof.
  intros d b. rewrite !view_of_map. unfold add_block.
  induction d as [|q d IH]; simpl; [reflexivity|].
  destruct (str_eqb (b_name q) b); simpl; [reflexivity|].
  rewrite IH. reflexivity.
Qed.

Lemma vwith_map_in : forall bs (g : str -> list (str * entry)) b f, NoDup bs -> In b bs ->
  vwith (map (fun x => (x, g x)) bs) b f =
  map (fun x => (x, if str_eqb x b then f (g x) else g x)) bs.
Proof.
  induction bs as [|y bs IH]; intros g b f ND HI; [destruct HI|].
  inversion ND; subst. simpl. destruct (str_eqb_spec y b) as [E|E].
  - subst. f_equal. apply map_ext_in. intros x Hx.
    destruct (str_eqb_spec x b); [subst; tauto|reflexivity].
  - f_equal. destruct HI as [HI|HI]; [congruence|]. apply IH; auto.
Qed.
Lemma vwith_map_notin : forall bs (g : str -> list (str * entry)) b f, ~ In b bs ->
  vwith (map (fun x => (x, g x)) bs) b f = map (fun x => (x, g x)) bs ++ [(b, f [])].
Proof.
  induction bs as [|y bs IH]; intros g b f HI; [reflexivity|]. simpl.
  destruct (str_eqb_spec y b) as [E|E]; [exfalso; apply HI; left; auto|].
  rewrite IH; [reflexivity|]. intro; apply HI; right; auto.
Qed.
Lemma pset_map_in : forall ns (h : str -> entry) n v c, NoDup ns -> In n ns ->
  pset (map (fun x => (x, h x)) ns) n v c =
  map (fun x => (x, if str_eqb x n
                    then (v, match c with Some y => Some y | None => snd (h x) end)
                    else h x)) ns.
Proof.
  induction ns as [|y ns IH]; intros h n v c ND HI; [destruct HI|].
  inversion ND; subst. simpl. destruct (h y) as [u k] eqn:Eh.
  destruct (str_eqb_spec y n) as [E|E].
  - subst. f_equal. apply map_ext_in. intros x Hx.
    destruct (str_eqb_spec x n); [subst; tauto|reflexivity].
  - f_equal. destruct HI as [HI|HI]; [congruence|]. apply IH; auto.
Qed.
Lemma pset_map_notin : forall ns (h : str -> entry) n v c, ~ In n ns ->
  pset (map (fun x => (x, h x)) ns) n v c = map (fun x => (x, h x)) ns ++ [(n, (v, c))].
Proof.
  induction ns as [|y ns IH]; intros h n v c HI; [reflexivity|]. simpl.
  destruct (h y) as [u k].
  destruct (str_eqb_spec y n) as [E|E]; [exfalso; apply HI; left; auto|].
  rewrite IH; [reflexivity|]. intro; apply HI; right; auto.
Qed.

(** The last block line, or [cur]. *)
Fixpoint last_block (cur : option str) (is : list item) : option str :=
  match is with
  | [] => cur
  | IBlock _ _ n _ _ :: r => last_block (Some n) r
  | _ :: r => last_block cur r
  end.
Definition item_assign (cur : str) (i : item) : list (str * str * entry) :=
  match i with
  | IPar _ n _ _ v _ => [(cur, n, (v, None))]
  | IParC _ n _ _ v _ _ c _ => [(cur, n, (v, match c with [] => None | _ => Some c end))]
  | _ => []
  end.
Definition or_nil (o : option str) : str := match o with Some x => x | None => [] end.

Lemma assignments_snoc : forall is cur i,
  assignments (or_nil cur) (is ++ [i]) =
  assignments (or_nil cur) is ++ item_assign (or_nil (last_block cur is)) i.
Proof.
  induction is as [|j is IH]; intros cur i.
  - destruct i; reflexivity.
  - destruct j; simpl; try (rewrite IH; reflexivity).
    change name with (or_nil (Some name)) at 1. rewrite IH. reflexivity.
Qed.
Lemma last_block_snoc : forall is cur i,
  last_block cur (is ++ [i]) = match i with IBlock _ _ n _ _ => Some n | _ => last_block cur is end.
Proof.
  induction is as [|j is IH]; intros cur i.
  - destruct i; reflexivity.
  - destruct j; simpl; rewrite IH; destruct i; reflexivity.
Qed.
Lemma blocks_of_snoc : forall is i,
  blocks_of (is ++ [i]) = blocks_of is ++ match i with IBlock _ _ n _ _ => [n] | _ => [] end.
Proof.
  induction is as [|j is IH]; intros i.
  - destruct i; reflexivity.
  - destruct j; simpl; rewrite IH; reflexivity.
Qed.
Lemma last_block_In : forall is cur b, last_block cur is = Some b ->
  In b (blocks_of is) \/ cur = Some b.
Proof.
  induction is as [|j is IH]; intros cur b H; simpl in *; [auto|].
  destruct j; simpl in *; try (apply IH; auto).
  destruct (IH _ _ H) as [A|A]; [auto|]. inversion A; auto.
Qed.
Lemma last_value_snoc : forall l b n b' n' v c,
  last_value b n (l ++ [(b', n', (v, c))]) =
  if str_eqb b b' && str_eqb n n' then Some v else last_value b n l.
Proof.
  induction l as [|[[x y] [u k]] l IH]; intros b n b' n' v c; simpl.
  - reflexivity.
  - rewrite IH. destruct (str_eqb b b' && str_eqb n n'); reflexivity.
Qed.
Lemma last_comment_snoc : forall l b n b' n' v c,
  last_comment b n (l ++ [(b', n', (v, c))]) =
  match (if str_eqb b b' && str_eqb n n' then c else None) with
  | Some x => Some x | None => last_comment b n l end.
Proof.
  induction l as [|[[x y] [u k]] l IH]; intros b n b' n' v c; simpl.
  - destruct (str_eqb b b' && str_eqb n n'); [destruct c|]; reflexivity.
  - rewrite IH. destruct (str_eqb b b' && str_eqb n n'); [destruct c|]; reflexivity.
Qed.
Lemma names_in_snoc : forall l b b' n e,
  names_in b (l ++ [(b', n, e)]) = names_in b l ++ if str_eqb b b' then [n] else [].
Proof.
  intros l b b' n e. unfold names_in. rewrite filter_app, map_app. simpl.
  destruct (str_eqb b b'); reflexivity.
Qed.
Lemma names_in_In : forall l b n, last_value b n l = None -> ~ In n (names_in b l).
Proof.
  induction l as [|[[x y] [u k]] l IH]; intros b n H HI; [destruct HI|].
  simpl in H. destruct (last_value b n l) eqn:E; [discriminate|].
  unfold names_in in HI. simpl in HI.
  destruct (str_eqb_spec b x) as [E1|E1]; simpl in *.
  - destruct HI as [HI|HI]; [subst; rewrite str_eqb_refl in H; discriminate|].
    apply (IH b n E HI).
  - apply (IH b n E HI).
Qed.
Lemma last_comment_notin : forall l b n, ~ In n (names_in b l) -> last_comment b n l = None.
Proof.
  induction l as [|[[x y] [u k]] l IH]; intros b n H; [reflexivity|]. simpl.
  unfold names_in in H. simpl in H.
  destruct (str_eqb_spec b x) as [E1|E1]; simpl in *.
  - rewrite IH by (unfold names_in; tauto).
    destruct (str_eqb_spec n y); [subst; exfalso; apply H; left; auto|reflexivity].
  - rewrite IH; auto.
Qed.

Definition expected_of (bs : list str) (l : list (str * str * entry)) : view :=
  map (fun b => (b, map (fun n => (n, (match last_value b n l with Some v => v | None => [] end,
                                       last_comment b n l)))
                        (firsts [] (names_in b l))))
      (firsts [] bs).

Lemma expected_block : forall bs l b, (forall b' n e, In (b', n, e) l -> In b' bs) ->
  vwith (expected_of bs l) b (fun ps => ps) = expected_of (bs ++ [b]) l.
Proof.
  intros bs l b HL. unfold expected_of. rewrite firsts_snoc.
  destruct (existsb (str_eqb b) ([] ++ bs)) eqn:E; simpl in E.
  - apply existsb_str_In in E. rewrite app_nil_r.
    rewrite vwith_map_in; [|apply firsts_NoDup|rewrite firsts_In; auto].
    apply map_ext. intros x. destruct (str_eqb x b); reflexivity.
  - assert (N : ~ In b bs) by (intro H; apply existsb_str_In in H; congruence).
    rewrite vwith_map_notin by (rewrite firsts_In; tauto).
    rewrite map_app. f_equal. simpl. f_equal. f_equal.
    assert (NI : names_in b l = []).
    { unfold names_in. assert (F : filter (fun a => str_eqb b (fst (fst a))) l = []).
      { clear E. induction l as [|[[x y] e] l IH]; [reflexivity|]. simpl.
        destruct (str_eqb_spec b x) as [E1|E1].
        - subst. exfalso. apply N. apply (HL x y e). left; reflexivity.
        - apply IH. intros b' n e' H. apply (HL b' n e'). right; auto. }
      rewrite F. reflexivity. }
    rewrite NI. reflexivity.
Qed.

Lemma expected_assign : forall bs l b n v c, In b bs ->
  vwith (expected_of bs l) b (fun ps => pset ps n v c) =
  expected_of bs (l ++ [(b, n, (v, c))]).
Proof.
  intros bs l b n v c HB. unfold expected_of.
  rewrite vwith_map_in; [|apply firsts_NoDup|rewrite firsts_In; auto].
  apply map_ext. intros x. f_equal. rewrite names_in_snoc.
  destruct (str_eqb_spec x b) as [E|E].
  - subst x. rewrite firsts_snoc. cbn [app].
    destruct (existsb (str_eqb n) (names_in b l)) eqn:EN.
    + apply existsb_str_In in EN. rewrite app_nil_r.
      rewrite pset_map_in; [|apply firsts_NoDup|rewrite firsts_In; auto].
      apply map_ext. intros y. f_equal. rewrite last_value_snoc, last_comment_snoc.
      rewrite str_eqb_refl. cbn [andb snd].
      destruct (str_eqb y n); [destruct c|]; reflexivity.
    + assert (N : ~ In n (names_in b l)) by (intro H; apply existsb_str_In in H; congruence).
      rewrite pset_map_notin by (rewrite firsts_In; tauto).
      rewrite map_app. f_equal.
      * apply map_ext_in. intros y Hy. apply firsts_In in Hy. f_equal.
        rewrite last_value_snoc, last_comment_snoc, str_eqb_refl. cbn [andb].
        destruct (str_eqb_spec y n); [subst; tauto|reflexivity].
      * simpl. rewrite last_value_snoc, last_comment_snoc, !str_eqb_refl. cbn [andb].
        rewrite (last_comment_notin l b n N). destruct c; reflexivity.
  - rewrite app_nil_r. apply map_ext. intros y. f_equal.
    rewrite last_value_snoc, last_comment_snoc.
    rewrite (proj2 (str_eqb_neq x b) E). reflexivity.
Qed.

Lemma placed_snoc : forall is o i, placed o (is ++ [i]) <->
  placed o is /\ (needs_block i = true ->
                  (o || match last_block None is with Some _ => true | None => false end) = true).
Proof.
  induction is as [|j is IH]; intros o i.
  - simpl. rewrite orb_false_r. tauto.
  - cbn [app placed]. rewrite IH. destruct j; cbn [last_block]; try tauto.
    assert (HH : match last_block (Some name) is with Some _ => true | None => false end = true).
    { clear. generalize name. induction is as [|j is IH]; intros x; simpl; auto. destruct j; auto. }
    rewrite HH. rewrite orb_true_r. simpl. tauto.
Qed.

Lemma apply_items_snoc : forall is st i, apply_items st (is ++ [i]) = apply_item (apply_items st is) i.
Proof. induction is as [|j is IH]; intros; simpl; auto. Qed.

Lemma apply_items_expected : forall is, placed false is ->
  let st := apply_items (([] : db), None) is in
  view_of (fst st) = expected_view is /\ snd st = last_block None is.
Proof.
  induction is as [|i is IH] using rev_ind; intros PL.
  - split; reflexivity.
  - apply placed_snoc in PL. destruct PL as [PL NB]. specialize (IH PL).
    cbv zeta in *. rewrite apply_items_snoc.
    destruct (apply_items (([] : db), None) is) as [d bp]. simpl in IH. destruct IH as [IV IB].
    rewrite last_block_snoc.
    unfold expected_view in *. fold (expected_of (blocks_of is) (assignments [] is)) in IV.
    cbv zeta.
    match goal with |- view_of _ = ?E /\ _ =>
      change E with (expected_of (blocks_of (is ++ [i])) (assignments [] (is ++ [i]))) end.
    rewrite blocks_of_snoc.
    change (assignments [] (is ++ [i])) with (assignments (or_nil None) (is ++ [i])).
    rewrite assignments_snoc.
    rewrite <- IB.
    assert (HBin : forall b, bp = Some b -> In b (blocks_of is)).
    { intros b Eb. destruct (last_block_In is None b); [congruence|auto|discriminate]. }
    destruct i as [w|w x|w1 w2 n w3 r|w1 n w2 w3 v w4|w1 n w2 w3 v w4 w5 c w6]; simpl.
    + rewrite !app_nil_r. auto.
    + rewrite !app_nil_r. auto.
    + rewrite !app_nil_r. split; [|reflexivity].
      rewrite view_add_block, IV. apply expected_block.
      (* every assignment of a placed file is in a block of the file *)
      assert (G : forall is o cur, placed o is -> (o = true -> exists b, cur = Some b) ->
         forall b' n' e, In (b', n', e) (assignments (or_nil cur) is) ->
         In b' (blocks_of is) \/ cur = Some b').
      { clear. induction is as [|j is IH]; intros o cur P HO b' n' e H; [destruct H|].
        destruct P as [P1 P2]. destruct j; simpl in *.
        - eapply IH; eauto.
        - eapply IH; eauto.
        - change name with (or_nil (Some name)) in H.
          destruct (IH true (Some name) P2) with (b' := b') (n' := n') (e := e) as [A|A]; auto.
          + intros _; eauto.
          + inversion A; auto.
        - destruct H as [H|H]; [|eapply IH; eauto].
          destruct (HO (P1 eq_refl)) as [b Eb]. subst cur. inversion H; subst. auto.
        - destruct H as [H|H]; [|eapply IH; eauto].
          destruct (HO (P1 eq_refl)) as [b Eb]. subst cur. inversion H; subst. auto. }
      intros b' n' e H. destruct (G is false None PL) with (b' := b') (n' := n') (e := e) as [A|A];
        auto; discriminate.
    + rewrite app_nil_r. destruct bp as [b|].
      * split; [|reflexivity]. simpl fst. rewrite view_with_block, IV.
        apply expected_assign. apply HBin; reflexivity.
      * rewrite <- IB in NB. specialize (NB eq_refl). discriminate.
    + rewrite app_nil_r. destruct bp as [b|].
      * split; [|reflexivity]. simpl fst. rewrite view_with_block, IV.
        apply expected_assign. apply HBin; reflexivity.
      * rewrite <- IB in NB. specialize (NB eq_refl). discriminate.
Qed.

(** ** par_open on well-formed files *)

Lemma par_open_reads : forall fname is last,
  Forall item_ok (is ++ [last]) -> Forall (fun i => ~ is_end i) (is ++ [last]) ->
  Forall fits (is ++ [last]) -> placed false (is ++ [last]) ->
  exists s, par_open init_state fname (Some (file_of is ++ print_item last)) = Ok s /\
            now_open s = true /\ now_file s = fname /\
            view_of (blocks s) = expected_view (is ++ [last]).
Proof.
  intros fname is last OK NE FT PL.
  assert (EX := apply_items_expected (is ++ [last]) PL). cbv zeta in EX.
  apply Forall_app in OK. destruct OK as [OK1 OK2]. inversion OK2; subst.
  apply Forall_app in NE. destruct NE as [NE1 NE2]. inversion NE2; subst.
  apply Forall_app in FT. destruct FT as [FT1 FT2]. inversion FT2; subst.
  apply placed_snoc in PL. destruct PL as [PL1 PL2].
  unfold par_open. cbn [now_open init_state blocks].
  fold (load [] None (file_of is ++ print_item last)).
  rewrite load_items by auto.
  rewrite apply_items_snoc in EX.
  assert (EB := apply_items_expected is PL1). cbv zeta in EB.
  destruct (apply_items (([] : db), None) is) as [d bp]. simpl in EB. destruct EB as [_ EB].
  rewrite load_last; auto.
  - cbn [bind]. eexists. split; [reflexivity|]. repeat split; auto. simpl. apply EX.
  - intros NB. specialize (PL2 NB). subst bp. destruct (last_block None is); [discriminate|discriminate].
Qed.

Lemma par_open_reads_end : forall fname is w rest,
  Forall item_ok is -> Forall (fun i => ~ is_end i) is ->
  Forall fits is -> placed false is -> all_space w -> length w + 9 < MAXLEN ->
  exists s, par_open init_state fname (Some (file_of is ++ w ++ S_ "<par_end>" ++ rest)) = Ok s /\
            now_open s = true /\ now_file s = fname /\
            view_of (blocks s) = expected_view is.
Proof.
  intros fname is w rest OK NE FT PL W L.
  assert (EX := apply_items_expected is PL). cbv zeta in EX.
  unfold par_open. cbn [now_open init_state blocks].
  fold (load [] None (file_of is ++ w ++ S_ "<par_end>" ++ rest)).
  rewrite load_items by auto.
  destruct (apply_items (([] : db), None) is) as [d bp].
  change (S_ "<par_end>") with PAR_END.
  rewrite (load_end d bp w rest) by (auto; unfold MAXLEN in *; lia).
  cbn [bind]. eexists. split; [reflexivity|]. repeat split; auto. simpl. apply EX.
Qed.

(** ** Ill-formed lines end the program *)


Lemma malformed_noLF : forall l, malformed l -> ~ In LF l /\ ~ In NUL l /\ l <> [].
Proof.
  intros l H. destruct H as [w t W [P1 P2] G|w a rest W [P1 P2] [Q1 Q2] (c & a' & -> & C1 & C2) H1 H2 R].
  - assert (H1 := all_space_noLF w W).
    assert (H2 := spaces_notin w NUL (all_space_spaces w W) isspace_NUL).
    rewrite !in_app_iff. simpl. repeat split; try (intuition discriminate).
    destruct w; discriminate.
  - assert (H3 := all_space_noLF w W).
    assert (H4 := spaces_notin w NUL (all_space_spaces w W) isspace_NUL).
    rewrite !in_app_iff. repeat split; try tauto. destruct w; discriminate.
Qed.

Lemma par_line_malformed : forall d bp l t, malformed l -> t = [] \/ t = [LF] ->
  par_line d bp ((l ++ t) ++ [NUL]) = Fatal.
Proof.
  intros d bp l t M Ht.
  assert (T : spaces t) by (destruct Ht as [-> | ->]; repeat constructor).
  assert (NUt := spaces_notin t NUL T isspace_NUL).
  destruct M as [w x W [P1 P2] G|w a rest W [P1 P2] [Q1 Q2] (c & a' & Ea & C1 & C2) H1 H2 R];
    apply all_space_spaces in W; unfold par_line.
  - replace (((w ++ chLT :: x) ++ t) ++ [NUL]) with (w ++ (chLT :: x ++ t) ++ [NUL]) by lapp.
    assert (SK : skipwhite (w ++ (chLT :: x ++ t) ++ [NUL]) 0 = Ok (length w))
      by (apply skipwhite_app0; auto).
    rewrite SK; cbn [bind].
    assert (RD : rd (w ++ (chLT :: x ++ t) ++ [NUL]) (length w) = Ok chLT)
      by (cbn [app]; apply rd_app).
    rewrite RD; cbn [bind].
    rewrite (proj2 (Ascii.eqb_neq chLT NUL)) by discriminate.
    rewrite (proj2 (Ascii.eqb_neq chLT chHASH)) by discriminate.
    assert (NG : ~ In chGT (chLT :: x ++ t)).
    { intros [H|H]; [discriminate|]. apply in_app_iff in H. destruct H as [H|H]; [auto|].
      revert H. apply spaces_notin; auto. }
    rewrite cstr_at_line.
    2:{ intros [H|H]; [discriminate|]. apply in_app_iff in H. tauto. }
    cbn [bind].
    destruct (prefixb PAR_END (chLT :: x ++ t)) eqn:E.
    { exfalso. apply prefixb_spec in E. destruct E as [q E]. apply NG. rewrite E.
      apply in_app_iff. left. unfold PAR_END, S_. simpl. tauto. }
    rewrite Ascii.eqb_refl.
    assert (LF : line_block_name (w ++ (chLT :: x ++ t) ++ [NUL]) (length w) = Fatal).
    { unfold line_block_name.
      destruct (skipwhite_spec (w ++ (chLT :: x ++ t) ++ [NUL]) (S (length w))
          (length (w ++ chLT :: x ++ t)) NUL) as (sp & y & A & B & _); auto.
      - rewrite app_length; simpl; lia.
      - rewrite app_assoc. apply nth_error_app_len.
      - rewrite A; cbn [bind].
        destruct (find_stop_spec (w ++ (chLT :: x ++ t) ++ [NUL]) chGT sp
           (length (w ++ chLT :: x ++ t))) as (q & z & F1 & F2 & F3 & F4); auto; try lia.
        + rewrite app_assoc. apply nth_error_app_len.
        + rewrite F1; cbn [bind]. unfold rd. rewrite F3; cbn [bind].
          destruct (Ascii.eqb_spec z chGT) as [Ez|Ez]; [|reflexivity].
          exfalso. subst z. apply nth_error_In in F3.
          rewrite !in_app_iff in F3. destruct F3 as [F3|[F3|[F3|[]]]].
          * revert F3; apply spaces_notin; auto.
          * auto.
          * discriminate. }
    rewrite LF. reflexivity.
  - replace (((w ++ a ++ rest) ++ t) ++ [NUL]) with (w ++ (a ++ rest ++ t) ++ [NUL]) by lapp.
    assert (NUb : ~ In NUL (a ++ rest ++ t)) by (rewrite !in_app_iff; tauto).
    assert (SK : skipwhite (w ++ (a ++ rest ++ t) ++ [NUL]) 0 = Ok (length w))
      by (rewrite Ea; cbn [app]; apply skipwhite_app0; auto).
    assert (RD : rd (w ++ (a ++ rest ++ t) ++ [NUL]) (length w) = Ok c)
      by (rewrite Ea; cbn [app]; apply rd_app).
    assert (c <> NUL) by (intros ->; apply P1; rewrite Ea; left; auto).
    assert (c <> chHASH) by (intros ->; apply H1; rewrite Ea; left; auto).
    rewrite SK; cbn [bind]. rewrite RD; cbn [bind].
    rewrite (proj2 (Ascii.eqb_neq c NUL)) by assumption.
    rewrite (proj2 (Ascii.eqb_neq c chHASH)) by assumption.
    rewrite cstr_at_line by assumption. cbn [bind].
    destruct (prefixb PAR_END (a ++ rest ++ t)) eqn:E.
    { exfalso. apply prefixb_spec in E. destruct E as [q E]. rewrite Ea in E.
      cbn in E. injection E as E _. auto. }
    rewrite (proj2 (Ascii.eqb_neq c chLT)) by assumption.
    destruct bp as [b|]; [|reflexivity].
    set (buf := w ++ (a ++ rest ++ t) ++ [NUL]).
    assert (PL : parse_par_line buf (length w) = Fatal).
    { unfold parse_par_line.
      assert (SK2 : skipwhite buf (length w) = Ok (length w))
        by (unfold buf; rewrite Ea; cbn [app]; apply skipwhite_id; auto).
      rewrite SK2; cbn [bind].
      assert (EN : nth_error buf (length (w ++ a ++ rest ++ t)) = Some NUL)
        by (unfold buf; rewrite app_assoc; apply nth_error_app_len).
      assert (SC : exists h cp, scan_line buf (skipn (length w) buf) (length w) None = Ok (None, h, cp)
                    /\ cp <= length (w ++ a ++ rest ++ t)).
      { unfold buf at 2. rewrite skipn_len_app. rewrite <- app_assoc.
        rewrite scan_line_skip by assumption.
        destruct R as [->|[r ->]].
        - cbn [app]. destruct Ht as [-> | ->]; cbn [app scan_line].
          + rewrite Ascii.eqb_refl. eexists _, _. split; [reflexivity|]. rewrite !app_length; simpl; lia.
          + rewrite (proj2 (Ascii.eqb_neq LF NUL)) by discriminate.
            rewrite (proj2 (Ascii.eqb_neq LF chEQ)) by discriminate. cbn [bind].
            rewrite (proj2 (Ascii.eqb_neq LF chHASH)) by discriminate.
            rewrite Ascii.eqb_refl. eexists _, _. split; [reflexivity|]. rewrite !app_length; simpl; lia.
        - cbn [app scan_line].
          rewrite (proj2 (Ascii.eqb_neq chHASH NUL)) by discriminate.
          rewrite (proj2 (Ascii.eqb_neq chHASH chEQ)) by discriminate. cbn [bind].
          rewrite Ascii.eqb_refl.
          destruct (skipwhite_spec buf (S (length w + length a))
             (length (w ++ a ++ (chHASH :: r) ++ t)) NUL) as (k & y & A & _); auto.
          + rewrite !app_length; simpl; lia.
          + rewrite A; cbn [bind]. eexists _, _. split; [reflexivity|].
            rewrite !app_length; simpl; lia. }
      destruct SC as (h & cp & SC & LC). rewrite SC; cbn [bind].
      destruct (find_stop_spec buf NUL cp (length (w ++ a ++ rest ++ t))) as (q & z & F1 & _); auto.
      rewrite F1; cbn [bind]. reflexivity. }
    rewrite PL. reflexivity.
Qed.

Lemma par_open_malformed : forall fname is l rest,
  Forall item_ok is -> Forall (fun i => ~ is_end i) is -> Forall fits is -> placed false is ->
  malformed l -> length l + 2 <= MAXLEN -> rest = [] \/ (exists r, rest = LF :: r) ->
  par_open init_state fname (Some (file_of is ++ l ++ rest)) = Fatal.
Proof.
  intros fname is l rest OK NE FT PL M L R.
  destruct (malformed_noLF l M) as (NL & NU & NN).
  unfold par_open. cbn [now_open init_state blocks].
  fold (load [] None (file_of is ++ l ++ rest)). rewrite load_items by auto.
  destruct (apply_items (([] : db), None) is) as [d bp]. rewrite load_unfold.
  destruct R as [->|[r ->]].
  - rewrite app_nil_r. rewrite fgets_last; auto; [|unfold MAXLEN in *; lia].
    assert (H := par_line_malformed d bp l [] M (or_introl eq_refl)).
    rewrite app_nil_r in H. rewrite H. reflexivity.
  - rewrite fgets_line; auto; [|unfold MAXLEN in *; lia].
    rewrite par_line_malformed; auto.
Qed.

(** A parameter line before any block line. *)
Lemma par_open_unplaced : forall fname is i rest,
  Forall item_ok is -> Forall (fun i => ~ is_end i) is -> Forall fits is ->
  Forall (fun j => needs_block j = false /\ (forall w1 w2 n w3 r, j <> IBlock w1 w2 n w3 r)) is ->
  item_ok i -> needs_block i = true -> fits i -> rest = [] \/ (exists r, rest = LF :: r) ->
  par_open init_state fname (Some (file_of is ++ print_item i ++ rest)) = Fatal.
Proof.
  intros fname is i rest OK NE FT NB OKi NBi FTi R.
  assert (PL : placed false is).
  { clear - NB. induction NB as [|j is [H1 H2] _ IH]; simpl; [auto|]. split; [congruence|].
    destruct j; auto. exfalso; eapply H2; reflexivity. }
  assert (LB : last_block None is = None).
  { clear - NB. induction NB as [|j is [H1 H2] _ IH]; simpl; [auto|].
    destruct j; auto. exfalso; eapply H2; reflexivity. }
  unfold par_open. cbn [now_open init_state blocks].
  fold (load [] None (file_of is ++ print_item i ++ rest)). rewrite load_items by auto.
  assert (EB := apply_items_expected is PL). cbv zeta in EB.
  destruct (apply_items (([] : db), None) is) as [d bp]. simpl in EB. destruct EB as [_ EB].
  rewrite LB in EB. subst bp. rewrite load_unfold.
  assert (PLn : forall t, t = [] \/ t = [LF] -> par_line d None ((print_item i ++ t) ++ [NUL]) = Fatal).
  { intros t Ht.
    assert (FB : exists c x, exists w, print_item i = w ++ c :: x /\ spaces w /\ isspace c = false /\
                 c <> NUL /\ c <> chHASH /\ c <> chLT /\ ~ In NUL (c :: x)).
    { assert (NU : ~ In NUL (print_item i)).
      { destruct i; try discriminate; simpl in OKi |- *.
        - destruct OKi as (W1 & W2 & W3 & W4 & (Fn & _) & V).
          rewrite !in_app_iff. simpl. rewrite !in_app_iff.
          assert (~ In NUL value) by (destruct V as [->|[V _]]; [auto|apply field_nonul; auto]).
          assert (H3 := field_nonul name Fn).
          assert (H4 := spaces_notin _ NUL (all_space_spaces _ W1) isspace_NUL).
          assert (H5 := spaces_notin _ NUL (all_space_spaces _ W2) isspace_NUL).
          assert (H6 := spaces_notin _ NUL (all_space_spaces _ W3) isspace_NUL).
          assert (H7 := spaces_notin _ NUL (all_space_spaces _ W4) isspace_NUL).
          intuition discriminate.
        - destruct OKi as (W1 & W2 & W3 & W4 & W5 & W6 & (Fn & _) & [Fv _] & [[P1 P2] Tc]).
          rewrite !in_app_iff. simpl. rewrite !in_app_iff. simpl. rewrite !in_app_iff.
          assert (H2 := field_nonul value Fv).
          assert (H3 := field_nonul name Fn).
          assert (H4 := spaces_notin _ NUL (all_space_spaces _ W1) isspace_NUL).
          assert (H5 := spaces_notin _ NUL (all_space_spaces _ W2) isspace_NUL).
          assert (H6 := spaces_notin _ NUL (all_space_spaces _ W3) isspace_NUL).
          assert (H7 := spaces_notin _ NUL (all_space_spaces _ W4) isspace_NUL).
          assert (H8 := spaces_notin _ NUL (all_space_spaces _ W5) isspace_NUL).
          assert (H9 := spaces_notin _ NUL (all_space_spaces _ W6) isspace_NUL).
          intuition discriminate. }
      assert (E : exists w1 n y, print_item i = w1 ++ n ++ y /\ all_space w1 /\ par_name_ok n).
      { destruct i; try discriminate; simpl in OKi |- *.
        - exists w1, name, (w2 ++ chEQ :: w3 ++ value ++ w4). tauto.
        - exists w1, name, (w2 ++ chEQ :: w3 ++ value ++ w4 ++ chHASH :: w5 ++ comment ++ w6). tauto. }
      destruct E as (w1 & n & y & E & W & (Fn & N1 & N2 & N3)).
      destruct (field_first n Fn) as (n0 & n1 & En & Sn0).
      rewrite E in NU. rewrite !in_app_iff in NU.
      exists n0, (n1 ++ y), w1. repeat split; auto.
      - rewrite E, En. lapp.
      - apply all_space_spaces; auto.
      - intros ->. apply NU. right; left. rewrite En; left; auto.
      - intros ->. apply N2. rewrite En; left; auto.
      - intros ->. apply (N3 n1). rewrite En. reflexivity.
      - rewrite En in NU. simpl in *. rewrite in_app_iff. tauto. }
    destruct FB as (c & x & w & E & W & C1 & C2 & C3 & C4 & NU). rewrite E.
    unfold par_line.
    replace (((w ++ c :: x) ++ t) ++ [NUL]) with (w ++ (c :: x ++ t) ++ [NUL]) by lapp.
    assert (SK : skipwhite (w ++ (c :: x ++ t) ++ [NUL]) 0 = Ok (length w))
      by (apply skipwhite_app0; auto).
    rewrite SK; cbn [bind].
    assert (RD : rd (w ++ (c :: x ++ t) ++ [NUL]) (length w) = Ok c)
      by (cbn [app]; apply rd_app).
    rewrite RD; cbn [bind].
    rewrite (proj2 (Ascii.eqb_neq c NUL)) by assumption.
    rewrite (proj2 (Ascii.eqb_neq c chHASH)) by assumption.
    rewrite cstr_at_line.
    2:{ intros H. change (c :: x ++ t) with ((c :: x) ++ t) in H. apply in_app_iff in H.
        destruct H as [H|H]; [auto|]. destruct Ht as [-> | ->]; [destruct H|].
        destruct H as [H|[]]; discriminate. }
    cbn [bind].
    destruct (prefixb PAR_END (c :: x ++ t)) eqn:EP.
    { exfalso. apply prefixb_spec in EP. destruct EP as [q EP].
      cbn in EP. injection EP as EP _. auto. }
    rewrite (proj2 (Ascii.eqb_neq c chLT)) by assumption. reflexivity. }
  destruct R as [->|[r ->]].
  - rewrite app_nil_r. rewrite fgets_last.
    + assert (H := PLn [] (or_introl eq_refl)). rewrite app_nil_r in H. rewrite H. reflexivity.
    + apply print_item_noLF; auto.
    + unfold fits, MAXLEN in *; lia.
    + destruct i; simpl; try discriminate; intros H;
        apply (f_equal (@length ascii)) in H; rewrite !app_length in H; simpl in H; lia.
  - rewrite fgets_line; [|apply print_item_noLF; auto|unfold fits, MAXLEN in *; lia].
    rewrite PLn; auto.
Qed.
