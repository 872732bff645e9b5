(** * C05: reading well-formed input files *)
From Coq Require Import String Ascii NArith ZArith Bool Arith Lia List.
From Verif Require Import CStr CStrFacts ParModel ParSpec ParSafety ParDbProofs.
Import ListNotations.

Ltac lapp := repeat (progress (rewrite <- ?app_assoc; cbn [app])); reflexivity.

Definition spaces (w : str) : Prop := Forall (fun c => isspace c = true) w.

Lemma all_space_spaces : forall w, all_space w -> spaces w.
Proof. intros w H. eapply Forall_impl; [|exact H]. simpl; tauto. Qed.

Lemma skipwhite_app : forall a w c r, spaces w -> isspace c = false ->
  skipwhite (a ++ w ++ c :: r) (length a) = Ok (length a + length w).
Proof.
  intros a w c r W C. unfold skipwhite. rewrite skipn_len_app.
  generalize (length a) as k. induction W as [|x w Hx W IH]; intros k; simpl.
  - rewrite C. f_equal; lia.
  - rewrite Hx, IH. f_equal; lia.
Qed.

Lemma skipwhite_id : forall a c r, isspace c = false ->
  skipwhite (a ++ c :: r) (length a) = Ok (length a).
Proof.
  intros a c r C. unfold skipwhite. rewrite skipn_len_app. cbn [skipwhite_from]. rewrite C. reflexivity.
Qed.

Lemma str_term_scan_app : forall a x w r, isspace x = false -> spaces w ->
  str_term_scan (a ++ x :: w ++ r) (length a + 1 + length w) = Ok (length a + 1).
Proof.
  intros a x w. induction w as [|y w IH] using rev_ind; intros r X W.
  - simpl length. replace (length a + 1 + 0) with (S (length a)) by lia. simpl str_term_scan.
    rewrite rd_app; cbn [bind]. rewrite X. f_equal; lia.
  - apply Forall_app in W. destruct W as [W Y]. inversion Y; subst.
    rewrite app_length; simpl length.
    replace (length a + 1 + (length w + 1)) with (S (length a + 1 + length w)) by lia.
    simpl str_term_scan.
    replace (a ++ x :: (w ++ [y]) ++ r) with ((a ++ x :: w) ++ y :: r)
      by lapp.
    replace (length a + 1 + length w) with (length (a ++ x :: w)) at 1
      by (rewrite app_length; simpl; lia).
    rewrite rd_app; cbn [bind]. rewrite H1.
    replace ((a ++ x :: w) ++ y :: r) with (a ++ x :: w ++ y :: r)
      by lapp.
    apply IH; auto.
Qed.

(** [str_term] at the byte [t] after a run [w] of blanks: a NUL lands right after
    the last non-blank [x]; the rest keeps its length. *)
Lemma str_term_app : forall a x w t r, isspace x = false -> spaces w ->
  exists w', length w' = length w /\
    (w = [] -> w' = []) /\
    str_term (a ++ x :: w ++ t :: r) (length a + 1 + length w) = Ok (a ++ x :: NUL :: w' ++ r) /\
    (w <> [] -> exists w0, w' = w0 ++ [t] /\ spaces w0).
Proof.
  intros a x w t r X W. unfold str_term.
  rewrite str_term_scan_app by assumption. cbn [bind].
  replace (length a + 1) with (length (a ++ [x])) by (rewrite app_length; reflexivity).
  destruct w as [|y w].
  - exists []. simpl. split; [reflexivity|]. split; [reflexivity|]. split; [|congruence].
    replace (a ++ x :: t :: r) with ((a ++ [x]) ++ t :: r) by lapp.
    rewrite wr_app. rewrite <- app_assoc. reflexivity.
  - exists (w ++ [t]). split; [rewrite app_length; simpl; lia|]. split; [discriminate|].
    inversion W; subst. split; [|intros; exists w; auto].
    replace (a ++ x :: (y :: w) ++ t :: r) with ((a ++ [x]) ++ y :: w ++ t :: r)
      by lapp.
    rewrite wr_app. rewrite <- !app_assoc. reflexivity.
Qed.

Lemma find_stop_app : forall a s st c r, ~ In NUL s -> ~ In st s -> (c = NUL \/ c = st) ->
  find_stop (a ++ s ++ c :: r) st (length a) = Ok (length a + length s).
Proof.
  intros a s st c r N1 N2 HC. unfold find_stop. rewrite skipn_len_app.
  generalize (length a) as k. induction s as [|x s IH]; intros k; simpl.
  - assert (E : Ascii.eqb c NUL || Ascii.eqb c st = true).
    { destruct HC as [->| ->]; rewrite Ascii.eqb_refl; auto using orb_true_r. }
    rewrite E. f_equal; lia.
  - destruct (Ascii.eqb_spec x NUL) as [E|E]; [exfalso; apply N1; left; auto|].
    destruct (Ascii.eqb_spec x st) as [E2|E2]; [exfalso; apply N2; left; auto|].
    simpl. rewrite IH; [f_equal; lia| |]; intro; [apply N1|apply N2]; right; auto.
Qed.

(** scanning over bytes that are neither NUL, '=' nor '#' *)
Lemma scan_line_skip : forall buf s l cp eq,
  ~ In NUL s -> ~ In chEQ s -> ~ In chHASH s ->
  scan_line buf (s ++ l) cp eq = scan_line buf l (cp + length s) eq.
Proof.
  induction s as [|x s IH]; intros l cp eq N1 N2 N3; simpl.
  - f_equal; lia.
  - destruct (Ascii.eqb_spec x NUL) as [E|E]; [exfalso; apply N1; left; auto|].
    destruct (Ascii.eqb_spec x chEQ) as [E2|E2]; [exfalso; apply N2; left; auto|].
    cbn [bind].
    destruct (Ascii.eqb_spec x chHASH) as [E3|E3]; [exfalso; apply N3; left; auto|].
    rewrite IH; [f_equal; lia| | |]; intro; [apply N1|apply N2|apply N3]; right; auto.
Qed.

Lemma scan_line_skip_eq : forall buf s l cp q,
  ~ In NUL s -> ~ In chHASH s ->
  scan_line buf (s ++ l) cp (Some q) = scan_line buf l (cp + length s) (Some q).
Proof.
  induction s as [|x s IH]; intros l cp q N1 N3; simpl.
  - f_equal; lia.
  - destruct (Ascii.eqb_spec x NUL) as [E|E]; [exfalso; apply N1; left; auto|].
    assert (EE : (if Ascii.eqb x chEQ then Ok (Some q) else Ok (Some q)) = Ok (Some q))
      by (destruct (Ascii.eqb x chEQ); reflexivity).
    rewrite EE. cbn [bind].
    destruct (Ascii.eqb_spec x chHASH) as [E3|E3]; [exfalso; apply N3; left; auto|].
    rewrite IH; [f_equal; lia| |]; intro; [apply N1|apply N3]; right; auto.
Qed.

Lemma spaces_notin : forall w c, spaces w -> isspace c = false -> ~ In c w.
Proof.
  intros w c W C HI. unfold spaces in W. rewrite Forall_forall in W.
  rewrite (W c HI) in C; discriminate.
Qed.

(** A non-empty trimmed field ends (and starts) in a non-blank. *)
Lemma field_last : forall s, field s -> exists a x, s = a ++ [x] /\ isspace x = false.
Proof.
  intros s (N & _ & T). destruct T as [->|(a & m & b & [E|E] & A & B)]; [congruence| |].
  - exists [], a; auto.
  - exists (a :: m), b; auto.
Qed.
Lemma field_first : forall s, field s -> exists x a, s = x :: a /\ isspace x = false.
Proof.
  intros s (N & _ & T). destruct T as [->|(a & m & b & [E|E] & A & B)]; [congruence| |]; subst; eauto.
Qed.
Lemma field_nonul : forall s, field s -> ~ In NUL s.
Proof. intros s (_ & [H _] & _); auto. Qed.

(** ** One parameter line, with the buffer beginning anywhere ([pre]) *)

Lemma isspace_NUL : isspace NUL = false. Proof. reflexivity. Qed.
Lemma isspace_EQ : isspace chEQ = false. Proof. reflexivity. Qed.
Lemma isspace_HASH : isspace chHASH = false. Proof. reflexivity. Qed.
#[global] Hint Resolve isspace_NUL isspace_EQ isspace_HASH : parse.

Lemma cstr_at_pos : forall buf i a s r, buf = a ++ s ++ NUL :: r -> i = length a -> ~ In NUL s ->
  cstr_at buf i = Ok s.
Proof. intros; subst; apply cstr_at_app; auto. Qed.

(** value present, no comment; [w4] holds trailing blanks (incl. the newline) *)
Lemma parse_par_value : forall pre n w2 w3 v w4,
  field n -> ~ In chEQ n -> ~ In chHASH n ->
  spaces w2 -> spaces w3 -> spaces w4 -> field v -> ~ In chHASH v ->
  parse_par_line (pre ++ n ++ w2 ++ chEQ :: w3 ++ v ++ w4 ++ [NUL]) (length pre) = Ok (n, v, None).
Proof.
  intros pre n w2 w3 v w4 Fn Ne Nh W2 W3 W4 Fv Nv.
  destruct (field_first n Fn) as (n0 & n1 & En & Sn0).
  destruct (field_first v Fv) as (v0 & v1 & Ev & Sv0).
  destruct (field_last n Fn) as (na & nx & Enl & Snx).
  destruct (field_last v Fv) as (va & vx & Evl & Svx).
  assert (NUn := field_nonul n Fn). assert (NUv := field_nonul v Fv).
  assert (NU2 := spaces_notin w2 NUL W2 isspace_NUL).
  assert (NU3 := spaces_notin w3 NUL W3 isspace_NUL).
  assert (NU4 := spaces_notin w4 NUL W4 isspace_NUL).
  assert (NE2 := spaces_notin w2 chEQ W2 isspace_EQ).
  assert (NH2 := spaces_notin w2 chHASH W2 isspace_HASH).
  assert (NH3 := spaces_notin w3 chHASH W3 isspace_HASH).
  assert (NH4 := spaces_notin w4 chHASH W4 isspace_HASH).
  set (buf := pre ++ n ++ w2 ++ chEQ :: w3 ++ v ++ w4 ++ [NUL]).
  unfold parse_par_line.
  assert (K1 : skipwhite buf (length pre) = Ok (length pre)).
  { unfold buf. rewrite En. cbn [app]. apply skipwhite_id; auto. }
  rewrite K1; cbn [bind].
  (* the scan *)
  set (iv := length pre + length n + length w2 + 1 + length w3).
  assert (K2 : scan_line buf (skipn (length pre) buf) (length pre) None =
          Ok (Some (length pre + length n + length w2, iv), None,
              iv + length v + length w4)).
  { unfold buf at 2. rewrite skipn_len_app.
    rewrite scan_line_skip by assumption. rewrite scan_line_skip by assumption.
    cbn [scan_line]. rewrite (proj2 (Ascii.eqb_neq chEQ NUL)) by discriminate.
    rewrite Ascii.eqb_refl.
    assert (KV : skipwhite buf (S (length pre + length n + length w2)) = Ok iv).
    { replace (S (length pre + length n + length w2)) with (length (pre ++ n ++ w2 ++ [chEQ]))
        by (rewrite !app_length; simpl; lia).
      unfold buf. rewrite Ev.
      replace (pre ++ n ++ w2 ++ chEQ :: w3 ++ (v0 :: v1) ++ w4 ++ [NUL])
        with ((pre ++ n ++ w2 ++ [chEQ]) ++ w3 ++ v0 :: (v1 ++ w4 ++ [NUL]))
        by lapp.
      rewrite skipwhite_app by assumption. f_equal. unfold iv. rewrite !app_length; simpl; lia. }
    rewrite KV; cbn [bind]. rewrite (proj2 (Ascii.eqb_neq chEQ chHASH)) by discriminate.
    rewrite !scan_line_skip_eq by assumption. cbn [scan_line]. rewrite Ascii.eqb_refl.
    repeat f_equal. unfold iv; lia. }
  rewrite K2; cbn [bind].
  assert (K3 : find_stop buf NUL (iv + length v + length w4) = Ok (iv + length v + length w4)).
  { unfold buf.
    replace (pre ++ n ++ w2 ++ chEQ :: w3 ++ v ++ w4 ++ [NUL])
      with ((pre ++ n ++ w2 ++ chEQ :: w3 ++ v ++ w4) ++ [] ++ NUL :: [])
      by lapp.
    replace (iv + length v + length w4) with (length (pre ++ n ++ w2 ++ chEQ :: w3 ++ v ++ w4))
      by (unfold iv; rewrite !app_length; simpl; rewrite !app_length; lia).
    rewrite find_stop_app; auto; try (simpl; f_equal; lia). }
  rewrite K3; cbn [bind].
  (* terminate the name *)
  destruct (str_term_app (pre ++ na) nx w2 chEQ (w3 ++ v ++ w4 ++ [NUL]) Snx W2)
    as (w2' & L2 & _ & T1 & _).
  assert (B1 : str_term buf (length pre + length n + length w2) =
               Ok ((pre ++ n ++ NUL :: w2' ++ w3) ++ v ++ w4 ++ [NUL])).
  { unfold buf.
    replace (pre ++ n ++ w2 ++ chEQ :: w3 ++ v ++ w4 ++ [NUL])
      with ((pre ++ na) ++ nx :: w2 ++ chEQ :: w3 ++ v ++ w4 ++ [NUL])
      by (rewrite Enl; lapp).
    replace (length pre + length n + length w2) with (length (pre ++ na) + 1 + length w2)
      by (rewrite Enl, !app_length; simpl; lia).
    rewrite T1. f_equal. rewrite Enl, <- !app_assoc. simpl. rewrite <- !app_assoc. reflexivity. }
  rewrite B1; cbn [bind].
  set (b1 := (pre ++ n ++ NUL :: w2' ++ w3) ++ v ++ w4 ++ [NUL]).
  set (head := pre ++ n ++ NUL :: w2' ++ w3).
  assert (LH : length head = iv).
  { unfold head, iv. rewrite !app_length; simpl; rewrite !app_length, L2. lia. }
  (* terminate the value *)
  destruct (str_term_app (head ++ va) vx w4 NUL [] Svx W4) as (w4' & L4 & _ & T2 & _).
  assert (B2 : str_term b1 (iv + length v + length w4) = Ok (head ++ v ++ NUL :: w4')).
  { unfold b1. fold head.
    replace (head ++ v ++ w4 ++ [NUL]) with ((head ++ va) ++ vx :: w4 ++ NUL :: [])
      by (rewrite Evl; lapp).
    replace (iv + length v + length w4) with (length (head ++ va) + 1 + length w4)
      by (rewrite Evl, !app_length, LH; simpl; lia).
    rewrite T2. f_equal. rewrite Evl, <- !app_assoc, app_nil_r. reflexivity. }
  rewrite B2; cbn [bind].
  rewrite (cstr_at_pos _ _ pre n (w2' ++ w3 ++ v ++ NUL :: w4')); auto.
  2:{ unfold head. rewrite <- !app_assoc. simpl. rewrite <- !app_assoc. reflexivity. }
  cbn [bind].
  rewrite (cstr_at_pos _ _ head v w4'); auto.
Qed.

(** empty value, no comment *)
Lemma parse_par_empty : forall pre n w2 w3,
  field n -> ~ In chEQ n -> ~ In chHASH n -> spaces w2 -> spaces w3 ->
  parse_par_line (pre ++ n ++ w2 ++ chEQ :: w3 ++ [NUL]) (length pre) = Ok (n, [], None).
Proof.
  intros pre n w2 w3 Fn Ne Nh W2 W3.
  destruct (field_first n Fn) as (n0 & n1 & En & Sn0).
  destruct (field_last n Fn) as (na & nx & Enl & Snx).
  assert (NUn := field_nonul n Fn).
  assert (NU2 := spaces_notin w2 NUL W2 isspace_NUL).
  assert (NU3 := spaces_notin w3 NUL W3 isspace_NUL).
  assert (NE2 := spaces_notin w2 chEQ W2 isspace_EQ).
  assert (NH2 := spaces_notin w2 chHASH W2 isspace_HASH).
  assert (NH3 := spaces_notin w3 chHASH W3 isspace_HASH).
  set (buf := pre ++ n ++ w2 ++ chEQ :: w3 ++ [NUL]).
  unfold parse_par_line.
  assert (K1 : skipwhite buf (length pre) = Ok (length pre)).
  { unfold buf. rewrite En. cbn [app]. apply skipwhite_id; auto. }
  rewrite K1; cbn [bind].
  set (iv := length pre + length n + length w2 + 1 + length w3).
  assert (K2 : scan_line buf (skipn (length pre) buf) (length pre) None =
          Ok (Some (length pre + length n + length w2, iv), None, iv)).
  { unfold buf at 2. rewrite skipn_len_app.
    rewrite scan_line_skip by assumption. rewrite scan_line_skip by assumption.
    cbn [scan_line]. rewrite (proj2 (Ascii.eqb_neq chEQ NUL)) by discriminate.
    rewrite Ascii.eqb_refl.
    assert (KV : skipwhite buf (S (length pre + length n + length w2)) = Ok iv).
    { replace (S (length pre + length n + length w2)) with (length (pre ++ n ++ w2 ++ [chEQ]))
        by (rewrite !app_length; simpl; lia).
      unfold buf.
      replace (pre ++ n ++ w2 ++ chEQ :: w3 ++ [NUL])
        with ((pre ++ n ++ w2 ++ [chEQ]) ++ w3 ++ NUL :: [])
        by lapp.
      rewrite skipwhite_app; auto. f_equal. unfold iv. rewrite !app_length; simpl; lia. }
    rewrite KV; cbn [bind]. rewrite (proj2 (Ascii.eqb_neq chEQ chHASH)) by discriminate.
    rewrite !scan_line_skip_eq by assumption. cbn [scan_line]. rewrite Ascii.eqb_refl.
    repeat f_equal. unfold iv; lia. }
  rewrite K2; cbn [bind].
  assert (K3 : find_stop buf NUL iv = Ok iv).
  { unfold buf.
    replace (pre ++ n ++ w2 ++ chEQ :: w3 ++ [NUL])
      with ((pre ++ n ++ w2 ++ chEQ :: w3) ++ [] ++ NUL :: [])
      by lapp.
    replace iv with (length (pre ++ n ++ w2 ++ chEQ :: w3))
      by (unfold iv; rewrite !app_length; simpl; lia).
    rewrite find_stop_app; auto; try (simpl; f_equal; lia). }
  rewrite K3; cbn [bind].
  destruct (str_term_app (pre ++ na) nx w2 chEQ (w3 ++ [NUL]) Snx W2)
    as (w2' & L2 & E2 & T1 & S2).
  assert (B1 : str_term buf (length pre + length n + length w2) =
               Ok ((pre ++ n ++ NUL :: w2') ++ w3 ++ [NUL])).
  { unfold buf.
    replace (pre ++ n ++ w2 ++ chEQ :: w3 ++ [NUL])
      with ((pre ++ na) ++ nx :: w2 ++ chEQ :: w3 ++ [NUL])
      by (rewrite Enl; lapp).
    replace (length pre + length n + length w2) with (length (pre ++ na) + 1 + length w2)
      by (rewrite Enl, !app_length; simpl; lia).
    rewrite T1. f_equal. rewrite Enl, <- !app_assoc. simpl. rewrite <- ?app_assoc. reflexivity. }
  rewrite B1; cbn [bind].
  (* the byte before w3 is '=' or the NUL that replaced it: not blank *)
  assert (PL : exists h x, pre ++ n ++ NUL :: w2' = h ++ [x] /\ isspace x = false /\
             exists q, h ++ [x] = pre ++ n ++ NUL :: q).
  { destruct w2 as [|y w2].
    - rewrite (E2 eq_refl). exists (pre ++ n), NUL. rewrite <- !app_assoc. simpl.
      repeat split; auto. exists []; reflexivity.
    - destruct S2 as (w0 & -> & _); [discriminate|].
      exists (pre ++ n ++ NUL :: w0), chEQ. rewrite <- !app_assoc. simpl.
      repeat split; auto. exists (w0 ++ [chEQ]); reflexivity. }
  destruct PL as (h & x & Eh & Sx & q & Eq).
  destruct (str_term_app h x w3 NUL [] Sx W3) as (w3' & L3 & _ & T2 & _).
  assert (Lh : length h + 1 = length pre + length n + 1 + length w2).
  { assert (length (h ++ [x]) = length (pre ++ n ++ NUL :: w2')) by (rewrite Eh; reflexivity).
    rewrite !app_length in H; simpl in H. lia. }
  assert (B2 : str_term ((pre ++ n ++ NUL :: w2') ++ w3 ++ [NUL]) iv = Ok (h ++ x :: NUL :: w3')).
  { rewrite Eh.
    replace ((h ++ [x]) ++ w3 ++ [NUL]) with (h ++ x :: w3 ++ NUL :: [])
      by lapp.
    replace iv with (length h + 1 + length w3) by (unfold iv; lia).
    rewrite T2, app_nil_r. reflexivity. }
  rewrite B2; cbn [bind].
  rewrite (cstr_at_pos _ _ pre n (q ++ NUL :: w3')); auto.
  2:{ replace (h ++ x :: NUL :: w3') with ((h ++ [x]) ++ NUL :: w3') by lapp.
      rewrite Eq, <- !app_assoc. reflexivity. }
  cbn [bind].
  (* the value pointer is at the final NUL *)
  assert (LV : nth_error (h ++ x :: NUL :: w3') iv = Some NUL).
  { assert (B3 := B2). unfold str_term in B3.
    destruct (str_term_spec iv ((pre ++ n ++ NUL :: w2') ++ w3 ++ [NUL]) (length h) x)
      as (b' & A1 & A2 & A3 & A4); auto.
    - rewrite !app_length; simpl. unfold iv. lia.
    - unfold iv; lia.
    - rewrite Eh, <- app_assoc. simpl. apply nth_error_app_len.
    - rewrite B2 in A1. inversion A1; subst b'. apply A4.
      rewrite app_assoc.
      replace iv with (length ((pre ++ n ++ NUL :: w2') ++ w3))
        by (rewrite !app_length; simpl; unfold iv; lia).
      apply nth_error_app_len. }
  destruct (nth_error_split _ _ LV) as (p1 & p2 & E12 & L12).
  rewrite E12. rewrite (cstr_at_pos _ _ p1 [] p2); auto.
Qed.

(** value and comment *)
Lemma parse_par_comment : forall pre n w2 w3 v w4 w5 c w6,
  field n -> ~ In chEQ n -> ~ In chHASH n ->
  spaces w2 -> spaces w3 -> spaces w4 -> field v -> ~ In chHASH v ->
  spaces w5 -> spaces w6 -> (c = [] \/ field c) ->
  parse_par_line
    (pre ++ n ++ w2 ++ chEQ :: w3 ++ v ++ w4 ++ chHASH :: w5 ++ c ++ w6 ++ [NUL]) (length pre)
  = Ok (n, v, match c with [] => None | _ => Some c end).
Proof.
  intros pre n w2 w3 v w4 w5 c w6 Fn Ne Nh W2 W3 W4 Fv Nv W5 W6 Fc.
  destruct (field_first n Fn) as (n0 & n1 & En & Sn0).
  destruct (field_first v Fv) as (v0 & v1 & Ev & Sv0).
  destruct (field_last n Fn) as (na & nx & Enl & Snx).
  destruct (field_last v Fv) as (va & vx & Evl & Svx).
  assert (NUn := field_nonul n Fn). assert (NUv := field_nonul v Fv).
  assert (NUc : ~ In NUL c) by (destruct Fc as [->|Fc]; [auto|apply field_nonul; auto]).
  assert (NU2 := spaces_notin w2 NUL W2 isspace_NUL).
  assert (NU3 := spaces_notin w3 NUL W3 isspace_NUL).
  assert (NU4 := spaces_notin w4 NUL W4 isspace_NUL).
  assert (NU5 := spaces_notin w5 NUL W5 isspace_NUL).
  assert (NU6 := spaces_notin w6 NUL W6 isspace_NUL).
  assert (NE2 := spaces_notin w2 chEQ W2 isspace_EQ).
  assert (NH2 := spaces_notin w2 chHASH W2 isspace_HASH).
  assert (NH3 := spaces_notin w3 chHASH W3 isspace_HASH).
  assert (NH4 := spaces_notin w4 chHASH W4 isspace_HASH).
  set (tl := w5 ++ c ++ w6).
  assert (NUt : ~ In NUL tl) by (unfold tl; rewrite !in_app_iff; tauto).
  replace (w5 ++ c ++ w6 ++ [NUL]) with (tl ++ [NUL]) by (unfold tl; rewrite <- !app_assoc; reflexivity).
  set (buf := pre ++ n ++ w2 ++ chEQ :: w3 ++ v ++ w4 ++ chHASH :: tl ++ [NUL]).
  unfold parse_par_line.
  assert (K1 : skipwhite buf (length pre) = Ok (length pre)).
  { unfold buf. rewrite En. cbn [app]. apply skipwhite_id; auto. }
  rewrite K1; cbn [bind].
  set (iv := length pre + length n + length w2 + 1 + length w3).
  set (ih := iv + length v + length w4).
  (* where the comment pointer ends up *)
  assert (KC : exists ic, skipwhite buf (S ih) = Ok ic /\
     (c <> [] -> ic = ih + 1 + length w5) /\ (c = [] -> ic = ih + 1 + length tl)).
  { replace (S ih) with (length (pre ++ n ++ w2 ++ chEQ :: w3 ++ v ++ w4 ++ [chHASH]))
      by (unfold ih, iv; rewrite !app_length; simpl; rewrite !app_length; simpl; lia).
    unfold buf.
    replace (pre ++ n ++ w2 ++ chEQ :: w3 ++ v ++ w4 ++ chHASH :: tl ++ [NUL])
      with ((pre ++ n ++ w2 ++ chEQ :: w3 ++ v ++ w4 ++ [chHASH]) ++ tl ++ NUL :: [])
      by lapp.
    destruct Fc as [->|Fc].
    - exists (ih + 1 + length tl). rewrite skipwhite_app; auto.
      + split; [|split; auto]; [|congruence].
        f_equal. unfold ih, iv. rewrite !app_length; simpl; rewrite !app_length; simpl; lia.
      + unfold tl. apply Forall_app; split; auto.
    - destruct (field_first c Fc) as (c0 & c1 & Ec & Sc0).
      exists (ih + 1 + length w5). unfold tl. rewrite Ec.
      match goal with |- skipwhite (?H ++ (w5 ++ (c0 :: c1) ++ w6) ++ [NUL]) _ = _ /\ _ =>
        replace (H ++ (w5 ++ (c0 :: c1) ++ w6) ++ [NUL]) with (H ++ w5 ++ c0 :: (c1 ++ w6 ++ [NUL]))
        by lapp end.
      rewrite skipwhite_app by assumption.
      split; [|split; [auto|congruence]].
      f_equal. unfold ih, iv. rewrite !app_length; simpl; rewrite !app_length; simpl; lia. }
  destruct KC as (ic & KC & IC1 & IC2).
  assert (K2 : scan_line buf (skipn (length pre) buf) (length pre) None =
          Ok (Some (length pre + length n + length w2, iv), Some (ih, ic), ih)).
  { unfold buf at 2. rewrite skipn_len_app.
    rewrite scan_line_skip by assumption. rewrite scan_line_skip by assumption.
    cbn [scan_line]. rewrite (proj2 (Ascii.eqb_neq chEQ NUL)) by discriminate.
    rewrite Ascii.eqb_refl.
    assert (KV : skipwhite buf (S (length pre + length n + length w2)) = Ok iv).
    { replace (S (length pre + length n + length w2)) with (length (pre ++ n ++ w2 ++ [chEQ]))
        by (rewrite !app_length; simpl; lia).
      unfold buf. rewrite Ev.
      replace (pre ++ n ++ w2 ++ chEQ :: w3 ++ (v0 :: v1) ++ w4 ++ chHASH :: tl ++ [NUL])
        with ((pre ++ n ++ w2 ++ [chEQ]) ++ w3 ++ v0 :: (v1 ++ w4 ++ chHASH :: tl ++ [NUL]))
        by lapp.
      rewrite skipwhite_app by assumption. f_equal. unfold iv. rewrite !app_length; simpl; lia. }
    rewrite KV; cbn [bind]. rewrite (proj2 (Ascii.eqb_neq chEQ chHASH)) by discriminate.
    rewrite !scan_line_skip_eq by assumption. cbn [scan_line].
    rewrite (proj2 (Ascii.eqb_neq chHASH NUL)) by discriminate.
    rewrite (proj2 (Ascii.eqb_neq chHASH chEQ)) by discriminate. cbn [bind].
    rewrite Ascii.eqb_refl.
    replace (S (length pre + length n + length w2) + length w3 + length v + length w4) with ih
      by (unfold ih, iv; lia).
    rewrite KC; cbn [bind]. reflexivity. }
  rewrite K2; cbn [bind].
  set (inul := ih + 1 + length tl).
  assert (K3 : find_stop buf NUL ih = Ok inul).
  { unfold buf.
    replace (pre ++ n ++ w2 ++ chEQ :: w3 ++ v ++ w4 ++ chHASH :: tl ++ [NUL])
      with ((pre ++ n ++ w2 ++ chEQ :: w3 ++ v ++ w4) ++ (chHASH :: tl) ++ NUL :: [])
      by lapp.
    replace ih with (length (pre ++ n ++ w2 ++ chEQ :: w3 ++ v ++ w4)) at 1
      by (unfold ih, iv; rewrite !app_length; simpl; rewrite !app_length; lia).
    assert (NUt' : ~ In NUL (chHASH :: tl)) by (intros [H|H]; [discriminate|auto]).
    rewrite find_stop_app; auto.
    f_equal. unfold inul, ih, iv. rewrite !app_length; simpl; rewrite !app_length; lia. }
  rewrite K3; cbn [bind].
  (* name *)
  destruct (str_term_app (pre ++ na) nx w2 chEQ (w3 ++ v ++ w4 ++ chHASH :: tl ++ [NUL]) Snx W2)
    as (w2' & L2 & _ & T1 & _).
  set (head := pre ++ n ++ NUL :: w2' ++ w3).
  assert (LH : length head = iv).
  { unfold head, iv. rewrite !app_length; simpl; rewrite !app_length, L2. lia. }
  assert (B1 : str_term buf (length pre + length n + length w2) =
               Ok (head ++ v ++ w4 ++ chHASH :: tl ++ [NUL])).
  { unfold buf.
    replace (pre ++ n ++ w2 ++ chEQ :: w3 ++ v ++ w4 ++ chHASH :: tl ++ [NUL])
      with ((pre ++ na) ++ nx :: w2 ++ chEQ :: w3 ++ v ++ w4 ++ chHASH :: tl ++ [NUL])
      by (rewrite Enl; lapp).
    replace (length pre + length n + length w2) with (length (pre ++ na) + 1 + length w2)
      by (rewrite Enl, !app_length; simpl; lia).
    rewrite T1. f_equal. unfold head. rewrite Enl, <- !app_assoc. simpl. rewrite <- !app_assoc. reflexivity. }
  rewrite B1; cbn [bind].
  (* value *)
  destruct (str_term_app (head ++ va) vx w4 chHASH (tl ++ [NUL]) Svx W4) as (w4' & L4 & _ & T2 & _).
  assert (B2 : str_term (head ++ v ++ w4 ++ chHASH :: tl ++ [NUL]) ih
             = Ok ((head ++ v ++ NUL :: w4') ++ tl ++ [NUL])).
  { replace (head ++ v ++ w4 ++ chHASH :: tl ++ [NUL])
      with ((head ++ va) ++ vx :: w4 ++ chHASH :: tl ++ [NUL])
      by (rewrite Evl; lapp).
    replace ih with (length (head ++ va) + 1 + length w4)
      by (unfold ih; rewrite Evl, !app_length, LH; simpl; lia).
    rewrite T2. f_equal. rewrite Evl, <- !app_assoc. simpl. reflexivity. }
  rewrite B2; cbn [bind].
  set (head2 := head ++ v ++ NUL :: w4').
  assert (LH2 : length head2 = ih + 1).
  { unfold head2, ih. rewrite !app_length; simpl. rewrite LH, L4. lia. }
  assert (CN : forall r, cstr_at (head2 ++ r) (length pre) = Ok n).
  { intros r. apply (cstr_at_pos _ _ pre n (w2' ++ w3 ++ v ++ NUL :: w4' ++ r)); auto.
    unfold head2, head. rewrite <- !app_assoc. simpl. rewrite <- !app_assoc. reflexivity. }
  assert (CV : forall r, cstr_at (head2 ++ r) iv = Ok v).
  { intros r. apply (cstr_at_pos _ _ head v (w4' ++ r)); auto.
    unfold head2. rewrite <- !app_assoc. reflexivity. }
  destruct Fc as [Ec|Fc].
  - rewrite (IC2 Ec). replace (ih + 1 + length tl) with (length (head2 ++ tl))
      by (rewrite app_length, LH2; lia).
    rewrite app_assoc, rd_app. cbn [bind]. rewrite Ascii.eqb_refl.
    rewrite <- app_assoc, CN; cbn [bind]. rewrite CV; cbn [bind]. rewrite Ec; reflexivity.
  - destruct (field_first c Fc) as (c0 & c1 & Ec & Sc0).
    destruct (field_last c Fc) as (ca & cx & Ecl & Scx).
    rewrite IC1 by (rewrite Ec; discriminate).
    replace (ih + 1 + length w5) with (length (head2 ++ w5)) by (rewrite app_length, LH2; lia).
    assert (RB : head2 ++ tl ++ [NUL] = (head2 ++ w5) ++ c0 :: (c1 ++ w6 ++ [NUL])).
    { unfold tl. rewrite Ec, <- !app_assoc. reflexivity. }
    rewrite RB, rd_app. cbn [bind].
    assert (c0 <> NUL) by (intros ->; apply NUc; rewrite Ec; left; auto).
    rewrite (proj2 (Ascii.eqb_neq c0 NUL)) by assumption.
    destruct (str_term_app (head2 ++ w5 ++ ca) cx w6 NUL [] Scx W6) as (w6' & L6 & _ & T3 & _).
    assert (B3 : str_term ((head2 ++ w5) ++ c0 :: (c1 ++ w6 ++ [NUL])) inul =
                 Ok (head2 ++ w5 ++ c ++ NUL :: w6')).
    { rewrite <- RB. unfold tl.
      replace (head2 ++ (w5 ++ c ++ w6) ++ [NUL]) with ((head2 ++ w5 ++ ca) ++ cx :: w6 ++ NUL :: [])
        by (rewrite Ecl; lapp).
      replace inul with (length (head2 ++ w5 ++ ca) + 1 + length w6)
        by (unfold inul, tl; rewrite Ecl, !app_length, LH2; simpl; lia).
      rewrite T3. f_equal. rewrite Ecl, <- !app_assoc, app_nil_r. reflexivity. }
    rewrite B3; cbn [bind].
    rewrite CN; cbn [bind]. rewrite CV; cbn [bind].
    rewrite (cstr_at_pos _ _ (head2 ++ w5) c w6'); auto.
    2:{ rewrite <- !app_assoc; reflexivity. }
    cbn [bind]. rewrite Ec; reflexivity.
Qed.
