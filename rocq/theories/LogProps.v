(** * C12: the logs honour the levels; the log file is opened once, nothing is lost *)
From Coq Require Import String Ascii ZArith Bool Lia List.
From Verif Require Import CStr LogModel.
Import ListNotations.

Arguments S_ : simpl never.

(** ** Specification *)
(** The thresholds in force after a history. *)
Fixpoint out_threshold (l : Z) (cs : list call) : Z :=
  match cs with
  | [] => l
  | CSetLevel o _ :: r => out_threshold o r
  | _ :: r => out_threshold l r
  end.
Fixpoint err_threshold (l : Z) (cs : list call) : Z :=
  match cs with
  | [] => l
  | CSetLevel _ e :: r => err_threshold e r
  | _ :: r => err_threshold l r
  end.
(** The messages that must appear, in order, with the stream they belong to. *)
Fixpoint due (o e : Z) (cs : list call) : list (bool * str) :=   (* true: output stream *)
  match cs with
  | [] => []
  | CSetLevel o' e' :: r => due o' e' r
  | CPout _ l m :: r => (if (l <=? o)%Z then [(true, m)] else []) ++ due o e r
  | CPerr _ l m :: r => (if (l <=? e)%Z then [(false, m)] else []) ++ due o e r
  | _ :: r => due o e r
  end.
(** The message part of what was written. *)
Fixpoint texts (es : list ev) : list str :=
  match es with
  | [] => []
  | EvWrite _ m :: r => m :: texts r
  | _ :: r => texts r
  end.
Definition only_messages (cs : list call) : Prop :=
  forall c, In c cs -> match c with COpen _ _ _ _ | CClose => False | _ => True end.
(** Events concerning the output (error) log file or its fallback. *)
Fixpoint count_open (f : str) (es : list ev) : nat :=
  match es with
  | [] => 0
  | EvOpen g _ _ :: r => (if str_eqb f g then 1 else 0) + count_open f r
  | _ :: r => count_open f r
  end.

Lemma texts_app : forall a b, texts (a ++ b) = texts a ++ texts b.
Proof. induction a as [|[] a IH]; intros; simpl; rewrite ?IH; auto. Qed.
Lemma count_open_app : forall f a b, count_open f (a ++ b) = count_open f a + count_open f b.
Proof. induction a as [|[] a IH]; intros; simpl; rewrite ?IH; auto. lia. Qed.

(** The names are present whenever a file is still to be opened. *)
Definition ready (s : log) : Prop :=
  (open_out_flag s = true -> out_fname s <> None) /\ (open_err_flag s = true -> err_fname s <> None).

Ltac unf :=
  cbv beta iota zeta delta [do_call ath_log_set_level ath_log_open ath_log_out_open ath_log_err_open
    ath_log_close ath_perr ath_pout bind out_level err_level fp_out fp_err out_fname err_fname
    open_out_flag open_err_flag mode_a].
Ltac unfin H :=
  cbv beta iota zeta delta [do_call ath_log_set_level ath_log_open ath_log_out_open ath_log_err_open
    ath_log_close ath_perr ath_pout bind out_level err_level fp_out fp_err out_fname err_fname
    open_out_flag open_err_flag mode_a] in H.
Lemma do_call_ready : forall s c, ready s ->
  match do_call s c with
  | Ok (s', e) => ready s' /\ out_level s' = out_threshold (out_level s) [c] /\
                  err_level s' = err_threshold (err_level s) [c] /\
                  texts e = map snd (due (out_level s) (err_level s) [c])
  | Fatal => match c with COpen _ _ _ _ => True | _ => False end
  | UB => False
  end.
Proof.
  intros s c [R1 R2]. destruct s as [ol el fo fe of ef oo oe ma]. simpl in R1, R2.
  destruct c; unf; cbn [out_threshold err_threshold due map snd out_level err_level].
  - repeat split; auto.
  - destruct lazy; unf.
    + repeat split; auto; intros; discriminate.
    + destruct (av_out w); unf; auto. destruct (av_err w); unf; auto.
      split; [split; intros; discriminate|]. repeat split.
      destruct (Ascii.eqb mode "a"), (ex_out w), (ex_err w); reflexivity.
  - split; [split; intros; discriminate|]. repeat split. destruct fo, fe; reflexivity.
  - destruct (level <=? el)%Z; unf; [|repeat split; auto].
    destruct oe; unf; [|repeat split; auto].
    destruct ef as [f|]; [|elim R2; auto].
    destruct (av_err w); unf; (split; [split; auto; intros; discriminate|]); repeat split.
    destruct ma, (ex_err w); reflexivity.
  - destruct (level <=? ol)%Z; unf; [|repeat split; auto].
    destruct oo; unf; [|repeat split; auto].
    destruct of as [f|]; [|elim R1; auto].
    destruct (av_out w); unf; (split; [split; auto; intros; discriminate|]); repeat split.
    destruct ma, (ex_out w); reflexivity.
Qed.

Lemma do_calls_ready : forall cs s, ready s ->
  match do_calls s cs with
  | Ok (s', e) => ready s' /\ out_level s' = out_threshold (out_level s) cs /\
                  err_level s' = err_threshold (err_level s) cs /\
                  texts e = map snd (due (out_level s) (err_level s) cs)
  | Fatal => exists w b l m, In (COpen w b l m) cs
  | UB => False
  end.
Proof.
  induction cs as [|c cs IH]; intros s R; simpl; [auto|].
  assert (H := do_call_ready s c R). destruct (do_call s c) as [[s1 e1]| |]; cbn [bind].
  - destruct H as (R1 & A & B & C). specialize (IH s1 R1).
    destruct (do_calls s1 cs) as [[s2 e2]| |]; cbn [bind].
    + destruct IH as (R2 & D & E & F). split; auto.
      rewrite D, E, A, B. rewrite texts_app, C, F, A, B.
      destruct c; simpl; rewrite ?app_nil_r; auto; repeat split; auto; rewrite <- map_app; reflexivity.
    + destruct IH as (w & b & l & m & HI). exists w, b, l, m. right; auto.
    + auto.
  - destruct c; try tauto. eexists _, _, _, _. left; reflexivity.
  - auto.
Qed.

(** Every history is free of undefined behaviour, stops only in a failed eager
    open, and writes exactly the messages whose level does not exceed the
    threshold in force, each once and in order. *)
Theorem C12_messages_exact : forall cs,
  do_calls init_log cs <> UB /\
  (do_calls init_log cs = Fatal -> exists w b l m, In (COpen w b l m) cs) /\
  forall s es, do_calls init_log cs = Ok (s, es) ->
    texts es = map snd (due 0 0 cs) /\
    out_level s = out_threshold 0 cs /\ err_level s = err_threshold 0 cs.
Proof.
  intros cs. assert (R : ready init_log) by (split; simpl; discriminate).
  assert (H := do_calls_ready cs init_log R). destruct (do_calls init_log cs) as [[s e]| |].
  - destruct H as (_ & A & B & C). split; [discriminate|]. split; [discriminate|].
    intros s' es E. inversion E; subst. auto.
  - split; [discriminate|]. split; [auto|discriminate].
  - tauto.
Qed.
Print Assumptions C12_messages_exact.

(** The destinations of the messages. *)
Fixpoint writes (es : list ev) : list (dest * str) :=
  match es with
  | [] => []
  | EvWrite d m :: r => (d, m) :: writes r
  | _ :: r => writes r
  end.
Lemma writes_app : forall a b, writes (a ++ b) = writes a ++ writes b.
Proof. induction a as [|[] a IH]; intros; simpl; rewrite ?IH; auto. Qed.

(** Destination of a stream while no open or close intervenes. *)
Definition dest_of (out : bool) (ok : bool) (b : str) : dest :=
  if ok then File (b ++ S_ (if out then ".out" else ".err")) else if out then Stdout else Stderr.
(** Whether the file of the stream can be opened when its first message is due. *)
Fixpoint first_ok (out : bool) (o e : Z) (cs : list call) : bool :=
  match cs with
  | [] => true
  | CSetLevel o' e' :: r => first_ok out o' e' r
  | CPout w l _ :: r => if out && (l <=? o)%Z then av_out w else first_ok out o e r
  | CPerr w l _ :: r => if negb out && (l <=? e)%Z then av_err w else first_ok out o e r
  | _ :: r => first_ok out o e r
  end.

Definition file_state (s : log) (b : str) (fo fe : option bool) : Prop :=
  (* None: still to be opened; Some ok: opened already, successfully or not *)
  out_fname s = Some (b ++ S_ ".out") /\ err_fname s = Some (b ++ S_ ".err") /\
  match fo with
  | None => open_out_flag s = true
  | Some ok => open_out_flag s = false /\ fp_out s = if ok then Some (b ++ S_ ".out") else None
  end /\
  match fe with
  | None => open_err_flag s = true
  | Some ok => open_err_flag s = false /\ fp_err s = if ok then Some (b ++ S_ ".err") else None
  end.
Definition decided (f : option bool) (out : bool) (o e : Z) (cs : list call) : bool :=
  match f with Some ok => ok | None => first_ok out o e cs end.

Lemma names_differ : forall b, str_eqb (b ++ S_ ".out") (b ++ S_ ".err") = false /\
                               str_eqb (b ++ S_ ".err") (b ++ S_ ".out") = false /\
                               forall x, str_eqb x x = true.
Proof.
  assert (R : forall x, str_eqb x x = true)
    by (induction x as [|c x IH]; simpl; [auto|rewrite Ascii.eqb_refl, IH; auto]).
  intros b. split; [|split; [|exact R]]; (induction b as [|c b IH]; [reflexivity|simpl; rewrite Ascii.eqb_refl, IH; auto]).
Qed.

Lemma segment : forall cs s b fo fe s' es, only_messages cs -> file_state s b fo fe ->
  do_calls s cs = Ok (s', es) ->
  writes es = map (fun x => (dest_of (fst x) (if fst x then decided fo true (out_level s) (err_level s) cs
                                              else decided fe false (out_level s) (err_level s) cs) b, snd x))
                  (due (out_level s) (err_level s) cs) /\
  count_open (b ++ S_ ".out") es <= (match fo with None => 1 | Some _ => 0 end) /\
  count_open (b ++ S_ ".err") es <= (match fe with None => 1 | Some _ => 0 end).
Proof.
  induction cs as [|c cs IH]; intros s b fo fe s' es OM FS H.
  - simpl in H. inversion H; subst. simpl. destruct fo, fe; auto.
  - simpl in H. destruct (do_call s c) as [[s1 e1]| |] eqn:E1; cbn [bind] in H; try discriminate.
    destruct (do_calls s1 cs) as [[s2 e2]| |] eqn:E2; cbn [bind] in H; try discriminate.
    inversion H; subst. clear H.
    assert (OM' : only_messages cs) by (intros x Hx; apply OM; right; auto).
    assert (OC := OM c (or_introl eq_refl)).
    destruct (names_differ b) as (N1 & N2 & N3).
    destruct s as [ol el fpo fpe of ef oo oe ma].
    destruct FS as (F1 & F2 & F3 & F4). simpl in F1, F2, F3, F4. subst of ef.
    rewrite writes_app, !count_open_app.
    destruct c; try tauto; unfin E1.
    + inversion E1; subst. clear E1.
      apply (IH _ b fo fe s' e2 OM') in E2; [|unfold file_state; simpl; auto]. destruct E2 as (A & B & C).
      simpl in *. split; [exact A|]. split; [exact B|exact C].
    + simpl (due _ _ _). simpl (first_ok _ _ _ _).
      destruct (level <=? el)%Z eqn:EL.
      * destruct fe as [ok|].
        -- destruct F4 as [-> ->]. unfin E1. inversion E1; subst. clear E1.
           apply (IH _ b fo (Some ok) s' e2 OM') in E2; [|unfold file_state; simpl; auto]. destruct E2 as (A & B & C).
           simpl in *. split; [|split; [exact B|exact C]].
           rewrite A. destruct fo, ok; reflexivity.
        -- subst oe. unfin E1. destruct (av_err w) eqn:AV; unfin E1;
             inversion E1; subst; clear E1.
           ++ apply (IH _ b fo (Some true) s' e2 OM') in E2; [|unfold file_state; simpl; auto]. destruct E2 as (A & B & C).
              simpl in *. rewrite writes_app, !count_open_app, N1, N3. simpl.
              split; [rewrite A, AV; destruct fo, ma, (ex_err w); simpl; rewrite ?EL; reflexivity|].
              destruct (ma && ex_err w); simpl; split; try exact B; lia.
           ++ apply (IH _ b fo (Some false) s' e2 OM') in E2; [|unfold file_state; simpl; auto]. destruct E2 as (A & B & C).
              simpl in *. rewrite N1, N3. split; [|split; [exact B|lia]].
              rewrite A, AV. destruct fo; simpl; rewrite ?EL; reflexivity.
      * inversion E1; subst. clear E1.
        apply (IH _ b fo fe s' e2 OM') in E2; [|unfold file_state; simpl; auto]. destruct E2 as (A & B & C).
        simpl in *. split; [|split; [exact B|exact C]]. rewrite A. destruct fo, fe; simpl; rewrite ?EL; reflexivity.
    + simpl (due _ _ _). simpl (first_ok _ _ _ _).
      destruct (level <=? ol)%Z eqn:EL.
      * destruct fo as [ok|].
        -- destruct F3 as [-> ->]. unfin E1. inversion E1; subst. clear E1.
           apply (IH _ b (Some ok) fe s' e2 OM') in E2; [|unfold file_state; simpl; auto]. destruct E2 as (A & B & C).
           simpl in *. split; [|split; [exact B|exact C]].
           rewrite A. destruct fe, ok; reflexivity.
        -- subst oo. unfin E1. destruct (av_out w) eqn:AV; unfin E1;
             inversion E1; subst; clear E1.
           ++ apply (IH _ b (Some true) fe s' e2 OM') in E2; [|unfold file_state; simpl; auto]. destruct E2 as (A & B & C).
              simpl in *. rewrite writes_app, !count_open_app, N2, N3. simpl.
              split; [rewrite A, AV; destruct fe, ma, (ex_out w); simpl; rewrite ?EL; reflexivity|].
              destruct (ma && ex_out w); simpl; split; try exact C; lia.
           ++ apply (IH _ b (Some false) fe s' e2 OM') in E2; [|unfold file_state; simpl; auto]. destruct E2 as (A & B & C).
              simpl in *. rewrite N2, N3. split; [|split; [lia|exact C]].
              rewrite A, AV. destruct fe; simpl; rewrite ?EL; reflexivity.
      * inversion E1; subst. clear E1.
        apply (IH _ b fo fe s' e2 OM') in E2; [|unfold file_state; simpl; auto]. destruct E2 as (A & B & C).
        simpl in *. split; [|split; [exact B|exact C]]. rewrite A. destruct fo, fe; simpl; rewrite ?EL; reflexivity.
Qed.

(** After ath_log_open (lazy or not), as long as only messages are logged: the
    output (error) file is opened at most once, and every message due goes to that
    file, or to stdout (stderr) if it could not be opened. *)
Theorem C12_opened_once_nothing_lost : forall before w b lazy mode cs s1 e1 s2 e2 s3 e3,
  do_calls init_log before = Ok (s1, e1) ->
  do_call s1 (COpen w b lazy mode) = Ok (s2, e2) ->
  only_messages cs -> do_calls s2 cs = Ok (s3, e3) ->
  let o := out_threshold 0 before in let e := err_threshold 0 before in
  exists okout okerr,
    writes (e2 ++ e3) = map (fun x => (dest_of (fst x) (if fst x then okout else okerr) b, snd x)) (due o e cs) /\
    count_open (b ++ S_ ".out") (e2 ++ e3) <= 1 /\ count_open (b ++ S_ ".err") (e2 ++ e3) <= 1 /\
    (lazy = true -> okout = first_ok true o e cs /\ okerr = first_ok false o e cs) /\
    (lazy = false -> okout = true /\ okerr = true).
Proof.
  intros before w b lazy mode cs s1 e1 s2 e2 s3 e3 H1 H2 OM H3 o e.
  destruct (C12_messages_exact before) as (_ & _ & T). destruct (T _ _ H1) as (_ & TO & TE).
  destruct (names_differ b) as (N1 & N2 & N3).
  destruct s1 as [ol el fo fe of ef oo oe ma]. simpl in TO, TE. subst ol el. unfin H2.
  rewrite writes_app, !count_open_app.
  destruct lazy.
  - inversion H2; subst. clear H2.
    apply (segment _ _ b None None) in H3; [|exact OM|unfold file_state; simpl; auto].
    destruct H3 as (A & B & C). cbn [writes count_open app out_level err_level decided] in *.
    exists (first_ok true o e cs), (first_ok false o e cs).
    split; [exact A|]. split; [exact B|]. split; [exact C|]. split; [auto|discriminate].
  - destruct (av_out w); [|discriminate]. destruct (av_err w); [|discriminate].
    inversion H2; subst. clear H2.
    apply (segment _ _ b (Some true) (Some true)) in H3; [|exact OM|unfold file_state; simpl; auto].
    destruct H3 as (A & B & C). cbn [out_level err_level decided] in A.
    exists true, true.
    remember (b ++ S_ ".out") as fo'. remember (b ++ S_ ".err") as fe'.
    split; [|split; [|split; [|split; [discriminate|auto]]]].
    + rewrite A. destruct (Ascii.eqb mode "a"), (ex_out w), (ex_err w); reflexivity.
    + destruct (Ascii.eqb mode "a"), (ex_out w), (ex_err w); simpl; rewrite N1, N3; simpl; lia.
    + destruct (Ascii.eqb mode "a"), (ex_out w), (ex_err w); simpl; rewrite N2, N3; simpl; lia.
Qed.
Print Assumptions C12_opened_once_nothing_lost.

Definition good : fs := Fs true false true false.
Definition bad : fs := Fs false false false false.
Example C12_example : exists s1 e1 s2 e2,
  do_calls init_log [CSetLevel 0 0] = Ok (s1, []) /\
  do_call s1 (COpen bad (S_ "Sod") true "w"%char) = Ok (s2, []) /\
  do_calls s2 [CPout good 1 (S_ "quiet"); CPout good 0 (S_ "a"); CPerr bad (-1) (S_ "b"); CPout bad 0 (S_ "c")] =
    Ok (e1, e2) /\
  writes e2 = [(File (S_ "Sod.out"), S_ "a"); (Stderr, S_ "b"); (File (S_ "Sod.out"), S_ "c")].
Proof. eexists _, _, _, _. repeat split; vm_compute; reflexivity. Qed.
