(** * Properties C01-C08: the run-time parameter database (src/par.c)

    The vocabulary is in ParSpec.v, the model in ParModel.v. *)
From Coq Require Import String Ascii NArith ZArith Bool Arith Lia List.
From Verif Require Import CStr CStrFacts ParModel ParSpec ParSafety ParDbProofs ParParse ParFile ParIO.
Import ListNotations.

(** ** C01 *)
Theorem C01_set_then_get : forall s b n v c,
  reachable s -> now_open s = true ->
  let s' := par_sets s b n v c in
  par_gets s' b n = Ok v /\ par_exist s' b n = Ok true /\
  (forall v0 c0, holds (view_of (blocks s)) b n (v0, c0) ->
     holds (view_of (blocks s')) b n (v, match c with Some x => Some x | None => c0 end)) /\
  (~ present (view_of (blocks s)) b n -> holds (view_of (blocks s')) b n (v, c)).
Proof.
  intros s b n v c R O s'. destruct (sets_gets s b n v c O) as [A B].
  destruct (sets_comment (blocks s) b n v c (reachable_uniq s R)) as [C D]. auto.
Qed.
Print Assumptions C01_set_then_get.

(** Integers read back as themselves. *)
Theorem C01_seti_then_geti : forall s b n z c, now_open s = true ->
  par_geti (par_seti s b n z c) b n = Ok z.
Proof.
  intros s b n z c O. unfold par_geti, par_seti.
  destruct (sets_gets s b n (dec_Z z) c O) as [A _]. unfold par_gets in A. rewrite A.
  cbn [bind]. rewrite atoi_dec_Z. reflexivity.
Qed.
Print Assumptions C01_seti_then_geti.
(** Doubles: the text handed to par_setd is the text read back. *)
Theorem C01_setd_then_get : forall s b n txt c, now_open s = true ->
  length txt < MAXLEN ->
  exists s', par_setd s b n txt c = Ok s' /\ par_gets s' b n = Ok txt.
Proof.
  intros s b n txt c O L. unfold par_setd. rewrite (proj2 (Nat.ltb_lt _ _) L).
  eexists; split; [reflexivity|]. apply sets_gets; auto.
Qed.
Print Assumptions C01_setd_then_get.

(** A state the C01-C03 theorems apply to: opened from a file, non-empty. *)
Definition ex_file : str :=
  S_ "# demo" ++ [LF] ++ S_ "<job>" ++ [LF] ++ S_ "  problem_id = Brio # id" ++ [LF] ++
  S_ "maxout=2" ++ [LF] ++ S_ "<time>" ++ [LF] ++ S_ "tlim =  1.5  " ++ [LF] ++
  S_ "<job>" ++ [LF] ++ S_ "maxout = 3" ++ [LF] ++ S_ "<par_end>" ++ [LF] ++ S_ "junk".
Definition ex_state : pstate :=
  match run init_state [OpOpen (S_ "athinput") (Some ex_file)] with Ok s => s | _ => init_state end.
Example ex_reachable : reachable ex_state.
Proof. exists [OpOpen (S_ "athinput") (Some ex_file)]. vm_compute. reflexivity. Qed.
Example ex_open : now_open ex_state = true.
Proof. vm_compute. reflexivity. Qed.
Example ex_view : view_of (blocks ex_state) =
  [(S_ "job", [(S_ "problem_id", (S_ "Brio", Some (S_ "id"))); (S_ "maxout", (S_ "3", None))]);
   (S_ "time", [(S_ "tlim", (S_ "1.5", None))])].
Proof. vm_compute. reflexivity. Qed.
Example C01_example :
  let s' := par_sets ex_state (S_ "job") (S_ "problem_id") (S_ "Sod") None in
  par_gets s' (S_ "job") (S_ "problem_id") = Ok (S_ "Sod") /\
  holds (view_of (blocks s')) (S_ "job") (S_ "problem_id") (S_ "Sod", Some (S_ "id")).
Proof.
  destruct (C01_set_then_get ex_state (S_ "job") (S_ "problem_id") (S_ "Sod") None
              ex_reachable ex_open) as (A & _ & B & _).
  split; [exact A|]. apply (B (S_ "Brio") (Some (S_ "id"))).
  rewrite ex_view. eexists. split; [left; reflexivity|left; reflexivity].
Qed.

(** ** C02 *)
Theorem C02_others_untouched : forall s b n v c,
  reachable s ->
  let s' := par_sets s b n v c in
  (forall b' n' e, (b', n') <> (b, n) ->
     (holds (view_of (blocks s')) b' n' e <-> holds (view_of (blocks s)) b' n' e)) /\
  unique (view_of (blocks s')) /\
  (present (view_of (blocks s)) b n ->
     keys (view_of (blocks s')) = keys (view_of (blocks s))) /\
  (~ present (view_of (blocks s)) b n ->
     exists l1 l2, keys (view_of (blocks s)) = l1 ++ l2 /\
       keys (view_of (blocks s')) = l1 ++ (b, n) :: l2 /\
       (forall n', ~ In (b, n') l2) /\
       (~ In b (block_names (view_of (blocks s))) -> l2 = [])).
Proof.
  intros s b n v c R s'. assert (U := reachable_uniq s R).
  split; [|split; [|split]].
  - intros. apply sets_other; auto.
  - apply uniq_unique. apply par_sets_uniq; auto.
  - apply sets_keys_old; auto.
  - intros N. exact (sets_keys_new (blocks s) b n v c U N).
Qed.
Print Assumptions C02_others_untouched.

Theorem C02_never_duplicated : forall ops s, run init_state ops = Ok s -> unique (view_of (blocks s)).
Proof. intros ops s H. apply uniq_unique. apply reachable_uniq. exists ops; auto. Qed.
Print Assumptions C02_never_duplicated.
Example C02_example :
  keys (view_of (blocks (par_sets ex_state (S_ "job") (S_ "num_domains") (S_ "1") None))) =
  [(S_ "job", S_ "problem_id"); (S_ "job", S_ "maxout"); (S_ "job", S_ "num_domains");
   (S_ "time", S_ "tlim")].
Proof. vm_compute. reflexivity. Qed.

(** ** C03 *)
Lemma read_keeps : forall o s s' b n e, uniq (blocks s) -> now_open s = true -> is_read o ->
  step s o = Ok s' -> holds (view_of (blocks s)) b n e ->
  now_open s' = true /\ holds (view_of (blocks s')) b n e.
Proof.
  assert (K : forall s b n v c b' n' e, uniq (blocks s) -> now_open s = true ->
     par_exist s b n = Ok false -> holds (view_of (blocks s)) b' n' e ->
     holds (view_of (blocks (par_sets s b n v c))) b' n' e).
  { intros s b n v c b' n' e U O X H. apply sets_other; auto.
    intros E. inversion E; subst. assert (P : present (view_of (blocks s)) b n) by (exists e; auto).
    apply exist_present in P; auto. congruence. }
  intros o s s' b n e U O R H HH. destruct o; simpl in R; try tauto; simpl in H.
  - destruct (par_gets s b0 n0); cbn [bind] in H; inversion H; subst; auto.
  - destruct (par_exist s b0 n0); cbn [bind] in H; inversion H; subst; auto.
  - unfold par_gets_def in H. destruct (exist_total s b0 n0 O) as [X|X]; rewrite X in H; cbn [bind] in H.
    + destruct (par_getsl s b0 n0); cbn [bind] in H; inversion H; subst; auto.
    + inversion H; subst. split; [exact O|]. apply K; auto.
  - unfold par_geti_def in H. destruct (exist_total s b0 n0 O) as [X|X]; rewrite X in H; cbn [bind] in H.
    + destruct (par_getsl s b0 n0); cbn [bind] in H; inversion H; subst; auto.
    + inversion H; subst. split; [exact O|]. apply K; auto.
  - unfold par_getd_def in H. destruct (exist_total s b0 n0 O) as [X|X]; rewrite X in H; cbn [bind] in H.
    + destruct (par_getsl s b0 n0); cbn [bind] in H; inversion H; subst; auto.
    + unfold par_setd in H. destruct (length txt <? MAXLEN); cbn [bind] in H; inversion H; subst.
      split; [exact O|]. apply K; auto.
Qed.
Lemma reads_keep : forall ops s s' b n e, uniq (blocks s) -> now_open s = true -> Forall is_read ops ->
  run s ops = Ok s' -> holds (view_of (blocks s)) b n e ->
  uniq (blocks s') /\ now_open s' = true /\ holds (view_of (blocks s')) b n e.
Proof.
  induction ops as [|o ops IH]; intros s s' b n e U O F H HH; simpl in H.
  - inversion H; subst; auto.
  - inversion F; subst. destruct (step s o) as [s1| |] eqn:E; cbn [bind] in H; try discriminate.
    destruct (read_keeps o s s1 b n e) as [A B]; auto.
    exact (IH s1 s' b n e (step_uniq s o s1 E U) A H3 H B).
Qed.

Lemma def_first : forall s b n d, uniq (blocks s) -> now_open s = true ->
  exists v s1, par_gets_def s b n d = Ok (v, s1) /\ uniq (blocks s1) /\ now_open s1 = true /\
    (exists c, holds (view_of (blocks s1)) b n (v, c)) /\
    (present (view_of (blocks s)) b n -> s1 = s /\ par_gets s b n = Ok v) /\
    (~ present (view_of (blocks s)) b n ->
       v = d /\ s1 = par_sets s b n d (Some (S_ "Default Value"))).
Proof.
  intros s b n d U O. unfold par_gets_def.
  destruct (exist_total s b n O) as [X|X]; rewrite X; cbn [bind].
  - assert (P := proj1 (exist_present s b n U O) X).
    assert (P' := P). destruct P' as ([v c] & HH).
    assert (G := proj2 (gets_holds s b n v U O) (ex_intro _ c HH)).
    unfold par_gets in G. rewrite G. cbn [bind].
    exists v, s. split; [reflexivity|]. split; [exact U|]. split; [exact O|].
    split; [exists c; exact HH|]. split; [intros _; split; [reflexivity|exact G]|intros N; elim (N P)].
  - exists d, (par_sets s b n d (Some default_comment)).
    assert (NP : ~ present (view_of (blocks s)) b n).
    { intros P. apply exist_present in P; auto. congruence. }
    split; [reflexivity|]. split; [apply par_sets_uniq; auto|]. split; [exact O|].
    split; [exists (Some default_comment); apply sets_comment; auto|].
    split; [intros P; elim (NP P)|intros _; split; reflexivity].
Qed.

Theorem C03_default_sticks : forall s b n d, reachable s -> now_open s = true ->
  exists v s1, par_gets_def s b n d = Ok (v, s1) /\
    (present (view_of (blocks s)) b n -> s1 = s /\ par_gets s b n = Ok v) /\
    (~ present (view_of (blocks s)) b n -> v = d /\
       holds (view_of (blocks s1)) b n (d, Some (S_ "Default Value"))) /\
    (* later, after any further reads, the same value whatever default is offered *)
    (forall reads s2, Forall is_read reads -> run s1 reads = Ok s2 ->
       par_gets s2 b n = Ok v /\ forall d', par_gets_def s2 b n d' = Ok (v, s2)).
Proof.
  intros s b n d R O. assert (U := reachable_uniq s R).
  destruct (def_first s b n d U O) as (v & s1 & A & U1 & O1 & (c & H1) & P1 & P2).
  exists v, s1. split; [exact A|]. split; [exact P1|]. split.
  - intros NP. destruct (P2 NP) as [-> ->]. split; [reflexivity|]. apply sets_comment; auto.
  - intros reads s2 F RN.
    destruct (reads_keep reads s1 s2 b n (v, c) U1 O1 F RN H1) as (U2 & O2 & H2).
    assert (G := proj2 (gets_holds s2 b n v U2 O2) (ex_intro _ c H2)).
    split; [exact G|]. intros d'.
    destruct (def_first s2 b n d' U2 O2) as (v' & s3 & A' & _ & _ & _ & Q1 & _).
    destruct Q1 as [-> Q]; [exists (v, c); auto|]. rewrite A'. congruence.
Qed.
Print Assumptions C03_default_sticks.

Theorem C03_default_int_sticks : forall s b n d, reachable s -> now_open s = true ->
  exists z s1, par_geti_def s b n d = Ok (z, s1) /\
    (present (view_of (blocks s)) b n -> s1 = s /\ par_geti s b n = Ok z) /\
    (~ present (view_of (blocks s)) b n -> z = d) /\
    (forall reads s2, Forall is_read reads -> run s1 reads = Ok s2 ->
       par_geti s2 b n = Ok z /\ forall d', par_geti_def s2 b n d' = Ok (z, s2)).
Proof.
  intros s b n d R O.
  assert (EQ : forall t x, now_open t = true ->
     par_geti_def t b n x = ('(v, s') <- par_gets_def t b n (dec_Z x);; Ok (atoi v, s'))).
  { intros t x Ot. unfold par_geti_def, par_gets_def.
    destruct (exist_total t b n Ot) as [X|X]; rewrite X; cbn [bind].
    - destruct (par_getsl t b n); reflexivity.
    - rewrite atoi_dec_Z. reflexivity. }
  destruct (C03_default_sticks s b n (dec_Z d) R O) as (v & s1 & A & P1 & P2 & Q).
  exists (atoi v), s1. rewrite EQ by auto. rewrite A. cbn [bind].
  split; [reflexivity|]. split; [|split].
  - intros P. destruct (P1 P) as [-> G]. split; auto. unfold par_geti. unfold par_gets in G.
    rewrite G. reflexivity.
  - intros NP. destruct (P2 NP) as [-> _]. apply atoi_dec_Z.
  - intros reads s2 F RN. destruct (Q reads s2 F RN) as [G1 G2].
    assert (O2 : now_open s2 = true).
    { unfold par_gets, par_getsl in G1. destruct (now_open s2); [reflexivity|discriminate]. }
    split.
    + unfold par_geti. unfold par_gets in G1. rewrite G1. reflexivity.
    + intros d'. rewrite EQ by auto. rewrite G2. reflexivity.
Qed.
Print Assumptions C03_default_int_sticks.

(** The same for doubles, on the stored text ([None]: the default itself). *)
Theorem C03_default_double_sticks : forall s b n txt, reachable s -> now_open s = true ->
  length txt < MAXLEN ->
  exists r s1, par_getd_def s b n txt = Ok (r, s1) /\
    (present (view_of (blocks s)) b n -> s1 = s /\ exists v, r = Some v /\ par_gets s b n = Ok v) /\
    (~ present (view_of (blocks s)) b n -> r = None) /\
    (forall reads s2, Forall is_read reads -> run s1 reads = Ok s2 ->
       forall txt', par_getd_def s2 b n txt' =
          Ok (Some (match r with Some v => v | None => txt end), s2)).
Proof.
  intros s b n txt R O L.
  assert (EQ1 : forall t x, now_open t = true -> par_exist t b n = Ok true ->
     par_getd_def t b n x = ('(v, s') <- par_gets_def t b n x;; Ok (Some v, s'))).
  { intros t x Ot X. unfold par_getd_def, par_gets_def. rewrite X; cbn [bind].
    destruct (par_getsl t b n); reflexivity. }
  assert (U := reachable_uniq s R).
  destruct (C03_default_sticks s b n txt R O) as (v & s1 & A & P1 & P2 & Q).
  assert (HX : forall reads s2, Forall is_read reads -> run s1 reads = Ok s2 ->
       forall txt', par_getd_def s2 b n txt' = Ok (Some v, s2)).
  { intros reads s2 F RN txt'. destruct (Q reads s2 F RN) as [G1 G2].
    assert (O2 : now_open s2 = true).
    { unfold par_gets, par_getsl in G1. destruct (now_open s2); [reflexivity|discriminate]. }
    rewrite EQ1; auto.
    - rewrite G2. reflexivity.
    - unfold par_gets, par_getsl in G1. unfold par_exist. rewrite O2 in *. cbn [negb] in *.
      destruct (find_block (blocks s2) b) as [k|]; [|discriminate].
      destruct (find_par (b_pars k) n); [reflexivity|discriminate]. }
  destruct (exist_total s b n O) as [X|X].
  - assert (P := proj1 (exist_present s b n U O) X).
    exists (Some v), s1. rewrite EQ1 by auto. rewrite A. cbn [bind].
    split; [reflexivity|]. split; [|split].
    + intros _. destruct (P1 P) as [-> G]. eauto.
    + tauto.
    + exact HX.
  - assert (NP : ~ present (view_of (blocks s)) b n).
    { intros P. apply exist_present in P; auto. congruence. }
    destruct (P2 NP) as [-> _].
    exists None, s1. unfold par_getd_def, par_setd. unfold par_gets_def in A.
    rewrite X in *. cbn [bind] in *. rewrite (proj2 (Nat.ltb_lt _ _) L). cbn [bind].
    injection A as A. rewrite <- A at 1.
    split; [reflexivity|]. split; [tauto|]. split; [reflexivity|]. exact HX.
Qed.
Print Assumptions C03_default_double_sticks.
Example C03_example :
  exists s1, par_geti_def ex_state (S_ "job") (S_ "num_domains") 1 = Ok (1%Z, s1) /\
    par_geti_def s1 (S_ "job") (S_ "num_domains") 7 = Ok (1%Z, s1).
Proof. eexists. split; vm_compute; reflexivity. Qed.

(** ** C04 *)
Theorem C04_cmdline : forall s args, reachable s -> Forall (fun a => ~ In NUL a) args ->
  let argv := map (fun a => a ++ [NUL]) args in
  (Forall (fun o => present (view_of (blocks s)) (fst (fst o)) (snd (fst o))) (overrides args) ->
     exists s', par_cmdline s argv = Ok (s', argv) /\ now_open s' = now_open s /\
       view_of (blocks s') = overridden (overrides args) (view_of (blocks s))) /\
  ((exists o, In o (overrides args) /\
      ~ present (view_of (blocks s)) (fst (fst o)) (snd (fst o))) ->
     par_cmdline s argv = Fatal).
Proof.
  intros s args R NU argv. assert (U := reachable_uniq s R). unfold par_cmdline. split.
  - intros P. destruct (cmdline_loop_ok args (blocks s) U NU P) as (d' & L & V).
    change argv with (ParIO.argv args). rewrite L. cbn [bind]. eexists. repeat split. exact V.
  - intros P. change argv with (ParIO.argv args).
    rewrite (cmdline_loop_fatal args (blocks s) U NU P). reflexivity.
Qed.
Print Assumptions C04_cmdline.
Example C04_example :
  overrides [S_ "time/tlim=2"; S_ "-i"; S_ "/tmp/x"; S_ "time/tlim=3=x"] =
    [(S_ "time", S_ "tlim", S_ "2"); (S_ "time", S_ "tlim", S_ "3=x")] /\
  Forall (fun o => present (view_of (blocks ex_state)) (fst (fst o)) (snd (fst o)))
    (overrides [S_ "time/tlim=2"; S_ "-i"; S_ "/tmp/x"; S_ "time/tlim=3=x"]) /\
  overridden (overrides [S_ "time/tlim=2"; S_ "-i"; S_ "/tmp/x"; S_ "time/tlim=3=x"])
    (view_of (blocks ex_state)) =
  [(S_ "job", [(S_ "problem_id", (S_ "Brio", Some (S_ "id"))); (S_ "maxout", (S_ "3", None))]);
   (S_ "time", [(S_ "tlim", (S_ "3=x", None))])].
Proof.
  split; [vm_compute; reflexivity|]. split; [|vm_compute; reflexivity].
  change (overrides [S_ "time/tlim=2"; S_ "-i"; S_ "/tmp/x"; S_ "time/tlim=3=x"])
    with [(S_ "time", S_ "tlim", S_ "2"); (S_ "time", S_ "tlim", S_ "3=x")].
  rewrite ex_view. repeat constructor; simpl;
    exists (S_ "1.5", None); eexists; (split; [right; left; reflexivity|left; reflexivity]).
Qed.
(** An unknown parameter is fatal. *)
Example C04_unknown :
  par_cmdline ex_state [S_ "time/nlim=2" ++ [NUL]] = Fatal.
Proof. vm_compute. reflexivity. Qed.

(** ** C05 *)
Definition line_fits (i : item) : Prop := length (print_item i) + 2 <= MAXLEN.

Theorem C05_read_file : forall fname is last,
  Forall item_ok (is ++ [last]) -> Forall (fun i => ~ is_end i) (is ++ [last]) ->
  Forall line_fits (is ++ [last]) -> starts_in_block (is ++ [last]) ->
  exists s, par_open init_state fname (Some (file_of is ++ print_item last)) = Ok s /\
            now_open s = true /\ view_of (blocks s) = expected_view (is ++ [last]).
Proof.
  intros fname is last OK NE FT ST.
  destruct (par_open_reads fname is last OK NE FT (starts_placed _ ST)) as (s & A & B & _ & D). eauto.
Qed.
Print Assumptions C05_read_file.

(** Reading stops at <par_end>, whatever follows. *)
Theorem C05_read_file_end : forall fname is w rest,
  Forall item_ok is -> Forall (fun i => ~ is_end i) is -> Forall line_fits is ->
  starts_in_block is -> all_space w -> length w + 9 < MAXLEN ->
  exists s, par_open init_state fname (Some (file_of is ++ w ++ S_ "<par_end>" ++ rest)) = Ok s /\
            now_open s = true /\ view_of (blocks s) = expected_view is.
Proof.
  intros fname is w rest OK NE FT ST W L.
  destruct (par_open_reads_end fname is w rest OK NE FT (starts_placed _ ST) W L) as (s & A & B & _ & D).
  eauto.
Qed.
Print Assumptions C05_read_file_end.

(** What [expected_view] means for a reader of values. *)
Theorem C05_value_read : forall fname is last s b n,
  Forall item_ok (is ++ [last]) -> Forall (fun i => ~ is_end i) (is ++ [last]) ->
  Forall line_fits (is ++ [last]) -> starts_in_block (is ++ [last]) ->
  par_open init_state fname (Some (file_of is ++ print_item last)) = Ok s ->
  par_gets s b n = match last_value b n (assignments [] (is ++ [last])) with
                   | Some v => Ok v | None => Fatal end.
Proof.
  intros fname is last s b n OK NE FT ST HO.
  destruct (C05_read_file fname is last OK NE FT ST) as (s' & A & O & V).
  assert (s' = s) by congruence. subst s'.
  assert (R : reachable s).
  { exists [OpOpen fname (Some (file_of is ++ print_item last))]. simpl. rewrite HO. reflexivity. }
  assert (U := reachable_uniq s R).
  set (l := assignments [] (is ++ [last])) in *.
  assert (HB : forall cur j b' n' e, (forall x, In x j -> True) ->
     In (b', n', e) (assignments cur j) -> In b' (blocks_of j) \/ b' = cur).
  { clear. intros cur j. revert cur. induction j as [|i j IH]; intros cur b' n' e _ H; [destruct H|].
    destruct i; simpl in *; try (eapply IH; eauto; fail).
    - destruct (IH name b' n' e) as [X|X]; auto.
    - destruct H as [H|H]; [inversion H; auto|eapply IH; eauto].
    - destruct H as [H|H]; [inversion H; auto|eapply IH; eauto]. }
  assert (HB2 : forall j b' n' e, starts_in_block j -> In (b', n', e) (assignments [] j) -> In b' (blocks_of j)).
  { induction j as [|i j IH]; intros b' n' e S H; [destruct H|].
    destruct i; simpl in *; try tauto; try (eapply IH; eauto; fail).
    destruct (HB name j b' n' e) as [X|X]; auto. }
  assert (LV : forall b' n' v l', last_value b' n' l' = Some v -> exists c, In (b', n', (v, c)) l').
  { clear. induction l' as [|[[x y] [u k]] l' IH]; simpl; [discriminate|]. intros H.
    destruct (last_value b' n' l') as [v'|] eqn:E.
    - destruct (IH H) as [c Hc]. eauto.
    - destruct (str_eqb_spec b' x); destruct (str_eqb_spec n' y); simpl in H; try discriminate.
      inversion H; subst; eauto. }
  destruct (last_value b n l) as [v|] eqn:E.
  - apply gets_holds; auto. exists (last_comment b n l). rewrite V. unfold expected_view. fold l.
    eexists. split.
    + apply in_map_iff. exists b. split; [reflexivity|].
      rewrite firsts_In. split; [|intros []].
      destruct (LV b n v l E) as [c Hc]. eapply HB2; eauto.
    + apply in_map_iff. exists n. rewrite E. split; [reflexivity|].
      rewrite firsts_In. split; [|intros []].
      destruct (LV b n v l E) as [c Hc]. unfold names_in. apply in_map_iff.
      exists (b, n, (v, c)). split; [reflexivity|]. apply filter_In. split; auto.
      simpl. apply str_eqb_refl.
  - destruct (par_gets s b n) as [v| |] eqn:G.
    + exfalso. apply gets_holds in G; auto. destruct G as (c & ps & H1 & H2).
      rewrite V in H1. unfold expected_view in H1. fold l in H1. apply in_map_iff in H1.
      destruct H1 as (b' & E1 & _). inversion E1; subst b' ps. apply in_map_iff in H2.
      destruct H2 as (n' & E2 & H2). inversion E2; subst n'. apply firsts_In in H2.
      destruct H2 as [H2 _]. revert H2. apply names_in_In; auto.
    + reflexivity.
    + exfalso. unfold par_gets, par_getsl in G. rewrite O in G. cbn [negb] in G.
      destruct (find_block (blocks s) b) as [k|]; [|discriminate].
      destruct (find_par (b_pars k) n); discriminate.
Qed.
Print Assumptions C05_value_read.

(** A malformed line, or a parameter before the first block, ends the program. *)
Theorem C05_malformed_fatal : forall fname is l rest,
  Forall item_ok is -> Forall (fun i => ~ is_end i) is -> Forall line_fits is ->
  starts_in_block is ->
  malformed l -> length l + 2 <= MAXLEN -> rest = [] \/ (exists r, rest = LF :: r) ->
  par_open init_state fname (Some (file_of is ++ l ++ rest)) = Fatal.
Proof. intros. apply par_open_malformed; auto. apply starts_placed; auto. Qed.
Print Assumptions C05_malformed_fatal.

Definition is_par_line (i : item) : Prop :=
  match i with IPar _ _ _ _ _ _ | IParC _ _ _ _ _ _ _ _ _ => True | _ => False end.
Definition is_filler (i : item) : Prop :=
  match i with IBlank _ | IComment _ _ => True | _ => False end.
Theorem C05_no_block_fatal : forall fname is i rest,
  Forall item_ok is -> Forall line_fits is -> Forall is_filler is ->
  item_ok i -> is_par_line i -> line_fits i -> rest = [] \/ (exists r, rest = LF :: r) ->
  par_open init_state fname (Some (file_of is ++ print_item i ++ rest)) = Fatal.
Proof.
  intros fname is i rest OK FT FI OKi PI FTi R.
  apply par_open_unplaced; auto.
  - rewrite Forall_forall in *. intros j Hj (w & r & E & W).
    specialize (FI j Hj). specialize (OK j Hj). 
    destruct j as [x|x y| | |]; simpl in FI; try tauto; simpl in E, OK.
    + assert (IN : In chLT x) by (rewrite E; apply in_app_iff; right; left; reflexivity).
      revert IN. apply spaces_notin; [apply all_space_spaces; auto|reflexivity].
    + destruct OK as [WX _]. clear - E W WX.
      revert x E WX. induction W as [|c w [C1 C2] W IH]; intros x E WX.
      * destruct x as [|c x]; cbn in E; [discriminate|].
        injection E as E _. inversion WX as [|? ? [D1 _]]; subst. discriminate.
      * destruct x as [|d x]; cbn in E; injection E as E1 E2; [subst c; discriminate|].
        inversion WX; subst. eapply IH; eauto.
  - eapply Forall_impl; [|exact FI]. intros j Hj. destruct j; simpl in Hj; try tauto;
      (split; [reflexivity|intros; discriminate]).
  - destruct i; simpl in PI; try tauto; reflexivity.
Qed.
Print Assumptions C05_no_block_fatal.


(** Decidable versions, used only to check the examples' hypotheses. *)
Definition spaceb (w : str) : bool := forallb (fun c => isspace c && negb (Ascii.eqb c LF)) w.
Definition plainb (s : str) : bool := negb (existsb (Ascii.eqb NUL) s) && negb (existsb (Ascii.eqb LF) s).
Definition fieldb (s : str) : bool :=
  match s with
  | [] => false
  | a :: _ => negb (isspace a) && negb (isspace (last s NUL)) && plainb s
  end.
Lemma spaceb_ok : forall w, spaceb w = true -> all_space w.
Proof.
  intros w H. unfold spaceb in H. rewrite forallb_forall in H. apply Forall_forall.
  intros c Hc. specialize (H c Hc). apply andb_prop in H. destruct H as [H1 H2]. split; auto.
  intros ->. discriminate.
Qed.
Lemma plainb_ok : forall s, plainb s = true -> plain s.
Proof.
  intros s H. apply andb_prop in H. destruct H as [H1 H2]. apply negb_true_iff in H1, H2.
  split; apply notin_b; auto.
Qed.
Lemma fieldb_ok : forall s, fieldb s = true -> field s.
Proof.
  intros s H. destruct s as [|a s]; [discriminate|]. unfold fieldb in H.
  apply andb_prop in H. destruct H as [H H3]. apply andb_prop in H. destruct H as [H1 H2].
  apply negb_true_iff in H1, H2.
  split; [discriminate|]. split; [apply plainb_ok; auto|]. right.
  destruct s as [|b s] using rev_ind.
  - exists a, [], a. auto.
  - exists a, s, b. split; [right; reflexivity|]. split; auto.
    change (a :: s ++ [b]) with ((a :: s) ++ [b]) in H2. rewrite last_last in H2. auto.
Qed.
Definition nothas (c : ascii) (s : str) : bool := negb (existsb (Ascii.eqb c) s).
Lemma nothas_ok : forall c s, nothas c s = true -> ~ In c s.
Proof. intros c s H. apply negb_true_iff in H. apply notin_b; auto. Qed.
Definition par_nameb (n : str) : bool :=
  fieldb n && nothas chEQ n && nothas chHASH n &&
  match n with c :: _ => negb (Ascii.eqb c chLT) | [] => true end.
Lemma par_nameb_ok : forall n, par_nameb n = true -> par_name_ok n.
Proof.
  intros n H. unfold par_nameb in H. repeat (apply andb_prop in H; destruct H as [H ?]).
  split; [apply fieldb_ok; auto|]. split; [apply nothas_ok; auto|]. split; [apply nothas_ok; auto|].
  intros t ->. rewrite Ascii.eqb_refl in H0. discriminate.
Qed.
Definition valueb (v : str) : bool := fieldb v && nothas chHASH v.
Lemma valueb_ok : forall v, valueb v = true -> value_ok v.
Proof. intros v H. apply andb_prop in H. destruct H. split; [apply fieldb_ok|apply nothas_ok]; auto. Qed.
Definition emptyb (v : str) : bool := match v with [] => true | _ => false end.
Definition item_okb (i : item) : bool :=
  match i with
  | IBlank w => spaceb w
  | IComment w t => spaceb w && plainb t
  | IBlock w1 w2 n w3 r => spaceb w1 && spaceb w2 && spaceb w3 && fieldb n && nothas chGT n && plainb r
  | IPar w1 n w2 w3 v w4 =>
      spaceb w1 && spaceb w2 && spaceb w3 && spaceb w4 && par_nameb n && (emptyb v || valueb v)
  | IParC w1 n w2 w3 v w4 w5 c w6 =>
      spaceb w1 && spaceb w2 && spaceb w3 && spaceb w4 && spaceb w5 && spaceb w6 &&
      par_nameb n && valueb v && (emptyb c || fieldb c)
  end.
Lemma item_okb_ok : forall i, item_okb i = true -> item_ok i.
Proof.
  intros i H. destruct i; cbn [item_okb] in H;
    repeat match goal with H : (_ && _) = true |- _ =>
      apply andb_prop in H; let X := fresh in destruct H as [H X] end; cbn [item_ok].
  - apply spaceb_ok; auto.
  - split; [apply spaceb_ok|apply plainb_ok]; auto.
  - split; [apply spaceb_ok; auto|]. split; [apply spaceb_ok; auto|]. split; [apply spaceb_ok; auto|].
    split; [split; [apply fieldb_ok|apply nothas_ok]; auto|apply plainb_ok; auto].
  - split; [apply spaceb_ok; auto|]. split; [apply spaceb_ok; auto|]. split; [apply spaceb_ok; auto|].
    split; [apply spaceb_ok; auto|]. split; [apply par_nameb_ok; auto|].
    apply orb_prop in H0. destruct H0; [left; destruct value; [auto|discriminate]|right; apply valueb_ok; auto].
  - split; [apply spaceb_ok; auto|]. split; [apply spaceb_ok; auto|]. split; [apply spaceb_ok; auto|].
    split; [apply spaceb_ok; auto|]. split; [apply spaceb_ok; auto|]. split; [apply spaceb_ok; auto|].
    split; [apply par_nameb_ok; auto|]. split; [apply valueb_ok; auto|].
    apply orb_prop in H0. destruct H0.
    + destruct comment; [|discriminate]. split; [split; intros []|left; auto].
    + destruct (fieldb_ok _ H0) as (_ & P & T). split; auto.
Qed.
Fixpoint lstrip (s : str) : str :=
  match s with [] => [] | c :: r => if isspace c then lstrip r else s end.
Lemma not_endb : forall i, prefixb PAR_END (lstrip (print_item i)) = false -> ~ is_end i.
Proof.
  intros i H (w & r & E & W).
  assert (X : lstrip (print_item i) = PAR_END ++ r).
  { rewrite E. clear E H. induction W as [|c w [C _] W IH]; [reflexivity|].
    cbn [app lstrip]. rewrite C. exact IH. }
  rewrite X, prefixb_app in H. discriminate.
Qed.
Lemma Forall_b : forall (A : Type) (f : A -> bool) (P : A -> Prop) l,
  (forall x, f x = true -> P x) -> forallb f l = true -> Forall P l.
Proof. intros A f P l H F. rewrite forallb_forall in F. apply Forall_forall. auto. Qed.
Definition items_okb (l : list item) : bool :=
  forallb (fun i => item_okb i && negb (prefixb PAR_END (lstrip (print_item i))) &&
                    (length (print_item i) + 2 <=? MAXLEN)) l.
Lemma items_okb_ok : forall l, items_okb l = true ->
  Forall item_ok l /\ Forall (fun i => ~ is_end i) l /\ Forall line_fits l.
Proof.
  intros l H. assert (G : forall i, In i l -> item_ok i /\ ~ is_end i /\ line_fits i).
  { intros i Hi. unfold items_okb in H. rewrite forallb_forall in H. specialize (H i Hi).
    apply andb_prop in H. destruct H as [H H3]. apply andb_prop in H. destruct H as [H1 H2].
    apply negb_true_iff in H2. apply Nat.leb_le in H3.
    split; [apply item_okb_ok; auto|]. split; [apply not_endb; auto|exact H3]. }
  repeat split; apply Forall_forall; intros i Hi; apply G; auto.
Qed.

Definition ex_items : list item :=
  [IComment [] (S_ " demo"); IBlock [] [chSP] (S_ "job") [] (S_ " the job");
   IParC [chSP; chSP] (S_ "problem_id") [chSP] [chSP; chSP] (S_ "Brio") [chSP] [chSP] (S_ "an id = x") [];
   IBlank [chSP];
   IPar [] (S_ "maxout") [] [] (S_ "10") []].
Example C05_example :
  Forall item_ok ex_items /\ Forall (fun i => ~ is_end i) ex_items /\ Forall line_fits ex_items /\
  starts_in_block ex_items /\
  expected_view ex_items =
    [(S_ "job", [(S_ "problem_id", (S_ "Brio", Some (S_ "an id = x"))); (S_ "maxout", (S_ "10", None))])].
Proof.
  destruct (items_okb_ok ex_items) as (A & B & C); [vm_compute; reflexivity|].
  repeat (split; [assumption || exact I|]). vm_compute. reflexivity.
Qed.
Example C05_malformed_example : malformed (S_ "  <job") /\ malformed (S_ "maxout 10 # = x").
Proof.
  split.
  - apply (@mal_block [chSP; chSP] (S_ "job")).
    + apply spaceb_ok; reflexivity.
    + apply plainb_ok; reflexivity.
    + apply notin_b; reflexivity.
  - apply (@mal_par [] (S_ "maxout 10 ") (S_ "# = x")).
    + constructor.
    + apply plainb_ok; reflexivity.
    + apply plainb_ok; reflexivity.
    + eexists _, _. split; [reflexivity|]. split; [reflexivity|discriminate].
    + apply notin_b; reflexivity.
    + apply notin_b; reflexivity.
    + right. eexists; reflexivity.
Qed.

(** The side condition "value not empty" on lines with a comment is needed: with
    white space between '=' and '#' the comment becomes the value. *)
Theorem C05_empty_value_with_comment_refuted :
  exists s, par_open init_state (S_ "f") (Some (S_ "<b>" ++ [LF] ++ S_ "x = # note" ++ [LF])) = Ok s /\
            par_gets s (S_ "b") (S_ "x") = Ok (S_ "# note").
Proof. eexists. split; vm_compute; reflexivity. Qed.
Print Assumptions C05_empty_value_with_comment_refuted.

(** ** C06 *)
Theorem C06_dump_reopen : forall s fname rest, reachable s ->
  db_printable (view_of (blocks s)) ->
  (forall l, is_line (par_dump2 s) l -> length l + 2 <= MAXLEN) ->
  exists s', par_open init_state fname (Some (par_dump2 s ++ rest)) = Ok s' /\
    now_open s' = true /\ view_of (blocks s') = view_of (blocks s).
Proof. intros s fname rest R. apply dump_reopen. apply reachable_uniq; auto. Qed.
Print Assumptions C06_dump_reopen.

Fixpoint lines_fitb (n : nat) (s : str) : bool :=
  match s with
  | [] => true
  | c :: r => if Ascii.eqb c LF then (n + 2 <=? MAXLEN) && lines_fitb 0 r else lines_fitb (S n) r
  end.
Lemma lines_fitb_ok : forall a n l b, lines_fitb n (a ++ l ++ LF :: b) = true ->
  ~ In LF l -> (a = [] /\ n = 0 \/ exists a', a = a' ++ [LF]) -> length l + 2 <= MAXLEN.
Proof.
  assert (Z : forall l n b, lines_fitb n (l ++ LF :: b) = true -> ~ In LF l -> n + length l + 2 <= MAXLEN).
  { induction l as [|c l IH]; intros n b H N.
    - cbn [app lines_fitb] in H. rewrite Ascii.eqb_refl in H. apply andb_prop in H.
      destruct H as [H _]. apply Nat.leb_le in H. simpl; lia.
    - cbn [app lines_fitb] in H.
      destruct (Ascii.eqb_spec c LF) as [E|E]; [exfalso; apply N; left; auto|].
      apply IH in H; [simpl length; lia|intro; apply N; right; auto]. }
  induction a as [|c a IH]; intros n l b H N HA.
  - destruct HA as [[_ ->]|[a' E]]; [|destruct a'; discriminate]. apply Z in H; auto.
  - cbn [app lines_fitb] in H. destruct HA as [[E _]|[a' E]]; [discriminate|].
    destruct (Ascii.eqb c LF) eqn:EC.
    + apply andb_prop in H. destruct H as [_ H]. eapply IH; eauto.
      destruct a' as [|d a']; simpl in E; inversion E; subst; [left; auto|right; eauto].
    + eapply IH; eauto. destruct a' as [|d a']; simpl in E; inversion E; subst; [|right; eauto].
      rewrite Ascii.eqb_refl in EC. discriminate.
Qed.
Definition printableb (v : view) : bool :=
  forallb (fun bp => fieldb (fst bp) && nothas chGT (fst bp) && negb (str_eqb (fst bp) (S_ "par_end")) &&
    forallb (fun p => par_nameb (fst p) &&
       match snd (snd p) with
       | None => emptyb (fst (snd p)) || valueb (fst (snd p))
       | Some c => valueb (fst (snd p)) && fieldb c
       end) (snd bp)) v.
Lemma printableb_ok : forall v, printableb v = true -> db_printable v.
Proof.
  intros v H b ps HI. unfold printableb in H. rewrite forallb_forall in H. specialize (H _ HI).
  cbn [fst snd] in H.
  apply andb_prop in H. destruct H as [H H4]. apply andb_prop in H. destruct H as [H H3].
  apply andb_prop in H. destruct H as [H1 H2].
  split; [split; [apply fieldb_ok|apply nothas_ok]; auto|]. split.
  - intros ->. rewrite str_eqb_refl in H3. discriminate.
  - revert H4; apply Forall_b. intros [n [w [c|]]] X; cbn [fst snd] in X;
      apply andb_prop in X; destruct X as [X1 X2]; (split; [apply par_nameb_ok; auto|]); cbn [snd].
    + apply andb_prop in X2. destruct X2 as [X2 X3]. split; [apply valueb_ok; auto|].
      destruct (fieldb_ok _ X3) as (A & B & C). split; [auto|]. split; auto.
    + apply orb_prop in X2. destruct X2; [left; destruct w; [auto|discriminate]|right; apply valueb_ok; auto].
Qed.
Example C06_example : reachable ex_state /\ db_printable (view_of (blocks ex_state)) /\
  (forall l, is_line (par_dump2 ex_state) l -> length l + 2 <= MAXLEN).
Proof.
  split; [exact ex_reachable|]. split.
  - apply printableb_ok. vm_compute. reflexivity.
  - intros l (a & b & E & N & HA).
    apply (lines_fitb_ok a 0 l b); auto.
    + rewrite <- E. vm_compute. reflexivity.
    + destruct HA; auto.
Qed.

(** The line-length condition is on the padded dump, not on the input: a file all
    of whose lines fit can give a database whose dump cannot be read back. *)
Definition long_file : str :=
  S_ "<b>" ++ [LF] ++ S_ "x = " ++ repeat "v"%char 200 ++ [LF] ++
  S_ "y = 1 # " ++ repeat "c"%char 100 ++ [LF].
Theorem C06_padding_refuted : exists s,
  par_open init_state (S_ "f") (Some long_file) = Ok s /\
  (forall l, is_line long_file l -> length l + 2 <= MAXLEN) /\
  db_printable (view_of (blocks s)) /\
  par_open init_state (S_ "r") (Some (par_dump2 s)) = Fatal.
Proof.
  eexists. split; [vm_compute; reflexivity|]. split; [|split].
  - intros l (a & b & E & N & HA). apply (lines_fitb_ok a 0 l b); auto.
    + rewrite <- E. vm_compute. reflexivity.
    + destruct HA; auto.
  - apply printableb_ok. vm_compute. reflexivity.
  - vm_compute. reflexivity.
Qed.
Print Assumptions C06_padding_refuted.

(** An empty value with a comment does not survive either. *)
Theorem C06_empty_value_refuted : exists s s',
  par_open init_state (S_ "f") (Some (S_ "<b>" ++ [LF] ++ S_ "x =# note" ++ [LF])) = Ok s /\
  par_gets s (S_ "b") (S_ "x") = Ok [] /\
  par_open init_state (S_ "r") (Some (par_dump2 s)) = Ok s' /\
  par_gets s' (S_ "b") (S_ "x") = Ok (S_ "# note").
Proof. eexists _, _. repeat split; vm_compute; reflexivity. Qed.
Print Assumptions C06_empty_value_refuted.

(** ** C07 *)
(** Parsing a line leaves the buffer exactly when the line starts with '=' inside
    a block: [UB] is the model's outcome for an access outside the buffer. *)
Theorem C07_line_in_bounds : forall d bp l,
  par_line d bp (l ++ [NUL]) = UB <-> bp <> None /\ first_nonblank l = Some chEQ.
Proof. exact par_line_ub_iff. Qed.
Print Assumptions C07_line_in_bounds.
Theorem C07_file_in_bounds : forall s fname txt,
  (forall l, piece_of txt l -> first_nonblank l <> Some chEQ) ->
  par_open s fname (Some txt) <> UB.
Proof. exact par_open_safe. Qed.
Print Assumptions C07_file_in_bounds.
Theorem C07_in_bounds_refuted : exists txt, par_open init_state (S_ "f") (Some txt) = UB.
Proof. exists (S_ "<b>" ++ [LF] ++ S_ "=1" ++ [LF]). vm_compute. reflexivity. Qed.
Print Assumptions C07_in_bounds_refuted.
Example C07_example : forall l, piece_of ex_file l -> first_nonblank l <> Some chEQ.
Proof.
  assert (G : forall f s, length s <= f ->
     (fix chk (f : nat) (s : str) : bool :=
        match f with
        | O => true
        | S f' => match fgets s with
                  | None => true
                  | Some (l, r) => match first_nonblank l with
                                   | Some c => negb (Ascii.eqb c chEQ) | None => true end && chk f' r
                  end
        end) f s = true ->
     forall l, piece_of s l -> first_nonblank l <> Some chEQ).
  { induction f as [|f IH]; intros s L H l P.
    - destruct s; [|simpl in L; lia]. inversion P; discriminate.
    - inversion P as [s0 l0 r E|s0 l0 r x E P2]; subst; rewrite E in H; apply andb_prop in H; destruct H as [H1 H2].
      + intros X. rewrite X in H1. rewrite Ascii.eqb_refl in H1. discriminate.
      + destruct (fgets_some s l0 r E) as [Es Nl].
        eapply IH; [|exact H2|exact P2].
        subst s. rewrite app_length in L. destruct l0; [congruence|simpl in L; lia]. }
  apply (G (length ex_file) ex_file (le_n _)). vm_compute. reflexivity.
Qed.

(** ** C08 *)
Theorem C08_all_ranks_agree : forall root n, reachable root -> now_open root = true ->
  db_printable (view_of (blocks root)) ->
  Forall (fun b => length (b_name b) + 2 < MAXLEN /\
                   Forall (fun p => length (dist_par_line p) < MAXLEN) (b_pars b)) (blocks root) ->
  length (now_file root) < MAXLEN ->
  exists children, par_dist_mpi root (repeat init_state n) = Ok (root :: children) /\
    length children = n /\
    Forall (fun c => now_open c = true /\ view_of (blocks c) = view_of (blocks root)) children.
Proof.
  intros root n R O PR FT LF.
  destruct (dist_all root n (reachable_uniq root R) O PR FT LF) as (ch & A & B & C).
  exists ch. repeat split; auto. eapply Forall_impl; [|exact C]. simpl. tauto.
Qed.
Print Assumptions C08_all_ranks_agree.

(** A line that does not fit overruns the buffer of rank 0. *)
Theorem C08_overrun : forall root children b p, now_open root = true ->
  In b (blocks root) -> In p (b_pars b) -> MAXLEN <= length (dist_par_line p) ->
  par_dist_mpi root children = UB.
Proof.
  intros root children b p O HB HP L. unfold par_dist_mpi, dist_send. rewrite O. cbn [negb].
  assert (PS : forall ps, In p ps -> dist_pars ps = UB).
  { induction ps as [|q ps IH]; intros HI; [destruct HI|]. simpl. unfold sprintf_line.
    destruct HI as [->|HI].
    - rewrite (proj2 (Nat.ltb_ge _ _) L). reflexivity.
    - destruct (length (dist_par_line q) <? MAXLEN); [cbn [bind]; rewrite IH by auto|]; reflexivity. }
  assert (BS : forall d, In b d -> dist_blocks d = UB).
  { induction d as [|q d IH]; intros HI; [destruct HI|]. simpl. unfold sprintf_line.
    destruct (length (chLT :: b_name q ++ [chGT]) <? MAXLEN); [cbn [bind]|reflexivity].
    destruct HI as [->|HI]; [rewrite PS by auto; reflexivity|].
    assert (NF : dist_pars (b_pars q) = UB \/ exists l, dist_pars (b_pars q) = Ok l).
    { clear. induction (b_pars q) as [|x ps IH]; simpl; [eauto|]. unfold sprintf_line.
      destruct (length (dist_par_line x) <? MAXLEN); cbn [bind]; [|auto].
      destruct IH as [->|[l ->]]; cbn [bind]; eauto. }
    destruct NF as [->|[l ->]]; cbn [bind]; [reflexivity|]. rewrite IH by auto. reflexivity. }
  rewrite (BS _ HB). reflexivity.
Qed.
Print Assumptions C08_overrun.
(** A database read from an acceptable file can overrun it: the rebuilt line may
    be longer than the line that was read. *)
Theorem C08_overrun_reachable : exists s,
  par_open init_state (S_ "f") (Some (S_ "<b>" ++ [LF] ++ S_ "x=" ++ repeat "v"%char 252 ++ [LF])) = Ok s /\
  par_dist_mpi s [init_state] = UB.
Proof. eexists. split; vm_compute; reflexivity. Qed.
Print Assumptions C08_overrun_reachable.
(** An empty value with a comment reaches the other ranks changed. *)
Theorem C08_empty_value_refuted : exists s c,
  par_open init_state (S_ "f") (Some (S_ "<b>" ++ [LF] ++ S_ "x=# note" ++ [LF])) = Ok s /\
  par_dist_mpi s [init_state] = Ok [s; c] /\
  par_gets s (S_ "b") (S_ "x") = Ok [] /\ par_gets c (S_ "b") (S_ "x") = Ok (S_ "# note").
Proof. eexists _, _. repeat split; vm_compute; reflexivity. Qed.
Print Assumptions C08_empty_value_refuted.
Example C08_example :
  Forall (fun b => length (b_name b) + 2 < MAXLEN /\
                   Forall (fun p => length (dist_par_line p) < MAXLEN) (b_pars b)) (blocks ex_state).
Proof.
  assert (H : forallb (fun b => (length (b_name b) + 2 <? MAXLEN) &&
     forallb (fun p => length (dist_par_line p) <? MAXLEN) (b_pars b)) (blocks ex_state) = true)
    by (vm_compute; reflexivity).
  rewrite forallb_forall in H. apply Forall_forall. intros b Hb. specialize (H b Hb).
  apply andb_prop in H. destruct H as [H1 H2]. split; [apply Nat.ltb_lt; auto|].
  rewrite forallb_forall in H2. apply Forall_forall. intros p Hp. apply Nat.ltb_lt. auto.
Qed.
