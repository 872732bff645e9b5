(** * Proofs about the database operations of par.c (C01-C04) *)
From Coq Require Import String Ascii NArith ZArith Bool Arith Lia List.
From Verif Require Import CStr CStrFacts ParModel ParSpec.
Import ListNotations.

Definition pview (p : par) : str * entry := (p_name p, (p_value p, p_comment p)).
Definition bview (b : block) : str * list (str * entry) := (b_name b, map pview (b_pars b)).

Lemma view_of_map : forall d, view_of d = map bview d.
Proof. reflexivity. Qed.

(** ** Lists of parameters *)

Lemma find_par_some : forall ps n p, find_par ps n = Some p -> In p ps /\ p_name p = n.
Proof.
  induction ps as [|q ps IH]; simpl; intros n p H; [discriminate|].
  destruct (str_eqb_spec (p_name q) n).
  - inversion H; subst; auto.
  - destruct (IH _ _ H); auto.
Qed.

Lemma find_par_none : forall ps n, find_par ps n = None <-> ~ In n (map p_name ps).
Proof.
  induction ps as [|q ps IH]; simpl; intros n; [tauto|].
  destruct (str_eqb_spec (p_name q) n).
  - split; [discriminate|]. intros H; exfalso; apply H; auto.
  - rewrite IH. tauto.
Qed.

Lemma find_par_unique : forall ps p, NoDup (map p_name ps) -> In p ps ->
  find_par ps (p_name p) = Some p.
Proof.
  induction ps as [|q ps IH]; simpl; intros p ND HI; [tauto|].
  inversion ND; subst. destruct HI as [->|HI].
  - rewrite str_eqb_refl; reflexivity.
  - destruct (str_eqb_spec (p_name q) (p_name p)) as [E|E].
    + exfalso; apply H1. rewrite E. apply in_map; auto.
    + auto.
Qed.

Lemma find_par_add_same : forall ps n v c,
  find_par (add_par_list ps n v c) n =
  Some (Par n v (match c with
                 | Some x => Some x
                 | None => match find_par ps n with Some p => p_comment p | None => None end
                 end)).
Proof.
  induction ps as [|q ps IH]; simpl; intros n v c.
  - rewrite str_eqb_refl. destruct c; reflexivity.
  - destruct (str_eqb_spec (p_name q) n) as [E|E]; simpl.
    + rewrite E, str_eqb_refl. destruct c; reflexivity.
    + rewrite (proj2 (str_eqb_neq _ _) E). apply IH.
Qed.

Lemma add_par_list_names : forall ps n v c,
  map p_name (add_par_list ps n v c) =
  match find_par ps n with Some _ => map p_name ps | None => map p_name ps ++ [n] end.
Proof.
  induction ps as [|q ps IH]; simpl; intros n v c; [reflexivity|].
  destruct (str_eqb_spec (p_name q) n) as [E|E]; simpl; [reflexivity|].
  rewrite IH. destruct (find_par ps n); reflexivity.
Qed.

Lemma add_par_list_other : forall ps n v c n' e, n' <> n ->
  (In (n', e) (map pview (add_par_list ps n v c)) <-> In (n', e) (map pview ps)).
Proof.
  induction ps as [|q ps IH]; simpl; intros n v c n' e NE.
  - unfold pview; simpl. split; [|tauto]. intros [H|[]]. inversion H; congruence.
  - destruct (str_eqb_spec (p_name q) n) as [E|E]; simpl.
    + unfold pview at 1 3; simpl. split; intros [H|H]; auto; left; inversion H; subst; congruence.
    + rewrite IH by assumption. reflexivity.
Qed.

Lemma add_par_list_nodup : forall ps n v c,
  NoDup (map p_name ps) -> NoDup (map p_name (add_par_list ps n v c)).
Proof.
  intros ps n v c H. rewrite add_par_list_names.
  destruct (find_par ps n) eqn:E; auto.
  apply find_par_none in E.
  apply NoDup_rev in H. rewrite <- (rev_involutive (map p_name ps ++ [n])).
  apply NoDup_rev. rewrite rev_app_distr. simpl. constructor; auto.
  rewrite <- in_rev. assumption.
Qed.

(** ** Lists of blocks *)

Lemma find_block_some : forall d n b, find_block d n = Some b -> In b d /\ b_name b = n.
Proof.
  induction d as [|q d IH]; simpl; intros n b H; [discriminate|].
  destruct (str_eqb_spec (b_name q) n).
  - inversion H; subst; auto.
  - destruct (IH _ _ H); auto.
Qed.

Lemma find_block_none : forall d n, find_block d n = None <-> ~ In n (map b_name d).
Proof.
  induction d as [|q d IH]; simpl; intros n; [tauto|].
  destruct (str_eqb_spec (b_name q) n).
  - split; [discriminate|]. intros H; exfalso; apply H; auto.
  - rewrite IH. tauto.
Qed.

Lemma find_block_unique : forall d b, NoDup (map b_name d) -> In b d ->
  find_block d (b_name b) = Some b.
Proof.
  induction d as [|q d IH]; simpl; intros b ND HI; [tauto|].
  inversion ND; subst. destruct HI as [->|HI].
  - rewrite str_eqb_refl; reflexivity.
  - destruct (str_eqb_spec (b_name q) (b_name b)) as [E|E].
    + exfalso; apply H1. rewrite E. apply in_map; auto.
    + auto.
Qed.

Definition keeps_name (f : block -> block) : Prop := forall b, b_name (f b) = b_name b.

Lemma add_par_keeps : forall n v c, keeps_name (fun b => add_par b n v c).
Proof. intros n v c b; reflexivity. Qed.

Definition block_or_new (d : db) (n : str) : block :=
  match find_block d n with Some b => b | None => Block n [] 0 0 end.

Lemma find_block_with_same : forall d n f, keeps_name f ->
  find_block (with_block d n f) n = Some (f (block_or_new d n)).
Proof.
  unfold block_or_new.
  induction d as [|q d IH]; simpl; intros n f K.
  - rewrite K; simpl; rewrite str_eqb_refl; reflexivity.
  - destruct (str_eqb_spec (b_name q) n) as [E|E]; simpl.
    + rewrite K, E, str_eqb_refl. reflexivity.
    + rewrite (proj2 (str_eqb_neq _ _) E). apply IH; auto.
Qed.

Lemma find_block_with_other : forall d n f n', keeps_name f -> n' <> n ->
  find_block (with_block d n f) n' = find_block d n'.
Proof.
  induction d as [|q d IH]; simpl; intros n f n' K NE.
  - rewrite K; simpl. rewrite (proj2 (str_eqb_neq n n')) by congruence. reflexivity.
  - destruct (str_eqb_spec (b_name q) n) as [E|E]; simpl.
    + rewrite K. destruct (str_eqb_spec (b_name q) n') as [E'|E']; congruence.
    + destruct (str_eqb (b_name q) n'); auto.
Qed.

Lemma with_block_names : forall d n f, keeps_name f ->
  map b_name (with_block d n f) =
  match find_block d n with Some _ => map b_name d | None => map b_name d ++ [n] end.
Proof.
  induction d as [|q d IH]; simpl; intros n f K.
  - rewrite K; reflexivity.
  - destruct (str_eqb_spec (b_name q) n) as [E|E]; simpl.
    + rewrite K; reflexivity.
    + rewrite IH by assumption. destruct (find_block d n); reflexivity.
Qed.

Lemma NoDup_snoc : forall (A : Type) (l : list A) x, NoDup l -> ~ In x l -> NoDup (l ++ [x]).
Proof.
  intros A l x H N. rewrite <- (rev_involutive (l ++ [x])).
  apply NoDup_rev. rewrite rev_app_distr. simpl. constructor.
  - rewrite <- in_rev; auto.
  - apply NoDup_rev; auto.
Qed.

(** ** The database invariant: no duplicates *)

Definition uniq (d : db) : Prop :=
  NoDup (map b_name d) /\ Forall (fun b => NoDup (map p_name (b_pars b))) d.

Lemma fst_view : forall d, map fst (view_of d) = map b_name d.
Proof. intros d. unfold view_of. rewrite map_map. reflexivity. Qed.

Lemma uniq_unique : forall d, uniq d <-> unique (view_of d).
Proof.
  intros d. unfold uniq, unique. rewrite fst_view. unfold view_of. apply and_iff_compat_l. rewrite Forall_forall. split.
  - intros H b ps HI. apply in_map_iff in HI. destruct HI as (x & Hx & HI).
    inversion Hx; subst. rewrite map_map. simpl. apply H; auto.
  - intros H b HI. specialize (H (b_name b) (map (fun p => (p_name p, (p_value p, p_comment p))) (b_pars b))).
    rewrite map_map in H. simpl in H. apply H.
    apply in_map_iff. exists b; auto.
Qed.

Lemma with_block_uniq : forall d n f, keeps_name f ->
  (forall b, NoDup (map p_name (b_pars b)) -> NoDup (map p_name (b_pars (f b)))) ->
  uniq d -> uniq (with_block d n f).
Proof.
  intros d n f K P [N F]. split.
  - rewrite with_block_names by assumption.
    destruct (find_block d n) eqn:E; auto.
    apply NoDup_snoc; auto. apply find_block_none; auto.
  - clear N. induction d as [|q d IH]; simpl.
    + constructor; auto. apply P. constructor.
    + inversion F; subst. destruct (str_eqb (b_name q) n); constructor; auto.
Qed.

Lemma update_block_names : forall d n f, keeps_name f ->
  map b_name (update_block d n f) = map b_name d.
Proof.
  induction d as [|q d IH]; simpl; intros n f K; [reflexivity|].
  destruct (str_eqb (b_name q) n); simpl; [rewrite K; reflexivity|].
  rewrite IH; auto.
Qed.

Lemma update_block_uniq : forall d n f, keeps_name f ->
  (forall b, NoDup (map p_name (b_pars b)) -> NoDup (map p_name (b_pars (f b)))) ->
  uniq d -> uniq (update_block d n f).
Proof.
  intros d n f K P [N F]. split.
  - rewrite update_block_names; auto.
  - clear N. induction d as [|q d IH]; simpl; [constructor|].
    inversion F; subst. destruct (str_eqb (b_name q) n); constructor; auto.
Qed.

Lemma set_value_names : forall ps n v, map p_name (set_value ps n v) = map p_name ps.
Proof.
  induction ps as [|q ps IH]; simpl; intros; [reflexivity|].
  destruct (str_eqb (p_name q) n); simpl; [reflexivity|]. rewrite IH; reflexivity.
Qed.

Lemma add_par_uniq : forall d bn n v c, uniq d ->
  uniq (with_block d bn (fun b => add_par b n v c)).
Proof.
  intros. apply with_block_uniq; auto.
  - apply add_par_keeps.
  - intros b H0. apply add_par_list_nodup; auto.
Qed.

Lemma add_block_uniq : forall d bn, uniq d -> uniq (add_block d bn).
Proof. intros. apply with_block_uniq; auto. intros b; reflexivity. Qed.

Lemma cmdline_arg_uniq : forall d a d' a', cmdline_arg d a = Ok (d', a') -> uniq d -> uniq d'.
Proof.
  intros d a d' a' H U. unfold cmdline_arg in H.
  repeat match type of H with
  | bind ?e _ = _ => let E := fresh in destruct e eqn:E; simpl in H; try discriminate
  | match ?e with Some _ => _ | None => _ end = _ =>
      let E := fresh in destruct e eqn:E; try discriminate
  end; inversion H; subst; auto.
  apply update_block_uniq; auto.
  - intros b0; reflexivity.
  - intros b1 Hb; simpl. rewrite set_value_names; auto.
Qed.

Lemma cmdline_loop_uniq : forall args d d' args',
  cmdline_loop d args = Ok (d', args') -> uniq d -> uniq d'.
Proof.
  induction args as [|a args IH]; simpl; intros d d' args' H U.
  - inversion H; subst; auto.
  - destruct (cmdline_arg d a) as [[d1 a1]| |] eqn:E; simpl in H; try discriminate.
    destruct (cmdline_loop d1 args) as [[d2 r]| |] eqn:E2; simpl in H; try discriminate.
    inversion H; subst. eapply IH; eauto. eapply cmdline_arg_uniq; eauto.
Qed.

Lemma par_line_uniq : forall d bp buf d' bp',
  par_line d bp buf = Ok (Some (d', bp')) -> uniq d -> uniq d'.
Proof.
  intros d bp buf d' bp' H U. unfold par_line in H.
  destruct (skipwhite buf 0) as [cp| |]; simpl in H; try discriminate.
  destruct (rd buf cp) as [c| |]; simpl in H; try discriminate.
  destruct (Ascii.eqb c NUL); [inversion H; subst; auto|].
  destruct (Ascii.eqb c chHASH); [inversion H; subst; auto|].
  destruct (cstr_at buf cp) as [s| |]; simpl in H; try discriminate.
  destruct (prefixb _ s); try discriminate.
  destruct (Ascii.eqb c chLT).
  - destruct (line_block_name buf cp) as [[b' sp]| |]; simpl in H; try discriminate.
    destruct (cstr_at b' sp) as [n| |]; simpl in H; try discriminate.
    inversion H; subst. apply add_block_uniq; auto.
  - destruct bp as [bn|]; try discriminate.
    destruct (parse_par_line buf cp) as [[[n v] cm]| |]; simpl in H; try discriminate.
    inversion H; subst. apply add_par_uniq; auto.
Qed.

Lemma open_loop_uniq : forall f d bp file d', open_loop f d bp file = Ok d' -> uniq d -> uniq d'.
Proof.
  induction f as [|f IH]; simpl; intros d bp file d' H U;
    destruct (fgets file) as [[l r]|]; try (inversion H; subst; auto; fail).
  destruct (par_line d bp (l ++ [NUL])) as [[[d1 bp1]|]| |] eqn:E; simpl in H; try discriminate.
  - eapply IH; eauto. eapply par_line_uniq; eauto.
  - inversion H; subst; auto.
Qed.

Lemma recv_loop_uniq : forall msgs d bp d', dist_recv_loop d bp msgs = Ok d' -> uniq d -> uniq d'.
Proof.
  induction msgs as [|m msgs IH]; simpl; intros d bp d' H U; [inversion H; subst; auto|].
  destruct (rd (m ++ [NUL]) 0) as [c| |]; simpl in H; try discriminate.
  destruct (Ascii.eqb c chLT).
  - destruct (line_block_name _ 0) as [[b' sp]| |]; simpl in H; try discriminate.
    destruct (cstr_at b' sp) as [n| |]; simpl in H; try discriminate.
    eapply IH; eauto. apply add_block_uniq; auto.
  - destruct bp as [bn|]; try discriminate.
    destruct (parse_par_line _ 0) as [[[n v] cm]| |]; simpl in H; try discriminate.
    eapply IH; eauto. apply add_par_uniq; auto.
Qed.

Lemma par_sets_uniq : forall s b n v c, uniq (blocks s) -> uniq (blocks (par_sets s b n v c)).
Proof. intros; apply add_par_uniq; auto. Qed.

Lemma step_uniq : forall s o s', step s o = Ok s' -> uniq (blocks s) -> uniq (blocks s').
Proof.
  intros s o s' H U. destruct o; simpl in H.
  - unfold par_open in H. destruct (now_open s); try discriminate.
    destruct file as [txt|]; try discriminate.
    destruct (open_loop _ _ _ _) as [d| |] eqn:E; simpl in H; try discriminate.
    inversion H; subst; simpl. eapply open_loop_uniq; eauto.
  - inversion H; subst. unfold par_close. destruct (now_open s); auto.
    simpl. split; constructor.
  - unfold par_cmdline in H.
    destruct (cmdline_loop _ _) as [[d a]| |] eqn:E; simpl in H; try discriminate.
    inversion H; subst; simpl. eapply cmdline_loop_uniq; eauto.
  - inversion H; subst. apply par_sets_uniq; auto.
  - inversion H; subst. apply par_sets_uniq; auto.
  - unfold par_setd in H. destruct (Nat.ltb _ _); inversion H; subst. apply par_sets_uniq; auto.
  - destruct (par_gets s b n); simpl in H; inversion H; subst; auto.
  - destruct (par_exist s b n); simpl in H; inversion H; subst; auto.
  - unfold par_gets_def in H. destruct (par_exist s b n) as [[|]| |]; simpl in H; try discriminate.
    + destruct (par_getsl s b n); simpl in H; inversion H; subst; auto.
    + inversion H; subst. apply par_sets_uniq; auto.
  - unfold par_geti_def in H. destruct (par_exist s b n) as [[|]| |]; simpl in H; try discriminate.
    + destruct (par_getsl s b n); simpl in H; inversion H; subst; auto.
    + inversion H; subst. apply par_sets_uniq; auto.
  - unfold par_getd_def in H. destruct (par_exist s b n) as [[|]| |]; simpl in H; try discriminate.
    + destruct (par_getsl s b n); simpl in H; inversion H; subst; auto.
    + unfold par_setd in H. destruct (Nat.ltb _ _); simpl in H; inversion H; subst.
      apply par_sets_uniq; auto.
  - unfold dist_recv in H. destruct (now_open s); try discriminate.
    destruct (negb _); try discriminate.
    destruct (dist_recv_loop _ _ _) as [d| |] eqn:E; simpl in H; try discriminate.
    inversion H; subst; simpl. eapply recv_loop_uniq; eauto.
Qed.

Lemma run_uniq : forall ops s s', run s ops = Ok s' -> uniq (blocks s) -> uniq (blocks s').
Proof.
  induction ops as [|o ops IH]; simpl; intros s s' H U.
  - inversion H; subst; auto.
  - destruct (step s o) as [s1| |] eqn:E; simpl in H; try discriminate.
    eapply IH; eauto. eapply step_uniq; eauto.
Qed.

Lemma reachable_uniq : forall s, reachable s -> uniq (blocks s).
Proof.
  intros s [ops H]. eapply run_uniq; eauto. split; constructor.
Qed.

(** ** holds / lookup *)

Lemma holds_iff : forall d b n v c,
  holds (view_of d) b n (v, c) <->
  exists bl p, In bl d /\ In p (b_pars bl) /\ b_name bl = b /\ p = Par n v c.
Proof.
  intros d b n v c. unfold holds, view_of. split.
  - intros (ps & HB & HP). apply in_map_iff in HB. destruct HB as (bl & E & HI).
    inversion E; subst. apply in_map_iff in HP. destruct HP as (p & E2 & HP).
    exists bl, p. inversion E2; subst. destruct p; simpl; auto.
  - intros (bl & p & HI & HP & <- & ->).
    exists (map pview (b_pars bl)). split.
    + apply in_map_iff. exists bl; auto.
    + apply in_map_iff. exists (Par n v c); auto.
Qed.

Lemma holds_lookup : forall d b n v c, uniq d ->
  (holds (view_of d) b n (v, c) <->
   exists bl, find_block d b = Some bl /\ find_par (b_pars bl) n = Some (Par n v c)).
Proof.
  intros d b n v c [N F]. rewrite holds_iff. split.
  - intros (bl & p & HI & HP & E & ->). exists bl. split.
    + rewrite <- E. apply find_block_unique; auto.
    + change n with (p_name (Par n v c)) at 1. apply find_par_unique; auto.
      rewrite Forall_forall in F; auto.
  - intros (bl & HB & HP). apply find_block_some in HB. apply find_par_some in HP.
    exists bl, (Par n v c). tauto.
Qed.

Lemma gets_holds : forall s b n v, uniq (blocks s) -> now_open s = true ->
  (par_gets s b n = Ok v <-> exists c, holds (view_of (blocks s)) b n (v, c)).
Proof.
  intros s b n v U O. unfold par_gets, par_getsl. rewrite O; simpl. split.
  - destruct (find_block (blocks s) b) as [bl|] eqn:EB; [|discriminate].
    destruct (find_par (b_pars bl) n) as [p|] eqn:EP; [|discriminate].
    intros H; inversion H; subst. exists (p_comment p).
    apply holds_lookup; auto. exists bl; split; auto.
    apply find_par_some in EP as EP2. destruct EP2 as [_ <-]. rewrite EP. destruct p; reflexivity.
  - intros [c H]. apply holds_lookup in H; auto. destruct H as (bl & -> & ->). reflexivity.
Qed.

Lemma sets_gets : forall s b n v c, now_open s = true ->
  par_gets (par_sets s b n v c) b n = Ok v /\ par_exist (par_sets s b n v c) b n = Ok true.
Proof.
  intros s b n v c O. unfold par_gets, par_getsl, par_exist, par_sets; simpl. rewrite O; simpl.
  rewrite find_block_with_same by apply add_par_keeps. simpl.
  rewrite find_par_add_same. auto.
Qed.

Lemma sets_other : forall d b n v c b' n' e, (b', n') <> (b, n) ->
  (holds (view_of (with_block d b (fun x => add_par x n v c))) b' n' e <->
   holds (view_of d) b' n' e).
Proof.
  intros d b n v c b' n' e NE. unfold holds, view_of.
  induction d as [|q d IH].
  - simpl. split.
    + intros (ps & [H|[]] & HP). inversion H; subst. simpl in HP.
      destruct HP as [HP|[]]. inversion HP; subst. congruence.
    + intros (ps & [] & _).
  - simpl. destruct (str_eqb_spec (b_name q) b) as [E|E].
    + simpl. split.
      * intros (ps & [H|H] & HP); [|exists ps; auto].
        inversion H; subst. destruct (str_eq_dec n' n) as [->|NN]; [congruence|].
        exists (map pview (b_pars q)). split; auto.
        eapply add_par_list_other; eauto.
      * intros (ps & [H|H] & HP); [|exists ps; auto].
        inversion H; subst. destruct (str_eq_dec n' n) as [->|NN]; [congruence|].
        exists (map pview (add_par_list (b_pars q) n v c)). split; auto.
        eapply add_par_list_other; eauto.
    + simpl. split.
      * intros (ps & [H|H] & HP); [exists ps; auto|].
        destruct (proj1 IH) as (ps' & H1 & H2); [exists ps; auto|]. exists ps'; auto.
      * intros (ps & [H|H] & HP); [exists ps; auto|].
        destruct (proj2 IH) as (ps' & H1 & H2); [exists ps; auto|]. exists ps'; auto.
Qed.

(** ** Order *)

Lemma keys_view : forall d,
  keys (view_of d) = flat_map (fun b => map (pair (b_name b)) (map p_name (b_pars b))) d.
Proof.
  intros d. unfold keys, view_of. rewrite flat_map_concat_map, map_map, flat_map_concat_map.
  f_equal. apply map_ext. intros b; simpl. rewrite !map_map. reflexivity.
Qed.

Lemma present_keys : forall v b n, present v b n <-> In (b, n) (keys v).
Proof.
  intros v b n. unfold present, holds, keys. rewrite in_flat_map. split.
  - intros (e & ps & HB & HP). exists (b, ps). split; auto. simpl.
    apply in_map_iff. exists (n, e); auto.
  - intros ([b' ps] & HB & HP). simpl in HP. apply in_map_iff in HP.
    destruct HP as ([n' e] & E & HP). inversion E; subst. exists e, ps; auto.
Qed.

Lemma sets_keys_old : forall d b n v c, uniq d -> present (view_of d) b n ->
  keys (view_of (with_block d b (fun x => add_par x n v c))) = keys (view_of d).
Proof.
  intros d b n v c U P. rewrite present_keys in P. rewrite !keys_view in *.
  destruct U as [N _]. induction d as [|q d IH]; simpl in *; [tauto|].
  inversion N; subst.
  destruct (str_eqb_spec (b_name q) b) as [E|E]; simpl.
  - f_equal. rewrite add_par_list_names.
    destruct (find_par (b_pars q) n) eqn:F; [reflexivity|]. exfalso.
    apply find_par_none in F. apply in_app_or in P. destruct P as [P|P].
    + apply in_map_iff in P. destruct P as (x & Ex & Hx). inversion Ex; subst; auto.
    + apply in_flat_map in P. destruct P as (y & Hy & Py).
      apply in_map_iff in Py. destruct Py as (x & Ex & Hx). inversion Ex; subst.
      apply H1. rewrite <- H0. apply in_map; auto.
  - f_equal. apply IH; auto. apply in_app_or in P. destruct P as [P|P]; auto.
    apply in_map_iff in P. destruct P as (x & Ex & Hx). inversion Ex; congruence.
Qed.

Lemma sets_keys_new : forall d b n v c, uniq d -> ~ present (view_of d) b n ->
  exists l1 l2,
    keys (view_of d) = l1 ++ l2 /\
    keys (view_of (with_block d b (fun x => add_par x n v c))) = l1 ++ (b, n) :: l2 /\
    (forall n', ~ In (b, n') l2) /\
    (~ In b (block_names (view_of d)) -> l2 = []).
Proof.
  intros d b n v c U P. rewrite present_keys in P. rewrite !keys_view in *.
  unfold block_names. rewrite fst_view.
  destruct U as [N _]. induction d as [|q d IH]; simpl in *.
  - exists [], []. simpl. repeat split; auto.
  - inversion N; subst.
    destruct (str_eqb_spec (b_name q) b) as [E|E]; simpl.
    + exists (map (pair (b_name q)) (map p_name (b_pars q))),
        (flat_map (fun b0 : block => map (pair (b_name b0)) (map p_name (b_pars b0))) d).
      split; [reflexivity|]. split; [|split].
      * rewrite add_par_list_names.
        destruct (find_par (b_pars q) n) eqn:F.
        -- exfalso. apply P. apply in_or_app; left. apply find_par_some in F.
           destruct F as [F1 F2]. rewrite <- F2, <- E. apply in_map, in_map; auto.
        -- rewrite map_app, <- app_assoc. simpl. rewrite E. reflexivity.
      * intros n' HI. apply in_flat_map in HI. destruct HI as (y & Hy & Py).
        apply in_map_iff in Py. destruct Py as (x & Ex & Hx). inversion Ex; subst.
        apply H1. rewrite <- H0. apply in_map; auto.
      * intros H; exfalso; apply H; auto.
    + destruct IH as (l1 & l2 & A & B & C & D); auto.
      { intros HI; apply P. apply in_or_app; auto. }
      exists (map (pair (b_name q)) (map p_name (b_pars q)) ++ l1), l2.
      rewrite <- !app_assoc, A, B. repeat split; auto.
Qed.

Lemma sets_comment : forall d b n v c, uniq d ->
  (forall v0 c0, holds (view_of d) b n (v0, c0) ->
     holds (view_of (with_block d b (fun x => add_par x n v c))) b n
       (v, match c with Some x => Some x | None => c0 end)) /\
  (~ present (view_of d) b n ->
     holds (view_of (with_block d b (fun x => add_par x n v c))) b n (v, c)).
Proof.
  intros d b n v c U.
  assert (U' := add_par_uniq d b n v c U).
  assert (G : forall c', find_par (b_pars (add_par (block_or_new d b) n v c)) n = Some (Par n v c') ->
     holds (view_of (with_block d b (fun x => add_par x n v c))) b n (v, c')).
  { intros c' H. apply holds_lookup; auto. eexists. split; [|exact H].
    apply find_block_with_same with (f := fun x => add_par x n v c). apply add_par_keeps. }
  split.
  - intros v0 c0 H. apply G. simpl. rewrite find_par_add_same.
    apply holds_lookup in H; auto. destruct H as (bl & HB & HP).
    unfold block_or_new. rewrite HB, HP. destruct c; reflexivity.
  - intros H. apply G. simpl. rewrite find_par_add_same.
    destruct c as [x|]; [reflexivity|].
    destruct (find_par (b_pars (block_or_new d b)) n) as [p|] eqn:E; [|reflexivity].
    exfalso. apply H. exists (p_value p, p_comment p). apply holds_lookup; auto.
    unfold block_or_new in E. destruct (find_block d b) as [bl|] eqn:EB; [|discriminate].
    exists bl. split; auto. rewrite E. apply find_par_some in E. destruct E as [_ <-].
    destruct p; reflexivity.
Qed.

(** ** Defaults *)

Lemma exist_present : forall s b n, uniq (blocks s) -> now_open s = true ->
  (par_exist s b n = Ok true <-> present (view_of (blocks s)) b n).
Proof.
  intros s b n U O. unfold par_exist. rewrite O; simpl. split.
  - destruct (find_block (blocks s) b) as [bl|] eqn:EB; [|discriminate].
    destruct (find_par (b_pars bl) n) as [p|] eqn:EP; [|discriminate]. intros _.
    exists (p_value p, p_comment p). apply holds_lookup; auto. exists bl; split; auto.
    rewrite EP. apply find_par_some in EP. destruct EP as [_ <-]. destruct p; reflexivity.
  - intros ([v c] & H). apply holds_lookup in H; auto. destruct H as (bl & -> & ->). reflexivity.
Qed.

Lemma exist_total : forall s b n, now_open s = true ->
  par_exist s b n = Ok true \/ par_exist s b n = Ok false.
Proof.
  intros s b n O. unfold par_exist. rewrite O; simpl.
  destruct (find_block (blocks s) b) as [bl|]; auto.
  destruct (find_par (b_pars bl) n); auto.
Qed.
