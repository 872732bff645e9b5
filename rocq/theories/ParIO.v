(** * C04, C06, C08: command line, dump and re-read, distribution *)
From Coq Require Import String Ascii NArith ZArith Bool Arith Lia List.
From Verif Require Import CStr CStrFacts ParModel ParSpec ParSafety ParDbProofs ParParse ParFile.
Import ListNotations.

(** ** Command line *)

Lemma cut_some : forall c s a b, cut c s = Some (a, b) <-> s = a ++ c :: b /\ ~ In c a.
Proof.
  induction s as [|x s IH]; intros a b; simpl.
  - split; [discriminate|]. intros [H _]. destruct a; discriminate.
  - destruct (Ascii.eqb_spec x c) as [E|E].
    + subst. split.
      * intros H; inversion H; subst. auto.
      * intros [H N]. destruct a as [|y a]; simpl in H; inversion H; subst; [reflexivity|].
        exfalso; apply N; left; auto.
    + split.
      * destruct (cut c s) as [[a' b']|] eqn:EC; [|discriminate]. intros H; inversion H; subst.
        destruct (proj1 (IH a' b) eq_refl) as [-> N]. split; [reflexivity|].
        intros [H1|H1]; [congruence|auto].
      * intros [H N]. destruct a as [|y a]; simpl in H; inversion H; subst; [congruence|].
        rewrite (proj2 (IH a b)); [reflexivity|]. split; auto. intro; apply N; right; auto.
Qed.
Lemma cut_none : forall c s, cut c s = None <-> ~ In c s.
Proof.
  induction s as [|x s IH]; simpl; [tauto|].
  destruct (Ascii.eqb_spec x c) as [E|E].
  - split; [discriminate|]. intros H; exfalso; apply H; auto.
  - destruct (cut c s) as [[a b]|]; split; try discriminate; try tauto.
    intros H. exfalso. assert (X : Some (a, b) = None) by (apply IH; tauto). discriminate.
Qed.

Lemma strchr_found : forall pre s c r, ~ In c s -> ~ In NUL s ->
  strchr (pre ++ s ++ c :: r) (length pre) c = Ok (Some (length pre + length s)).
Proof.
  intros pre s c r N1 N2. unfold strchr. rewrite skipn_len_app.
  generalize (length pre) as k. induction s as [|x s IH]; intros k; simpl.
  - rewrite Ascii.eqb_refl. f_equal; f_equal; lia.
  - destruct (Ascii.eqb_spec x c) as [E|E]; [exfalso; apply N1; left; auto|].
    destruct (Ascii.eqb_spec x NUL) as [E2|E2]; [exfalso; apply N2; left; auto|].
    rewrite IH; [f_equal; f_equal; lia| |]; intro; [apply N1|apply N2]; right; auto.
Qed.
Lemma strchr_none : forall pre s c r, ~ In c s -> ~ In NUL s -> c <> NUL ->
  strchr (pre ++ s ++ NUL :: r) (length pre) c = Ok None.
Proof.
  intros pre s c r N1 N2 NC. unfold strchr. rewrite skipn_len_app.
  generalize (length pre) as k. induction s as [|x s IH]; intros k; simpl.
  - destruct (Ascii.eqb_spec NUL c) as [E|E]; [congruence|]. reflexivity.
  - destruct (Ascii.eqb_spec x c) as [E|E]; [exfalso; apply N1; left; auto|].
    destruct (Ascii.eqb_spec x NUL) as [E2|E2]; [exfalso; apply N2; left; auto|].
    apply IH; intro; [apply N1|apply N2]; right; auto.
Qed.

Lemma strchr_found0 : forall s c r, ~ In c s -> ~ In NUL s ->
  strchr (s ++ c :: r) 0 c = Ok (Some (length s)).
Proof. intros. apply (strchr_found [] s c r); auto. Qed.

Definition set_block (n v : str) (b : block) : block :=
  Block (b_name b) (set_value (b_pars b) n v) (b_maxn b)
        (if b_maxv b <? length v then length v else b_maxv b).

Lemma cmdline_arg_split : forall d a b n v, ~ In NUL a -> split_arg a = Some (b, n, v) ->
  cmdline_arg d (a ++ [NUL]) =
  match find_block d b with
  | None => Fatal
  | Some k => match find_par (b_pars k) n with
              | None => Fatal
              | Some _ => Ok (update_block d b (set_block n v), a ++ [NUL])
              end
  end.
Proof.
  intros d a b n v NU SA. unfold split_arg in SA.
  destruct (cut chSLASH a) as [[b0 r]|] eqn:C1; [|discriminate].
  destruct (cut chEQ r) as [[n0 v0]|] eqn:C2; [|discriminate].
  inversion SA; subst b0 n0 v0.
  apply cut_some in C1. destruct C1 as [-> N1]. apply cut_some in C2. destruct C2 as [-> N2].
  rewrite !in_app_iff in NU. simpl in NU. rewrite !in_app_iff in NU. simpl in NU.
  unfold cmdline_arg.
  replace ((b ++ chSLASH :: n ++ chEQ :: v) ++ [NUL])
    with (b ++ chSLASH :: n ++ chEQ :: v ++ [NUL]) by lapp.
  rewrite strchr_found0 by tauto. cbn [bind].
  rewrite wr_app; cbn [bind].
  assert (E1 : strchr (b ++ NUL :: n ++ chEQ :: v ++ [NUL]) (S (length b)) chEQ =
               Ok (Some (S (length b) + length n))).
  { replace (b ++ NUL :: n ++ chEQ :: v ++ [NUL]) with ((b ++ [NUL]) ++ n ++ chEQ :: (v ++ [NUL])) by lapp.
    replace (S (length b)) with (length (b ++ [NUL])) by (rewrite app_length; simpl; lia).
    apply strchr_found; tauto. }
  rewrite E1; cbn [bind].
  assert (E2 : wr (b ++ NUL :: n ++ chEQ :: v ++ [NUL]) (S (length b) + length n) NUL =
               Ok (b ++ NUL :: n ++ NUL :: v ++ [NUL])).
  { replace (b ++ NUL :: n ++ chEQ :: v ++ [NUL]) with ((b ++ NUL :: n) ++ chEQ :: (v ++ [NUL])) by lapp.
    replace (S (length b) + length n) with (length (b ++ NUL :: n)) by (rewrite app_length; simpl; lia).
    rewrite wr_app. f_equal. lapp. }
  rewrite E2; cbn [bind].
  rewrite (cstr_at_pos _ 0 [] b (n ++ NUL :: v ++ [NUL])) by tauto. cbn [bind].
  rewrite (cstr_at_pos _ (S (length b)) (b ++ [NUL]) n (v ++ [NUL]));
    [|lapp|rewrite app_length; simpl; lia|tauto]. cbn [bind].
  rewrite (cstr_at_pos _ (S (S (length b) + length n)) (b ++ NUL :: n ++ [NUL]) v []);
    [|lapp|rewrite !app_length; simpl; rewrite app_length; simpl; lia|tauto]. cbn [bind].
  destruct (find_block d b) as [k|]; [|reflexivity].
  destruct (find_par (b_pars k) n); [|reflexivity].
  rewrite wr_app; cbn [bind].
  assert (E3 : wr (b ++ chSLASH :: n ++ NUL :: v ++ [NUL]) (S (length b) + length n) chEQ =
               Ok (b ++ chSLASH :: n ++ chEQ :: v ++ [NUL])).
  { replace (b ++ chSLASH :: n ++ NUL :: v ++ [NUL]) with ((b ++ chSLASH :: n) ++ NUL :: (v ++ [NUL])) by lapp.
    replace (S (length b) + length n) with (length (b ++ chSLASH :: n)) by (rewrite app_length; simpl; lia).
    rewrite wr_app. f_equal. lapp. }
  rewrite E3; cbn [bind]. reflexivity.
Qed.

Lemma cmdline_arg_skip : forall d a, ~ In NUL a -> split_arg a = None ->
  cmdline_arg d (a ++ [NUL]) = Ok (d, a ++ [NUL]).
Proof.
  intros d a NU SA. unfold split_arg in SA. unfold cmdline_arg.
  destruct (cut chSLASH a) as [[b r]|] eqn:C1.
  - destruct (cut chEQ r) as [[n v]|] eqn:C2; [discriminate|].
    apply cut_some in C1. destruct C1 as [-> N1]. apply cut_none in C2.
    rewrite !in_app_iff in NU. simpl in NU.
    replace ((b ++ chSLASH :: r) ++ [NUL]) with (b ++ chSLASH :: r ++ [NUL]) by lapp.
    rewrite strchr_found0 by tauto. cbn [bind].
    rewrite wr_app; cbn [bind].
    assert (E1 : strchr (b ++ NUL :: r ++ [NUL]) (S (length b)) chEQ = Ok None).
    { replace (b ++ NUL :: r ++ [NUL]) with ((b ++ [NUL]) ++ r ++ NUL :: []) by lapp.
      replace (S (length b)) with (length (b ++ [NUL])) by (rewrite app_length; simpl; lia).
      apply strchr_none; try tauto. discriminate. }
    rewrite E1; cbn [bind]. rewrite wr_app; cbn [bind]. reflexivity.
  - apply cut_none in C1.
    assert (E := strchr_none [] a chSLASH [] C1 NU). cbn [app length] in E.
    rewrite E by discriminate. reflexivity.
Qed.

Definition present_in (d : db) (b n : str) : bool :=
  match find_block d b with
  | None => false
  | Some k => match find_par (b_pars k) n with Some _ => true | None => false end
  end.

Lemma present_in_spec : forall d b n, uniq d -> (present_in d b n = true <-> present (view_of d) b n).
Proof.
  intros d b n U.
  assert (H := exist_present (PState true [] d) b n U eq_refl). rewrite <- H.
  unfold par_exist, present_in. cbn [now_open negb blocks].
  destruct (find_block d b) as [k|]; [destruct (find_par (b_pars k) n)|];
    split; congruence.
Qed.

Lemma find_par_set_value : forall ps n v m,
  match find_par (set_value ps n v) m with Some _ => true | None => false end =
  match find_par ps m with Some _ => true | None => false end.
Proof.
  induction ps as [|p ps IH]; intros; simpl; [reflexivity|].
  destruct (str_eqb (p_name p) n); simpl.
  - destruct (str_eqb (p_name p) m); reflexivity.
  - destruct (str_eqb (p_name p) m); [reflexivity|apply IH].
Qed.
Lemma present_in_update : forall d b n v x y,
  present_in (update_block d b (set_block n v)) x y = present_in d x y.
Proof.
  induction d as [|k d IH]; intros; [reflexivity|]. unfold present_in in *. simpl.
  destruct (str_eqb (b_name k) b); simpl.
  - destruct (str_eqb (b_name k) x); [apply find_par_set_value|reflexivity].
  - destruct (str_eqb (b_name k) x); [reflexivity|apply IH].
Qed.

(** one override at the view level *)
Lemma set_value_view : forall ps n v, NoDup (map p_name ps) ->
  map pview (set_value ps n v) =
  map (fun ne => (fst ne, (if str_eqb (fst ne) n then v else fst (snd ne), snd (snd ne)))) (map pview ps).
Proof.
  induction ps as [|p ps IH]; intros n v ND; simpl; [reflexivity|].
  inversion ND; subst. destruct (str_eqb_spec (p_name p) n) as [E|E]; simpl.
  - f_equal. rewrite map_map. apply map_ext_in. intros q Hq. unfold pview; simpl.
    destruct (str_eqb_spec (p_name q) n) as [E'|E']; [|reflexivity].
    exfalso. apply H1. rewrite E, <- E'. apply in_map; auto.
  - f_equal. apply IH; auto.
Qed.
Lemma map_id_ext : forall (A : Type) (f : A -> A) l, (forall x, In x l -> f x = x) -> map f l = l.
Proof. intros A f l H. rewrite <- (map_id l) at 2. apply map_ext_in. auto. Qed.

Lemma update_view : forall d b n v, uniq d ->
  view_of (update_block d b (set_block n v)) = overridden [(b, n, v)] (view_of d).
Proof.
  intros d b n v [ND NP]. rewrite !view_of_map. unfold overridden.
  revert NP. induction d as [|k d IH]; intros NP; [reflexivity|]. simpl.
  inversion ND as [|? ? H1 H2]; subst. inversion NP as [|? ? K1 K2]; subst.
  simpl. destruct (str_eqb_spec (b_name k) b) as [E|E].
  - subst b. simpl. f_equal.
    + unfold bview; simpl. f_equal. rewrite set_value_view by auto.
      apply map_ext. intros [m [u c]]; simpl. destruct (str_eqb m n); reflexivity.
    + symmetry. apply map_id_ext. intros [b' ps] Hin. simpl.
      assert (b' <> b_name k).
      { intros ->. apply H1. apply in_map_iff in Hin. destruct Hin as (k' & Ek & Hk).
        unfold bview in Ek. injection Ek as Ek _. rewrite <- Ek. apply in_map; auto. }
      f_equal. apply map_id_ext. intros [m [u c]] _. simpl.
      rewrite (proj2 (str_eqb_neq b' (b_name k))) by assumption. reflexivity.
  - simpl. f_equal; [|apply IH; auto].
    unfold bview; simpl. f_equal. symmetry. apply map_id_ext.
    intros [m [u c]] _. reflexivity.
Qed.

Lemma overridden_cons : forall o l w, overridden (o :: l) w = overridden l (overridden [o] w).
Proof.
  intros [[b n] v] l w. unfold overridden. rewrite map_map. apply map_ext.
  intros [b' ps]. simpl. f_equal. rewrite map_map. apply map_ext. intros [m [u c]]. simpl.
  destruct (last_override b' m l); reflexivity.
Qed.
Lemma overridden_nil : forall w, overridden [] w = w.
Proof.
  intros w. apply map_id_ext. intros [b ps] _. simpl. f_equal.
  apply map_id_ext. intros [m [u c]] _. reflexivity.
Qed.

Definition argv (args : list str) : list str := map (fun a => a ++ [NUL]) args.

Lemma cmdline_loop_ok : forall args d, uniq d -> Forall (fun a => ~ In NUL a) args ->
  Forall (fun o => present (view_of d) (fst (fst o)) (snd (fst o))) (overrides args) ->
  exists d', cmdline_loop d (argv args) = Ok (d', argv args) /\
             view_of d' = overridden (overrides args) (view_of d).
Proof.
  induction args as [|a args IH]; intros d U NU PR; simpl.
  - exists d. rewrite overridden_nil. auto.
  - inversion NU; subst. simpl in PR. fold (argv args).
    destruct (split_arg a) as [[[b n] v]|] eqn:SA.
    + inversion PR as [|? ? P1 P2]; subst. simpl in P1.
      assert (P1' := proj2 (present_in_spec d b n U) P1).
      rewrite (cmdline_arg_split d a b n v) by auto.
      unfold present_in in P1'. destruct (find_block d b) as [k|] eqn:FB; [|discriminate].
      destruct (find_par (b_pars k) n) eqn:FP; [|discriminate].
      cbn [bind].
      assert (U' : uniq (update_block d b (set_block n v))).
      { eapply (cmdline_arg_uniq d (a ++ [NUL])); [|exact U].
        rewrite (cmdline_arg_split d a b n v) by auto. rewrite FB, FP. reflexivity. }
      destruct (IH (update_block d b (set_block n v))) as (d' & L & V); auto.
      * eapply Forall_impl; [|exact P2]. intros [[x y] z] Hp. simpl in *.
        apply present_in_spec; auto. rewrite present_in_update. apply present_in_spec; auto.
      * rewrite L; cbn [bind]. exists d'. split; [reflexivity|].
        rewrite V, update_view by auto. rewrite <- overridden_cons. reflexivity.
    + rewrite cmdline_arg_skip by auto. cbn [bind].
      destruct (IH d) as (d' & L & V); auto. rewrite L; cbn [bind]. eauto.
Qed.

Lemma cmdline_loop_fatal : forall args d, uniq d -> Forall (fun a => ~ In NUL a) args ->
  (exists o, In o (overrides args) /\ ~ present (view_of d) (fst (fst o)) (snd (fst o))) ->
  cmdline_loop d (argv args) = Fatal.
Proof.
  induction args as [|a args IH]; intros d U NU (o & HI & HP); simpl in *; [destruct HI|].
  inversion NU; subst. fold (argv args).
  destruct (split_arg a) as [[[b n] v]|] eqn:SA.
  - rewrite (cmdline_arg_split d a b n v) by auto.
    destruct (present_in d b n) eqn:PI.
    + assert (PI' := PI). unfold present_in in PI'.
      destruct (find_block d b) as [k|] eqn:FB; [|discriminate].
      destruct (find_par (b_pars k) n) eqn:FP; [|discriminate]. cbn [bind].
      rewrite IH; auto.
      * eapply (cmdline_arg_uniq d (a ++ [NUL])); [|exact U].
        rewrite (cmdline_arg_split d a b n v) by auto. rewrite FB, FP. reflexivity.
      * exists o. destruct HI as [<-|HI].
        { exfalso. apply HP. simpl. apply present_in_spec; auto. }
        split; [auto|]. intros HP2. apply HP. apply present_in_spec; auto.
        apply present_in_spec in HP2.
        -- rewrite present_in_update in HP2; auto.
        -- eapply (cmdline_arg_uniq d (a ++ [NUL])); [|exact U].
           rewrite (cmdline_arg_split d a b n v) by auto. rewrite FB, FP. reflexivity.
    + unfold present_in in PI. destruct (find_block d b) as [k|]; [|reflexivity].
      destruct (find_par (b_pars k) n); [discriminate|reflexivity].
  - rewrite cmdline_arg_skip by auto. cbn [bind]. rewrite IH; eauto.
Qed.

(** ** Dump and read back *)

Definition par_item (b : block) (p : par) : item :=
  let pn := repeat chSP (b_maxn b - length (p_name p)) in
  let pv := repeat chSP (b_maxv b - length (p_value p)) in
  match p_comment p with
  | None => IPar [] (p_name p) (pn ++ [chSP]) [chSP] (p_value p) pv
  | Some c => IParC [] (p_name p) (pn ++ [chSP]) [chSP] (p_value p) (pv ++ [chSP]) [chSP] c []
  end.
Definition block_items (b : block) : list item :=
  IBlock [] [] (b_name b) [] [] :: map (par_item b) (b_pars b) ++ [IBlank []].

Lemma repeat_space : forall k, all_space (repeat chSP k).
Proof. induction k; constructor; auto. split; [reflexivity|discriminate]. Qed.
Lemma all_space_app : forall a b, all_space a -> all_space b -> all_space (a ++ b).
Proof. intros; apply Forall_app; auto. Qed.
Lemma all_space_sp : all_space [chSP].
Proof. repeat constructor; discriminate. Qed.

Lemma dump_par_item : forall b p, dump_par b p = print_item (par_item b p) ++ [LF].
Proof.
  intros b p. unfold dump_par, par_item, pad_right. change (S_ " = ") with [chSP; chEQ; chSP].
  change (S_ " # ") with [chSP; chHASH; chSP].
  destruct (p_comment p) as [c|]; cbn [print_item].
  - rewrite app_nil_r. lapp.
  - lapp.
Qed.
Lemma dump_block_items : forall b, dump_block b = file_of (block_items b).
Proof.
  intros b. unfold dump_block, block_items, file_of. cbn [flat_map].
  rewrite flat_map_app.
  assert (E : flat_map (fun i => print_item i ++ [LF]) (map (par_item b) (b_pars b)) =
              flat_map (dump_par b) (b_pars b)).
  { induction (b_pars b) as [|p ps IH]; [reflexivity|]. simpl. rewrite IH, dump_par_item. reflexivity. }
  rewrite E. cbn [flat_map print_item app]. lapp.
Qed.

Lemma dump2_items : forall s, par_dump2 s = file_of (flat_map block_items (blocks s)) ++ PAR_END ++ [LF].
Proof.
  intros s. unfold par_dump2. f_equal. unfold file_of.
  induction (blocks s) as [|b d IH]; [reflexivity|]. cbn [flat_map].
  rewrite flat_map_app, IH, dump_block_items. reflexivity.
Qed.

Lemma par_item_ok : forall b p, par_printable (pview p) -> item_ok (par_item b p).
Proof.
  intros b p [N E]. unfold par_item. simpl in *.
  destruct (p_comment p) as [c|]; simpl.
  - destruct E as (V & _ & C). repeat split; auto using repeat_space, all_space_app, all_space_sp;
      try (constructor; fail); try apply N; try apply V; try apply C.
  - repeat split; auto using repeat_space, all_space_app, all_space_sp;
      try (constructor; fail); try apply N.
Qed.
Lemma par_item_not_end : forall b p, par_printable (pview p) -> ~ is_end (par_item b p).
Proof.
  intros b p [(Fn & _ & _ & NL) _] (w & rest & E & W). simpl in *.
  assert (X : exists y, print_item (par_item b p) = p_name p ++ y).
  { unfold par_item. destruct (p_comment p); simpl; eexists; reflexivity. }
  destruct X as [y X]. rewrite X in E.
  destruct (field_first (p_name p) Fn) as (n0 & n1 & En & S0).
  rewrite En in E. destruct w as [|x w].
  - cbn in E. injection E as E _. apply (NL n1). rewrite En, E. reflexivity.
  - cbn in E. injection E as E _. inversion W as [|? ? [S1 _]]; subst. congruence.
Qed.

Lemma block_not_end : forall n, block_name_ok n -> n <> S_ "par_end" ->
  ~ is_end (IBlock [] [] n [] []).
Proof.
  intros n [Fn NG] NE (w & rest & E & W). cbn [print_item app] in E.
  destruct w as [|x w].
  - apply NE. cbn [app] in E.
    change (S_ "<par_end>" ++ rest) with (chLT :: S_ "par_end" ++ chGT :: rest) in E.
    injection E as E.
    assert (E3 : forall a b (x y : str), ~ In chGT a -> ~ In chGT b ->
               a ++ chGT :: x = b ++ chGT :: y -> a = b).
    { induction a as [|a0 a IHa]; intros b x y Na Nb Ex.
      - destruct b as [|b0 b]; [reflexivity|]. injection Ex as Ex _. exfalso; apply Nb; left; auto.
      - destruct b as [|b0 b].
        + injection Ex as Ex _. exfalso; apply Na; left; auto.
        + injection Ex as Ex1 Ex2. subst. f_equal. eapply IHa; eauto;
          intro; [apply Na|apply Nb]; right; auto. }
    apply (E3 n (S_ "par_end") [] rest NG); [apply notin_b; reflexivity|exact E].
  - cbn [app] in E. injection E as E _. inversion W as [|? ? [S1 _]]; subst. discriminate.
Qed.

(** Reading the items of one block into a database without that block. *)
Lemma with_block_last : forall d0 k f, ~ In (b_name k) (map b_name d0) ->
  with_block (d0 ++ [k]) (b_name k) f = d0 ++ [f k].
Proof.
  induction d0 as [|q d0 IH]; intros k f N; simpl.
  - rewrite str_eqb_refl. reflexivity.
  - simpl in N. destruct (str_eqb_spec (b_name q) (b_name k)); [tauto|]. rewrite IH; tauto.
Qed.
Lemma with_block_new : forall d0 n f, ~ In n (map b_name d0) ->
  with_block d0 n f = d0 ++ [f (Block n [] 0 0)].
Proof.
  induction d0 as [|q d0 IH]; intros n f N; simpl; [reflexivity|].
  simpl in N. destruct (str_eqb_spec (b_name q) n); [tauto|]. rewrite IH; tauto.
Qed.
Lemma add_par_list_new : forall ps n v c, ~ In n (map p_name ps) ->
  add_par_list ps n v c = ps ++ [Par n v c].
Proof.
  induction ps as [|q ps IH]; intros n v c N; simpl; [reflexivity|].
  simpl in N. destruct (str_eqb_spec (p_name q) n); [tauto|]. rewrite IH; tauto.
Qed.

Lemma par_item_apply : forall b p d k, par_printable (pview p) ->
  apply_item (d, Some k) (par_item b p) =
  (with_block d k (fun x => add_par x (p_name p) (p_value p) (p_comment p)), Some k).
Proof.
  intros b p d k [_ E]. unfold par_item. simpl in E.
  destruct (p_comment p) as [c|]; simpl; [|reflexivity].
  destruct E as (_ & NC & _). destruct c; [congruence|reflexivity].
Qed.

Lemma apply_pars : forall b ps d0 k, Forall (fun p => par_printable (pview p)) ps ->
  ~ In (b_name k) (map b_name d0) -> NoDup (map p_name (b_pars k) ++ map p_name ps) ->
  exists k', apply_items ((d0 ++ [k] : db), Some (b_name k)) (map (par_item b) ps) =
             ((d0 ++ [k'] : db), Some (b_name k)) /\
             bview k' = (b_name k, map pview (b_pars k) ++ map pview ps).
Proof.
  intros b. induction ps as [|p ps IH]; intros d0 k PP N ND; cbn [map apply_items].
  - exists k. rewrite app_nil_r. auto.
  - inversion PP; subst. rewrite par_item_apply by auto.
    rewrite with_block_last by auto.
    set (k1 := add_par k (p_name p) (p_value p) (p_comment p)).
    assert (PN : ~ In (p_name p) (map p_name (b_pars k))).
    { simpl in ND. apply NoDup_remove_2 in ND. rewrite in_app_iff in ND. tauto. }
    assert (EP : b_pars k1 = b_pars k ++ [p]).
    { unfold k1, add_par; simpl. rewrite add_par_list_new by auto. destruct p; reflexivity. }
    destruct (IH d0 k1) as (k' & A & B); auto.
    + rewrite EP, map_app. simpl. rewrite <- app_assoc. exact ND.
    + exists k'. split; [exact A|]. rewrite B, EP, map_app, <- app_assoc. reflexivity.
Qed.

Lemma apply_blocks : forall d d0 bp, db_printable (view_of d) -> uniq (d0 ++ d) ->
  exists d1 bp', apply_items ((d0 : db), bp) (flat_map block_items d) = ((d0 ++ d1 : db), bp') /\
             view_of d1 = view_of d /\ map b_name d1 = map b_name d.
Proof.
  induction d as [|b d IH]; intros d0 bp PR U; simpl.
  - exists [], bp. rewrite app_nil_r. auto.
  - assert (Nb : ~ In (b_name b) (map b_name d0)).
    { destruct U as [ND _]. rewrite map_app in ND. simpl in ND. apply NoDup_remove_2 in ND.
      rewrite in_app_iff in ND. tauto. }
    assert (PB : Forall (fun p => par_printable (pview p)) (b_pars b)).
    { destruct (PR (b_name b) (map pview (b_pars b))) as (_ & _ & F); [left; reflexivity|].
      rewrite Forall_map in F. exact F. }
    assert (NDp : NoDup (map p_name (b_pars b))).
    { destruct U as [_ NP]. rewrite Forall_forall in NP. apply NP.
      apply in_app_iff. right; left; reflexivity. }
    change (add_block d0 (b_name b)) with (with_block d0 (b_name b) (fun x => x)).
    rewrite with_block_new by auto.
    assert (AA : forall l1 l2 st, apply_items st (l1 ++ l2) = apply_items (apply_items st l1) l2).
    { induction l1; intros; simpl; auto. }
    rewrite AA, AA.
    destruct (apply_pars b (b_pars b) d0 (Block (b_name b) [] 0 0)) as (k' & A & B); auto.
    cbn [b_name] in A. rewrite A. cbn [apply_items apply_item].
    cbn [b_name b_pars map app] in B.
    assert (NK : b_name k' = b_name b) by (inversion B; reflexivity).
    destruct (IH (d0 ++ [k']) (Some (b_name b))) as (d1 & bp' & C & D & E).
    + intros x ps H. apply PR. right; exact H.
    + destruct U as [ND NP]. split.
      * rewrite <- app_assoc. rewrite !map_app in *. simpl in *. rewrite NK. exact ND.
      * rewrite <- app_assoc. apply Forall_app in NP. destruct NP as [NP1 NP2].
        inversion NP2; subst. apply Forall_app. split; auto. constructor; auto.
        assert (EQ : map p_name (b_pars k') = map p_name (b_pars b)).
        { assert (B2 := f_equal snd B). unfold bview in B2. cbn [snd] in B2.
          apply (f_equal (map fst)) in B2. rewrite !map_map in B2. exact B2. }
        rewrite EQ; auto.
    + exists (k' :: d1), bp'. rewrite C. rewrite <- app_assoc. split; [reflexivity|].
      split; [|simpl; congruence].
      rewrite !view_of_map in *. simpl. f_equal; auto.
Qed.

Lemma is_line_split : forall is i rest, In i is -> item_ok i ->
  is_line (file_of is ++ rest) (print_item i).
Proof.
  intros is i rest HI OK. apply in_split in HI. destruct HI as (l1 & l2 & ->).
  exists (file_of l1), (file_of l2 ++ rest). split; [|split].
  - unfold file_of. rewrite flat_map_app. cbn [flat_map]. lapp.
  - apply print_item_noLF; auto.
  - destruct l1 as [|j l1] using rev_ind; [left; reflexivity|right].
    exists (file_of l1 ++ print_item j). unfold file_of. rewrite flat_map_app. cbn [flat_map].
    rewrite app_nil_r. lapp.
Qed.

Lemma dump_reopen : forall s fname rest, uniq (blocks s) -> db_printable (view_of (blocks s)) ->
  (forall l, is_line (par_dump2 s) l -> length l + 2 <= MAXLEN) ->
  exists s', par_open init_state fname (Some (par_dump2 s ++ rest)) = Ok s' /\
    now_open s' = true /\ view_of (blocks s') = view_of (blocks s).
Proof.
  intros s fname rest U PR LN.
  set (is := flat_map block_items (blocks s)).
  assert (OK : Forall item_ok is /\ Forall (fun i => ~ is_end i) is).
  { unfold is. clear LN. revert PR. generalize (blocks s) as d. clear.
    induction d as [|b d IH]; intros PR; simpl; [split; constructor|].
    destruct (PR (b_name b) (map pview (b_pars b))) as (BN & NE & F); [left; reflexivity|].
    rewrite Forall_map in F.
    assert (NEnd : ~ is_end (IBlank [])).
    { intros (w & r & E & _). destruct w; discriminate. }
    destruct IH as [I1 I2]. { intros x ps H. apply PR. right; exact H. }
    split; constructor; auto.
    - simpl. split; [constructor|]. split; [constructor|]. split; [constructor|].
      split; [exact BN|]. split; intros [].
    - apply Forall_app. split; [|exact I1]. apply Forall_app. split; [|repeat constructor].
      rewrite Forall_map. eapply Forall_impl; [|exact F]. intros; apply par_item_ok; auto.
    - apply block_not_end; auto.
    - apply Forall_app. split; [|exact I2]. apply Forall_app. split; [|repeat constructor; auto].
      rewrite Forall_map. eapply Forall_impl; [|exact F]. intros; apply par_item_not_end; auto. }
  destruct OK as [OK NE].
  assert (FT : Forall fits is).
  { rewrite Forall_forall. intros i Hi. unfold fits. apply LN.
    rewrite dump2_items. apply is_line_split; auto. rewrite Forall_forall in OK. auto. }
  assert (PL : placed false is).
  { assert (T : forall l, placed true l).
    { induction l as [|i l IH]; simpl; [auto|]. split; [auto|]. destruct i; auto. }
    unfold is. destruct (blocks s) as [|b d]; simpl; [auto|]. split; [discriminate|apply T]. }
  unfold par_open. cbn [now_open init_state blocks].
  fold (load [] None (par_dump2 s ++ rest)).
  rewrite dump2_items. fold is. rewrite <- !app_assoc.
  rewrite load_items by auto.
  destruct (apply_blocks (blocks s) [] None PR U) as (d1 & bp' & A & V & _).
  fold is in A. rewrite A. cbn [app].
  assert (LE : load d1 bp' (PAR_END ++ LF :: rest) = Ok d1)
    by (apply (load_end d1 bp' [] (LF :: rest)); [constructor|unfold MAXLEN; simpl; lia]).
  rewrite LE.
  cbn [bind]. eexists; split; [reflexivity|]. split; auto.
Qed.

(** ** Distribution *)

Lemma dist_par_line_eq : forall p,
  dist_par_line p = match p_comment p with
                    | None => p_name p ++ [chSP] ++ chEQ :: [chSP] ++ p_value p
                    | Some c => p_name p ++ [chSP] ++ chEQ :: [chSP] ++ p_value p ++ [chSP] ++ chHASH :: [chSP] ++ c
                    end.
Proof.
  intros p. unfold dist_par_line. change (S_ " = ") with [chSP; chEQ; chSP].
  change (S_ " # ") with [chSP; chHASH; chSP].
  destruct (p_comment p); [|rewrite app_nil_r]; lapp.
Qed.

Lemma sp_spaces : spaces [chSP]. Proof. repeat constructor. Qed.
Lemma nil_spaces : spaces []. Proof. constructor. Qed.

Lemma dist_line_parse : forall p, par_printable (pview p) ->
  parse_par_line (dist_par_line p ++ [NUL]) 0 = Ok (p_name p, p_value p, p_comment p).
Proof.
  intros p [(Fn & N1 & N2 & N3) E]. simpl in *. rewrite dist_par_line_eq.
  destruct (p_comment p) as [c|].
  - destruct E as ([Fv Nv] & NC & [PC TC]).
    assert (H := parse_par_comment [] (p_name p) [chSP] [chSP] (p_value p) [chSP] [chSP] c []
      Fn N1 N2 sp_spaces sp_spaces sp_spaces Fv Nv sp_spaces nil_spaces).
    assert (Fc : field c) by (split; auto).
    specialize (H (or_intror Fc)). cbn [app length] in H.
    replace ((p_name p ++ [chSP] ++ chEQ :: [chSP] ++ p_value p ++ [chSP] ++ chHASH :: [chSP] ++ c) ++ [NUL])
      with (p_name p ++ chSP :: chEQ :: chSP :: p_value p ++ chSP :: chHASH :: chSP :: c ++ [NUL]) by lapp.
    rewrite H. destruct c; [congruence|reflexivity].
  - destruct E as [Ev|[Fv Nv]].
    + rewrite Ev.
      assert (H := parse_par_empty [] (p_name p) [chSP] [chSP] Fn N1 N2 sp_spaces sp_spaces).
      cbn [app length] in H.
      replace ((p_name p ++ [chSP] ++ chEQ :: [chSP] ++ []) ++ [NUL])
        with (p_name p ++ chSP :: chEQ :: [chSP] ++ [NUL]) by lapp. exact H.
    + assert (H := parse_par_value [] (p_name p) [chSP] [chSP] (p_value p) []
        Fn N1 N2 sp_spaces sp_spaces nil_spaces Fv Nv). cbn [app length] in H.
      replace ((p_name p ++ [chSP] ++ chEQ :: [chSP] ++ p_value p) ++ [NUL])
        with (p_name p ++ chSP :: chEQ :: chSP :: p_value p ++ [NUL]) by lapp. exact H.
Qed.

Lemma dist_line_first : forall p, par_printable (pview p) ->
  exists c, rd (dist_par_line p ++ [NUL]) 0 = Ok c /\ c <> chLT.
Proof.
  intros p [(Fn & N1 & N2 & N3) E]. simpl in *.
  destruct (field_first _ Fn) as (n0 & n1 & En & S0). exists n0.
  rewrite dist_par_line_eq. split.
  - destruct (p_comment p); rewrite En; reflexivity.
  - intros ->. apply (N3 n1). exact En.
Qed.

Lemma dist_pars_send : forall ps, Forall (fun p => length (dist_par_line p) < MAXLEN) ps ->
  dist_pars ps = Ok (map dist_par_line ps).
Proof.
  induction 1 as [|p ps L _ IH]; simpl; [reflexivity|].
  unfold sprintf_line. rewrite (proj2 (Nat.ltb_lt _ _) L). cbn [bind]. rewrite IH. reflexivity.
Qed.

Lemma recv_pars : forall ps d0 k rest, Forall (fun p => par_printable (pview p)) ps ->
  ~ In (b_name k) (map b_name d0) -> NoDup (map p_name (b_pars k) ++ map p_name ps) ->
  exists k', dist_recv_loop (d0 ++ [k]) (Some (b_name k)) (map dist_par_line ps ++ rest) =
             dist_recv_loop (d0 ++ [k']) (Some (b_name k)) rest /\
             bview k' = (b_name k, map pview (b_pars k) ++ map pview ps).
Proof.
  induction ps as [|p ps IH]; intros d0 k rest PP N ND; simpl.
  - exists k. rewrite app_nil_r. auto.
  - inversion PP; subst.
    destruct (dist_line_first p) as (c & R & NC); auto.
    rewrite R; cbn [bind]. rewrite (proj2 (Ascii.eqb_neq c chLT)) by assumption.
    rewrite dist_line_parse by auto. cbn [bind].
    rewrite with_block_last by auto.
    set (k1 := add_par k (p_name p) (p_value p) (p_comment p)).
    assert (PN : ~ In (p_name p) (map p_name (b_pars k))).
    { simpl in ND. apply NoDup_remove_2 in ND. rewrite in_app_iff in ND. tauto. }
    assert (EP : b_pars k1 = b_pars k ++ [p]).
    { unfold k1, add_par; simpl. rewrite add_par_list_new by auto. destruct p; reflexivity. }
    destruct (IH d0 k1 rest) as (k' & A & B); auto.
    + rewrite EP, map_app. simpl. rewrite <- app_assoc. exact ND.
    + exists k'. split; [exact A|]. rewrite B, EP, map_app, <- app_assoc. reflexivity.
Qed.

Definition dist_msgs (d : db) : list str :=
  flat_map (fun b => (chLT :: b_name b ++ [chGT]) :: map dist_par_line (b_pars b)) d.

(** Every line rebuilt for sending fits line[MAXLEN]. *)
Definition dist_fits (d : db) : Prop :=
  Forall (fun b => length (b_name b) + 2 < MAXLEN /\
                   Forall (fun p => length (dist_par_line p) < MAXLEN) (b_pars b)) d.

Lemma dist_blocks_send : forall d, dist_fits d -> dist_blocks d = Ok (dist_msgs d).
Proof.
  induction 1 as [|b d [L1 L2] _ IH]; simpl; [reflexivity|].
  unfold sprintf_line. cbn [length]. rewrite app_length. cbn [length].
  assert (LL : S (length (b_name b) + 1) < MAXLEN) by lia.
  rewrite (proj2 (Nat.ltb_lt _ _) LL). cbn [bind].
  rewrite dist_pars_send by auto. cbn [bind]. rewrite IH. reflexivity.
Qed.

Lemma recv_blocks : forall d d0 bp, db_printable (view_of d) -> uniq (d0 ++ d) ->
  exists d1, dist_recv_loop d0 bp (dist_msgs d) = Ok (d0 ++ d1) /\
             view_of d1 = view_of d /\ map b_name d1 = map b_name d.
Proof.
  induction d as [|b d IH]; intros d0 bp PR U; cbn [dist_msgs flat_map app dist_recv_loop].
  - exists []. rewrite app_nil_r. auto.
  - assert (Nb : ~ In (b_name b) (map b_name d0)).
    { destruct U as [ND _]. rewrite map_app in ND. simpl in ND. apply NoDup_remove_2 in ND.
      rewrite in_app_iff in ND. tauto. }
    destruct (PR (b_name b) (map pview (b_pars b))) as ([BN BG] & _ & F); [left; reflexivity|].
    assert (PB : Forall (fun p => par_printable (pview p)) (b_pars b))
      by (rewrite Forall_map in F; exact F).
    assert (NDp : NoDup (map p_name (b_pars b))).
    { destruct U as [_ NP]. rewrite Forall_forall in NP. apply NP.
      apply in_app_iff. right; left; reflexivity. }
    cbn [rd]. change (rd (chLT :: (b_name b ++ [chGT]) ++ [NUL]) 0) with (Ok chLT).
    cbn [bind]. rewrite Ascii.eqb_refl.
    destruct (line_block_name_app [] [] (b_name b) [] [NUL] nil_spaces nil_spaces BN BG)
      as (buf' & L1 & L2).
    cbn [app length Nat.add] in L1, L2.
    replace (chLT :: (b_name b ++ [chGT]) ++ [NUL]) with (chLT :: b_name b ++ [chGT; NUL]) by lapp.
    rewrite L1; cbn [bind]. rewrite L2; cbn [bind].
    unfold add_block. rewrite with_block_new by auto.
    destruct (recv_pars (b_pars b) d0 (Block (b_name b) [] 0 0) (dist_msgs d)) as (k' & A & B); auto.
    cbn [b_name] in A.
    cbn [b_name b_pars map app] in B.
    assert (NK : b_name k' = b_name b) by (inversion B; reflexivity).
    destruct (IH (d0 ++ [k']) (Some (b_name b))) as (d1 & C & D & E).
    + intros x ps H. apply PR. right; exact H.
    + destruct U as [ND NP]. split.
      * rewrite <- app_assoc. rewrite !map_app in *. simpl in *. rewrite NK. exact ND.
      * rewrite <- app_assoc. apply Forall_app in NP. destruct NP as [NP1 NP2].
        inversion NP2; subst. apply Forall_app. split; auto. constructor; auto.
        assert (EQ : map p_name (b_pars k') = map p_name (b_pars b)).
        { assert (B2 := f_equal snd B). unfold bview in B2. cbn [snd] in B2.
          apply (f_equal (map fst)) in B2. rewrite !map_map in B2. exact B2. }
        rewrite EQ; auto.
    + exists (k' :: d1). split.
      { etransitivity; [exact A|]. rewrite C. rewrite <- app_assoc. reflexivity. }
      split; [|simpl; congruence].
      rewrite !view_of_map in *. simpl. f_equal; auto.
Qed.

Lemma dist_all : forall root n, uniq (blocks root) -> now_open root = true ->
  db_printable (view_of (blocks root)) -> dist_fits (blocks root) ->
  length (now_file root) < MAXLEN ->
  exists children, par_dist_mpi root (repeat init_state n) = Ok (root :: children) /\
    length children = n /\
    Forall (fun c => now_open c = true /\ now_file c = now_file root /\
                     view_of (blocks c) = view_of (blocks root)) children.
Proof.
  intros root n U O PR FT LF. unfold par_dist_mpi, dist_send. rewrite O. cbn [negb].
  rewrite dist_blocks_send by auto. cbn [bind].
  destruct (recv_blocks (blocks root) [] None PR U) as (d1 & R & V & _). cbn [app] in R.
  assert (RA : forall m, recv_all (repeat init_state m) (now_file root, dist_msgs (blocks root)) =
     Ok (repeat (PState true (now_file root) d1) m)).
  { induction m as [|m IH]; [reflexivity|]. cbn [repeat recv_all]. unfold dist_recv.
    cbn [now_open init_state blocks fst snd]. rewrite (proj2 (Nat.ltb_lt _ _) LF). cbn [negb].
    change (blocks init_state) with (@nil block) in *. rewrite R. cbn [bind]. rewrite IH. reflexivity. }
  rewrite RA. cbn [bind]. eexists. split; [reflexivity|]. split; [apply repeat_length|].
  apply Forall_forall. intros c Hc. apply repeat_spec in Hc. subst. auto.
Qed.
