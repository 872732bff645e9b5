(** * C17, C18, C19: the output schedule *)
From Coq Require Import Reals Lra Lia List Bool Arith.
From Verif Require Import CStr OutModel.
Import ListNotations.
Open Scope R_scope.

(** ** Specification *)
(** The dumps (number, time) of block [n] among the events of a call. *)
Definition dumps_of (n : nat) (es : list oev) : list (nat * R) :=
  flat_map (fun e => match e with Dump m num t => if (m =? n)%nat then [(num, t)] else [] | Restart _ _ _ => [] end) es.
(** The restart dumps (number, time) among the events of a call. *)
Definition restarts_of (es : list oev) : list (nat * R) :=
  flat_map (fun e => match e with Restart num t _ => [(num, t)] | _ => [] end) es.
(** How many of the instants t0, t0+dt, t0+2dt, ... have been served by calls at
    [times], when each call serves at most the next one. *)
Fixpoint served (t0 dt : R) (c : nat) (times : list R) : nat :=
  match times with
  | [] => c
  | t :: ts => served t0 dt (if Rle_dec (t0 + INR c * dt) t then S c else c) ts
  end.
(** Consecutive calls are no further apart than [dt], and time does not go back. *)
Fixpoint spaced (dt prev : R) (times : list R) : Prop :=
  match times with [] => True | t :: ts => prev <= t /\ t <= prev + dt /\ spaced dt t ts end.

Definition distinct_blocks (s : outs) : Prop :=
  NoDup (map o_n (arr s) ++ match rst s with Some o => [o_n o] | None => [] end).

(** ** The effect of one call on one block *)
Definition mk (flag : bool) (time : R) (o : outb) : outb * bool :=
  if due time o then (advance o, true) else (o, flag).
Definition fin (x : outb * bool) : outb := if snd x then bump (fst x) else fst x.
Definition step1 (flag : bool) (time : R) (o : outb) : outb := fin (mk flag time o).

Lemma mark_spec : forall flag time l i m, mark flag time i l = Ok m ->
  m = map (mk flag time) l /\ (length l = 0 \/ i + length l <= 11)%nat.
Proof.
  induction l as [|o l IH]; intros i m H; simpl in H.
  - injection H as <-. auto.
  - unfold flag_ok in H. destruct (i <? MAXOUT_DEFAULT + 1)%nat eqn:E; [|discriminate].
    destruct (mark flag time (S i) l) as [r| |] eqn:M; try discriminate. simpl in H. injection H as <-.
    apply IH in M. destruct M as [-> B]. split; [reflexivity|].
    apply Nat.ltb_lt in E. unfold MAXOUT_DEFAULT in E. simpl. simpl in B. lia.
Qed.
Lemma mark_ok : forall flag time l i, (i + length l <= 11)%nat -> mark flag time i l = Ok (map (mk flag time) l).
Proof.
  induction l as [|o l IH]; intros i H; simpl in *; [reflexivity|].
  unfold flag_ok, MAXOUT_DEFAULT. replace (i <? 10 + 1)%nat with true by (symmetry; apply Nat.ltb_lt; lia).
  rewrite IH by lia. reflexivity.
Qed.
Lemma dumps_arr : forall time m, fst (dumps time m) = map fin m.
Proof.
  induction m as [|[o f] m IH]; simpl; [reflexivity|]. destruct (dumps time m) as [l e]. simpl in IH. subst l.
  destruct f; reflexivity.
Qed.
Definition dump_ev (time : R) (x : outb * bool) : list oev :=
  if snd x then [Dump (o_n (fst x)) (o_num (fst x)) time] else [].
Lemma dumps_ev : forall time m, snd (dumps time m) = flat_map (dump_ev time) m.
Proof.
  induction m as [|[o f] m IH]; simpl; [reflexivity|]. destruct (dumps time m) as [l e]. simpl in IH. subst e.
  destruct f; reflexivity.
Qed.

Lemma data_output_spec : forall flag time s s' e, data_output flag time s = Ok (s', e) ->
  arr s' = map (step1 flag time) (arr s) /\
  exists e1, restart_part flag time (map (mk flag time) (arr s)) (rst s) = Ok (rst s', e1) /\
    e = e1 ++ flat_map (dump_ev time) (map (mk flag time) (arr s)).
Proof.
  intros flag time s s' e H. unfold data_output in H.
  destruct (mark flag time 0 (arr s)) as [m| |] eqn:M; try discriminate. simpl in H.
  apply mark_spec in M. destruct M as [-> _].
  destruct (restart_part flag time (map (mk flag time) (arr s)) (rst s)) as [[r e1]| |] eqn:P; try discriminate.
  simpl in H. assert (A := dumps_arr time (map (mk flag time) (arr s))). assert (B := dumps_ev time (map (mk flag time) (arr s))).
  destruct (dumps time (map (mk flag time) (arr s))) as [l e2]. simpl in *. subst. injection H as <- <-. simpl.
  split; [rewrite map_map; reflexivity|]. eauto.
Qed.

Lemma mk_n : forall f t o, o_n (fst (mk f t o)) = o_n o.
Proof. intros. unfold mk. destruct (due t o); reflexivity. Qed.
Lemma mk_num : forall f t o, o_num (fst (mk f t o)) = o_num o.
Proof. intros. unfold mk. destruct (due t o); reflexivity. Qed.
Lemma mk_dt : forall f t o, o_dt (fst (mk f t o)) = o_dt o.
Proof. intros. unfold mk. destruct (due t o); reflexivity. Qed.
Lemma step1_n : forall f t o, o_n (step1 f t o) = o_n o.
Proof. intros. unfold step1, fin. destruct (snd (mk f t o)); simpl; apply mk_n. Qed.
Lemma step1_dt : forall f t o, o_dt (step1 f t o) = o_dt o.
Proof. intros. unfold step1, fin. destruct (snd (mk f t o)); simpl; apply mk_dt. Qed.

Lemma dumps_of_app : forall n a b, dumps_of n (a ++ b) = dumps_of n a ++ dumps_of n b.
Proof. intros. apply flat_map_app. Qed.
Lemma dumps_of_restart : forall flag time m r r' e n, restart_part flag time m r = Ok (r', e) -> dumps_of n e = [].
Proof.
  intros. unfold restart_part in H. destruct r as [o|]; [|injection H as <- <-; reflexivity].
  destruct (flag_ok (length m)); [|discriminate].
  destruct (if due time o then (advance o, true) else (o, flag)) as [o' f]. destruct f; injection H as <- <-; reflexivity.
Qed.
Lemma restarts_of_dumps : forall time m, restarts_of (flat_map (dump_ev time) m) = [].
Proof.
  induction m as [|x m IH]; simpl; [reflexivity|]. unfold restarts_of in *. rewrite flat_map_app, IH, app_nil_r.
  unfold dump_ev. destruct (snd x); reflexivity.
Qed.
Lemma dumps_of_other : forall n time l flag, ~ In n (map o_n l) ->
  dumps_of n (flat_map (dump_ev time) (map (mk flag time) l)) = [].
Proof.
  induction l as [|o l IH]; intros flag H; simpl; [reflexivity|]. rewrite dumps_of_app, IH by (simpl in H; tauto).
  rewrite app_nil_r. unfold dump_ev. destruct (snd (mk flag time o)); [|reflexivity].
  simpl. rewrite mk_n. destruct (Nat.eqb_spec (o_n o) n); [|reflexivity]. exfalso. apply H. left. auto.
Qed.
Lemma dumps_of_in : forall o time l flag, NoDup (map o_n l) -> In o l ->
  dumps_of (o_n o) (flat_map (dump_ev time) (map (mk flag time) l)) =
  if snd (mk flag time o) then [(o_num o, time)] else [].
Proof.
  induction l as [|x l IH]; intros flag ND I; [contradiction|]. cbn [map flat_map] in *. rewrite dumps_of_app.
  inversion ND; subst. destruct I as [->|I].
  - rewrite dumps_of_other by auto. rewrite app_nil_r. unfold dump_ev.
    destruct (snd (mk flag time o)); [|reflexivity]. simpl. rewrite mk_n, mk_num, Nat.eqb_refl. reflexivity.
  - rewrite IH by auto.
    assert (NE : o_n x <> o_n o) by (intros E; apply H1; rewrite E; apply in_map; auto).
    unfold dump_ev. destruct (snd (mk flag time x)); [|reflexivity].
    simpl. rewrite mk_n. destruct (Nat.eqb_spec (o_n x) (o_n o)); [contradiction|reflexivity].
Qed.

Lemma restart_part_same : forall flag time m r r' e, restart_part flag time m r = Ok (r', e) ->
  match r with
  | None => r' = None /\ e = []
  | Some o => r' = Some (step1 flag time o) /\
      restarts_of e = if snd (mk flag time o) then [(o_num o, time)] else []
  end.
Proof.
  intros flag time m r r' e H. unfold restart_part in H. destruct r as [o|]; [|injection H as <- <-; auto].
  destruct (flag_ok (length m)); [|discriminate]. unfold step1, fin, mk.
  destruct (due time o); simpl in *.
  - injection H as <- <-. auto.
  - destruct flag; injection H as <- <-; auto.
Qed.
Lemma distinct_step : forall flag time s s' e, data_output flag time s = Ok (s', e) ->
  distinct_blocks s -> distinct_blocks s'.
Proof.
  intros flag time s s' e H D. apply data_output_spec in H. destruct H as (A & e1 & B & C).
  apply restart_part_same in B. unfold distinct_blocks in *. rewrite A, map_map.
  rewrite (map_ext _ o_n) by (intros; apply step1_n).
  destruct (rst s) as [o|]; destruct B as [-> _]; auto. rewrite step1_n. auto.
Qed.
Lemma nodup_app_l : forall A (a b : list A), NoDup (a ++ b) -> NoDup a.
Proof. induction a; intros b H; simpl in *; [constructor|]. inversion H; subst. constructor; [|eauto]. intros X. apply H2. apply in_or_app. auto. Qed.

(** The expected history of one block. *)
Fixpoint history (o : outb) (calls : list (R * bool)) : list (list (nat * R)) :=
  match calls with
  | [] => []
  | (t, f) :: cs => (if snd (mk f t o) then [(o_num o, t)] else []) :: history (step1 f t o) cs
  end.
Fixpoint after (o : outb) (calls : list (R * bool)) : outb :=
  match calls with [] => o | (t, f) :: cs => after (step1 f t o) cs end.

Lemma data_outputs_block : forall calls s s' ess o, data_outputs calls s = Ok (s', ess) ->
  distinct_blocks s -> In o (arr s) ->
  map (dumps_of (o_n o)) ess = history o calls /\ In (after o calls) (arr s').
Proof.
  induction calls as [|[t f] cs IH]; intros s s' ess o H D I.
  - simpl in H. injection H as <- <-. auto.
  - cbn [data_outputs] in H. destruct (data_output f t s) as [[s1 e]| |] eqn:E; try discriminate. cbn [bind] in H.
    destruct (data_outputs cs s1) as [[s2 es]| |] eqn:E2; try discriminate. cbn [bind] in H. injection H as <- <-.
    assert (D1 := distinct_step _ _ _ _ _ E D).
    apply data_output_spec in E. destruct E as (A & e1 & B & ->).
    assert (I1 : In (step1 f t o) (arr s1)) by (rewrite A; apply in_map; auto).
    destruct (IH _ _ _ _ E2 D1 I1) as [H1 H2]. rewrite step1_n in H1. cbn [map history after]. split; auto. f_equal; auto.
    rewrite dumps_of_app, (dumps_of_restart _ _ _ _ _ _ _ B). simpl. apply dumps_of_in; auto.
    eapply nodup_app_l; eauto.
Qed.
Lemma data_outputs_rst : forall calls s s' ess o, data_outputs calls s = Ok (s', ess) ->
  rst s = Some o -> map restarts_of ess = history o calls /\ rst s' = Some (after o calls).
Proof.
  induction calls as [|[t f] cs IH]; intros s s' ess o H I.
  - simpl in H. injection H as <- <-. auto.
  - cbn [data_outputs] in H. destruct (data_output f t s) as [[s1 e]| |] eqn:E; try discriminate. cbn [bind] in H.
    destruct (data_outputs cs s1) as [[s2 es]| |] eqn:E2; try discriminate. cbn [bind] in H. injection H as <- <-.
    apply data_output_spec in E. destruct E as (A & e1 & B & ->).
    apply restart_part_same in B. rewrite I in B. destruct B as [B1 B2].
    destruct (IH _ _ _ _ E2 B1) as [H1 H2]. cbn [map history after]. split; auto. f_equal; auto.
    unfold restarts_of in *. rewrite flat_map_app. fold (restarts_of (flat_map (dump_ev t) (map (mk f t) (arr s)))).
    rewrite restarts_of_dumps, app_nil_r. exact B2.
Qed.

Lemma mk_cases : forall f t o,
  (o_t o <= t /\ step1 f t o = bump (advance o) /\ snd (mk f t o) = true) \/
  (t < o_t o /\ step1 f t o = (if f then bump o else o) /\ snd (mk f t o) = f).
Proof.
  intros. unfold step1, fin, mk, due. destruct (Rle_dec (o_t o) t); [left|right]; simpl; auto.
  repeat split; auto. lra.
Qed.

(** Dump numbers *)
Lemma history_nums : forall calls o,
  map fst (concat (history o calls)) = seq (o_num o) (length (concat (history o calls))).
Proof.
  induction calls as [|[t f] cs IH]; intros o; simpl; [reflexivity|].
  destruct (mk_cases f t o) as [(L & E & S)|(L & E & S)]; rewrite E, S.
  - simpl. rewrite IH. reflexivity.
  - destruct f; simpl; rewrite IH; reflexivity.
Qed.

(** C17 (numbers): over any history of calls, the dumps of a block carry the numbers
    num0, num0+1, ... without gap or repetition, and likewise the restart dumps. *)
Theorem C17_numbers_consecutive : forall calls s s' ess o,
  data_outputs calls s = Ok (s', ess) -> distinct_blocks s ->
  (In o (arr s) ->
     map fst (concat (map (dumps_of (o_n o)) ess)) =
     seq (o_num o) (length (concat (map (dumps_of (o_n o)) ess)))) /\
  (rst s = Some o ->
     map fst (concat (map restarts_of ess)) = seq (o_num o) (length (concat (map restarts_of ess)))).
Proof.
  intros. split; intros I.
  - destruct (data_outputs_block _ _ _ _ _ H H0 I) as [-> _]. apply history_nums.
  - destruct (data_outputs_rst _ _ _ _ _ H I) as [-> _]. apply history_nums.
Qed.
Print Assumptions C17_numbers_consecutive.

(** [served] with the block's own next time *)
Lemma served_shift : forall times t0 dt c, served t0 dt c times = (c + served (t0 + INR c * dt) dt 0 times)%nat.
Proof.
  induction times as [|t ts IH]; intros t0 dt c; simpl; [lia|].
  replace (t0 + INR c * dt + 0 * dt) with (t0 + INR c * dt) by lra.
  destruct (Rle_dec (t0 + INR c * dt) t) as [L|L].
  - rewrite (IH t0 dt (S c)), (IH (t0 + INR c * dt) dt 1%nat). rewrite S_INR. simpl INR.
    replace (t0 + INR c * dt + 1 * dt) with (t0 + (INR c + 1) * dt) by lra. lia.
  - apply IH.
Qed.
Lemma after_t : forall calls o,
  o_t (after o calls) = o_t o + INR (served (o_t o) (o_dt o) 0 (map fst calls)) * o_dt o /\
  o_dt (after o calls) = o_dt o /\
  o_num (after o calls) = (o_num o + length (concat (history o calls)))%nat.
Proof.
  induction calls as [|[t f] cs IH]; intros o.
  - simpl. repeat split; [lra|lia].
  - cbn [after history map fst]. destruct (IH (step1 f t o)) as (A & B & C). rewrite A, B, C, step1_dt.
    cbn [served concat]. change (INR 0) with 0. replace (o_t o + 0 * o_dt o) with (o_t o) by lra.
    rewrite app_length.
    destruct (mk_cases f t o) as [(L & E & S)|(L & E & S)]; rewrite E, S; destruct (Rle_dec (o_t o) t); try lra.
    + cbn [bump advance o_t o_num o_dt length]. rewrite (served_shift _ (o_t o) _ 1). rewrite plus_INR. change (INR 1) with 1.
      replace (o_t o + 1 * o_dt o) with (o_t o + o_dt o) by lra.
      repeat split; [lra|lia].
    + destruct f; cbn [bump advance o_t o_num o_dt length]; repeat split; lia.
Qed.

(** C17 (when): a call at time [t] writes block [o] exactly when it is forced or [t]
    has reached the block's next output time, which is t0 + c*dt with c the number
    of output times already served; it writes it once, with the next number. *)
Theorem C17_written_exactly_when_due : forall pre t f s s' ess o,
  data_outputs (pre ++ [(t, f)]) s = Ok (s', ess) -> distinct_blocks s -> In o (arr s) ->
  let c := served (o_t o) (o_dt o) 0 (map fst pre) in
  let num := (o_num o + length (concat (map (dumps_of (o_n o)) (removelast ess))))%nat in
  (f = true \/ o_t o + INR c * o_dt o <= t -> dumps_of (o_n o) (last ess []) = [(num, t)]) /\
  (f = false -> t < o_t o + INR c * o_dt o -> dumps_of (o_n o) (last ess []) = []).
Proof.
  intros pre t f s s' ess o H D I c num.
  assert (HA : forall a b (o : outb), history o (a ++ b) = history o a ++ history (after o a) b).
  { induction a as [|[x y] a IH]; intros; simpl; [reflexivity|]. rewrite IH. reflexivity. }
  destruct (data_outputs_block _ _ _ _ _ H D I) as [E _]. rewrite HA in E. cbn [history] in E.
  assert (L : ess = removelast ess ++ [last ess []]).
  { apply app_removelast_last. intros ->. simpl in E. symmetry in E. apply app_eq_nil in E. destruct E. discriminate. }
  rewrite L, map_app in E. cbn [map] in E. apply app_inj_tail in E. destruct E as [E1 E2].
  assert (N : num = o_num (after o pre)).
  { unfold num. rewrite E1. destruct (after_t pre o) as (_ & _ & ->). reflexivity. }
  destruct (after_t pre o) as (T & _ & _). fold c in T. rewrite N.
  destruct (mk_cases f t (after o pre)) as [(X & _ & S)|(X & _ & S)]; rewrite S in E2; split; intros.
  - rewrite E2. destruct H0; auto.
  - lra.
  - rewrite E2. destruct f; auto. destruct H0; [discriminate|lra].
  - subst f. auto.
Qed.
Print Assumptions C17_written_exactly_when_due.

(** C17 (none skipped, none early): when the calls are never further apart than the
    output interval, after a call at time [t] exactly the output times up to [t] have
    been served. *)
Lemma last_cons : forall (l : list R) t p, last (t :: l) p = last l t.
Proof.
  induction l as [|a l IH]; intros t p; [reflexivity|]. change (last (t :: a :: l) p) with (last (a :: l) p).
  transitivity (last l a); [apply IH|symmetry; apply IH].
Qed.
Lemma served_exact : forall dt t0, 0 < dt -> forall times prev c,
  (forall i, (i < c)%nat <-> t0 + INR i * dt <= prev) -> spaced dt prev times ->
  forall i, (i < served t0 dt c times)%nat <-> t0 + INR i * dt <= last times prev.
Proof.
  intros dt t0 P. induction times as [|t ts IH]; intros prev c Hc Sp i; [simpl; auto|].
  destruct Sp as (S1 & S2 & S3). cbn [served].
  rewrite last_cons. apply IH; auto. clear i. intros i.
  assert (U : prev < t0 + INR c * dt).
  { destruct (Rlt_le_dec prev (t0 + INR c * dt)); auto. exfalso. assert (c < c)%nat by (apply Hc; auto). lia. }
  destruct (Rle_dec (t0 + INR c * dt) t) as [L|L].
  - split; intros X.
    + apply Rle_trans with (t0 + INR c * dt); auto. assert (INR i <= INR c) by (apply le_INR; lia). nra.
    + destruct (lt_dec i (S c)); auto. exfalso. assert (INR (S c) <= INR i) by (apply le_INR; lia).
      rewrite S_INR in H. nra.
  - split; intros X.
    + apply Rle_trans with prev; auto. apply Hc. auto.
    + destruct (lt_dec i c); auto. exfalso. assert (INR c <= INR i) by (apply le_INR; lia). nra.
Qed.
Theorem C17_none_skipped : forall calls t1 f1 s s' ess o,
  data_outputs ((t1, f1) :: calls) s = Ok (s', ess) -> distinct_blocks s -> In o (arr s) ->
  0 < o_dt o -> t1 < o_t o + o_dt o -> spaced (o_dt o) t1 (map fst calls) ->
  let t := last (map fst calls) t1 in
  (* output time number i has been served iff it has been reached *)
  (forall i, (i < served (o_t o) (o_dt o) 0 (t1 :: map fst calls))%nat <-> o_t o + INR i * o_dt o <= t) /\
  (* and without forced calls there is exactly one dump for each *)
  (Forall (fun c => snd c = false) ((t1, f1) :: calls) ->
     length (concat (map (dumps_of (o_n o)) ess)) = served (o_t o) (o_dt o) 0 (t1 :: map fst calls)).
Proof.
  intros calls t1 f1 s s' ess o H D I P T Sp t. split.
  - cbn [served]. change (INR 0) with 0. replace (o_t o + 0 * o_dt o) with (o_t o) by lra.
    apply served_exact; auto. intros i. destruct (Rle_dec (o_t o) t1) as [L|L].
    + split; intros X; [replace i with 0%nat by lia; simpl; lra|].
      destruct i; [lia|]. exfalso. rewrite S_INR in X. assert (0 <= INR i) by apply pos_INR. nra.
    + split; intros X; [lia|]. exfalso. assert (0 <= INR i) by apply pos_INR. nra.
  - intros F. destruct (data_outputs_block _ _ _ _ _ H D I) as [-> _].
    change (t1 :: map fst calls) with (map fst ((t1, f1) :: calls)). clear - F.
    revert o. induction F as [|[u g] cs G F IH]; intros o; [reflexivity|].
    cbn in G. subst g. cbn [history concat map fst served]. rewrite app_length, IH, step1_dt.
    change (INR 0) with 0. replace (o_t o + 0 * o_dt o) with (o_t o) by lra.
    destruct (mk_cases false u o) as [(L & E & S)|(L & E & S)]; rewrite E, S; destruct (Rle_dec (o_t o) u); try lra.
    + cbn [bump advance o_t length]. rewrite (served_shift _ (o_t o) _ 1). change (INR 1) with 1.
      replace (o_t o + 1 * o_dt o) with (o_t o + o_dt o) by lra. reflexivity.
    + reflexivity.
Qed.
Print Assumptions C17_none_skipped.

Example C17_example : exists s' ess,
  data_outputs [(0, true); (0, false); (3/10, false); (12/10, false); (2, true)]
    (Outs [Ob 1 0 1 0; Ob 3 0 (1/2) 7] (Some (Ob 2 0 10 0))) = Ok (s', ess) /\
  map (dumps_of 1) ess = [[(0%nat, 0)]; []; []; [(1%nat, 12/10)]; [(2%nat, 2)]] /\
  map (dumps_of 3) ess = [[(7%nat, 0)]; []; []; [(8%nat, 12/10)]; [(9%nat, 2)]].
Proof.
  eexists. eexists. split.
  - unfold data_outputs, data_output, mark, restart_part, due. cbn [arr rst o_t].
    repeat (match goal with |- context [Rle_dec ?a ?b] => destruct (Rle_dec a b); try (exfalso; simpl in *; lra) end;
            cbn [bind flag_ok MAXOUT_DEFAULT Nat.ltb Nat.leb Nat.add length advance bump dumps o_t o_dt o_n o_num arr rst]).
    reflexivity.
  - split; reflexivity.
Qed.

(** ** A forced call writes everything *)
Theorem C17_forced_writes_all : forall t s s' e, data_output true t s = Ok (s', e) -> distinct_blocks s ->
  (forall o, In o (arr s) -> dumps_of (o_n o) e = [(o_num o, t)]) /\
  (forall o, rst s = Some o -> restarts_of e = [(o_num o, t)]).
Proof.
  intros t s s' e H D.
  assert (H' : data_outputs [(t, true)] s = Ok (s', [e])) by (simpl; rewrite H; reflexivity).
  split; intros o I.
  - destruct (data_outputs_block _ _ _ _ _ H' D I) as [E _]. simpl in E. injection E as ->.
    destruct (mk_cases true t o) as [(_ & _ & ->)|(_ & _ & ->)]; reflexivity.
  - destruct (data_outputs_rst _ _ _ _ _ H' I) as [E _]. simpl in E. injection E as ->.
    destruct (mk_cases true t o) as [(_ & _ & ->)|(_ & _ & ->)]; reflexivity.
Qed.
Print Assumptions C17_forced_writes_all.

(** ** C19: the work array *)
Definition block_count (maxout : nat) (time : R) (par : nat -> blockpar) : nat :=
  length (filter (fun n => match bp_kind (par n) with Ignored => false | _ => true end) (seq 1 maxout)).

Definition isout (par : nat -> blockpar) (n : nat) : bool := match bp_kind (par n) with IsOut => true | _ => false end.
Definition isrst (par : nat -> blockpar) (n : nat) : bool := match bp_kind (par n) with IsRst => true | _ => false end.
Lemma init_loop_arr : forall time par n outn s,
  arr (init_loop time par outn n s) = arr s ++ map (fun k => mk_out time k (par k)) (filter (isout par) (seq outn n)).
Proof.
  induction n as [|n IH]; intros outn s; simpl; [rewrite app_nil_r; reflexivity|].
  rewrite IH. unfold isout at 2. destruct (bp_kind (par outn)); simpl; auto. rewrite <- app_assoc. reflexivity.
Qed.
Lemma init_loop_rst : forall time par n outn s,
  rst (init_loop time par outn n s) =
  last (map (fun k => Some (mk_out time k (par k))) (filter (isrst par) (seq outn n))) (rst s).
Proof.
  induction n as [|n IH]; intros outn s; simpl; [reflexivity|].
  rewrite IH. unfold isrst at 2. destruct (bp_kind (par outn)); cbn [rst]; auto.
  cbn [map].
  assert (LC : forall A (l : list A) t p, last (t :: l) p = last l t).
  { clear. induction l as [|a l IH]; intros t p; [reflexivity|]. change (last (t :: a :: l) p) with (last (a :: l) p).
    transitivity (last l a); [apply IH|symmetry; apply IH]. }
  rewrite LC. reflexivity.
Qed.
Lemma init_arr : forall maxout time par,
  arr (init_output maxout time par) = map (fun k => mk_out time k (par k)) (filter (isout par) (seq 1 maxout)).
Proof. intros. unfold init_output. rewrite init_loop_arr. reflexivity. Qed.
Lemma init_rst : forall maxout time par,
  rst (init_output maxout time par) =
  last (map (fun k => Some (mk_out time k (par k))) (filter (isrst par) (seq 1 maxout))) None.
Proof. intros. unfold init_output. rewrite init_loop_rst. reflexivity. Qed.

Lemma filter_len2 : forall (f g : nat -> bool) l, (forall x, f x = true -> g x = true -> False) ->
  (length (filter f l) + length (filter g l) <= length l)%nat.
Proof.
  induction l as [|x l IH]; intros H; simpl; [lia|]. specialize (IH H). destruct (f x) eqn:F; destruct (g x) eqn:G; simpl; try lia.
  exfalso. eauto.
Qed.
(** The number of outputs never changes. *)
Lemma data_output_len : forall flag time s s' e, data_output flag time s = Ok (s', e) ->
  length (arr s') = length (arr s) /\ (rst s = None <-> rst s' = None).
Proof.
  intros flag time s s' e H. apply data_output_spec in H. destruct H as (A & e1 & B & C).
  split; [rewrite A; apply map_length|]. apply restart_part_same in B.
  destruct (rst s); destruct B as [-> _]; split; congruence.
Qed.
Definition fits (s : outs) : Prop :=
  (length (arr s) + match rst s with Some _ => 1 | None => 0 end <= 11)%nat.
Lemma data_output_ok : forall flag time s, fits s -> exists r, data_output flag time s = Ok r.
Proof.
  intros flag time s F. unfold fits in F. unfold data_output. rewrite mark_ok by (destruct (rst s); lia). cbn [bind].
  unfold restart_part. destruct (rst s) as [o|].
  - unfold flag_ok, MAXOUT_DEFAULT. rewrite map_length.
    replace (length (arr s) <? 10 + 1)%nat with true by (symmetry; apply Nat.ltb_lt; lia).
    destruct (if due time o then (advance o, true) else (o, flag)) as [o' f].
    destruct f; cbn [bind]; destruct (dumps time (map (mk flag time) (arr s))); eauto.
  - cbn [bind]. destruct (dumps time (map (mk flag time) (arr s))); eauto.
Qed.
Lemma fits_step : forall flag time s s' e, data_output flag time s = Ok (s', e) -> fits s -> fits s'.
Proof.
  intros flag time s s' e H F. apply data_output_len in H. unfold fits in *. destruct H as [-> H].
  destruct (rst s), (rst s'); try lia. exfalso. destruct H as [H1 H2]. discriminate (H1 eq_refl).
Qed.
Lemma fits_run : forall calls s, fits s -> exists r, data_outputs calls s = Ok r.
Proof.
  induction calls as [|[t f] cs IH]; intros s F; simpl; eauto.
  destruct (data_output_ok f t s F) as [[s1 e] E]. rewrite E. cbn [bind].
  destruct (IH s1 (fits_step _ _ _ _ _ E F)) as [[s2 es] E2]. rewrite E2. cbn [bind]. eauto.
Qed.

(** With the default maxout (or fewer; or 11 if no restart output is among them) no
    history of calls writes outside dump_flag[]. *)
Theorem C19_within_default_maxout_safe : forall maxout time par calls, (maxout <= 11)%nat ->
  exists r, data_outputs calls (init_output maxout time par) = Ok r.
Proof.
  intros maxout time par calls M. apply fits_run. unfold fits. rewrite init_arr, init_rst, map_length.
  assert (X := filter_len2 (isout par) (isrst par) (seq 1 maxout)).
  rewrite seq_length in X.
  specialize (X ltac:(intros x; unfold isout, isrst; destruct (bp_kind (par x)); discriminate)).
  destruct (filter (isrst par) (seq 1 maxout)) as [|y l] eqn:E; simpl in X |- *; [lia|].
  destruct (match map _ l with [] => _ | _ :: _ => _ end); lia.
Qed.
Print Assumptions C19_within_default_maxout_safe.

(** The claim for every number of blocks is false: with maxout = 12 and twelve output
    blocks the very first call writes outside the array. *)
Theorem C19_many_outputs_refuted : exists maxout time par flag,
  data_output flag time (init_output maxout time par) = UB.
Proof.
  exists 12%nat, 0, (fun _ => Bp IsOut None 1 None), true. reflexivity.
Qed.
Print Assumptions C19_many_outputs_refuted.
(** In general: exactly when more than 11 outputs (the restart output included) exist. *)
Theorem C19_overrun_iff : forall flag time s, data_output flag time s = UB <-> ~ fits s.
Proof.
  intros flag time s. split.
  - intros H F. destruct (data_output_ok flag time s F) as [r E]. congruence.
  - intros F. unfold data_output.
    destruct (mark flag time 0 (arr s)) as [m| |] eqn:M; cbn [bind].
    + apply mark_spec in M. destruct M as [-> B]. unfold fits in F.
      destruct (rst s) as [o|]; [|exfalso; lia].
      unfold restart_part, flag_ok, MAXOUT_DEFAULT. rewrite map_length.
      destruct (length (arr s) <? 10 + 1)%nat eqn:E; [|reflexivity]. apply Nat.ltb_lt in E. exfalso. lia.
    + exfalso. clear F. revert M. generalize 0%nat. induction (arr s) as [|o l IH]; intros i M; simpl in M; [discriminate|].
      destruct (flag_ok i); [|discriminate]. destruct (mark flag time (S i) l) eqn:E; try discriminate. eapply IH; eauto.
    + reflexivity.
Qed.
Print Assumptions C19_overrun_iff.

(** ** C18: resuming *)
(** What a run knows about its outputs agrees with the parameter file, except for the
    times and numbers, which change as it goes. *)
Definition consistent (maxout : nat) (par : nat -> blockpar) (s : outs) : Prop :=
  map o_n (arr s) = filter (isout par) (seq 1 maxout) /\
  (forall o, In o (arr s) -> o_dt o = bp_dt (par (o_n o))) /\
  match rst s with
  | Some o => last (map Some (filter (isrst par) (seq 1 maxout))) None = Some (o_n o) /\ o_dt o = bp_dt (par (o_n o))
  | None => filter (isrst par) (seq 1 maxout) = []
  end.
Lemma last_map : forall A B (f : A -> B) l d, last (map f l) (f d) = f (last l d).
Proof. induction l as [|x l IH]; intros; [reflexivity|]. destruct l; [reflexivity|]. cbn [map last] in *. apply IH. Qed.

Lemma consistent_init : forall maxout time par, consistent maxout par (init_output maxout time par).
Proof.
  intros. unfold consistent. rewrite init_arr, init_rst, map_map. split; [|split].
  - rewrite (map_ext _ (fun k => k)) by reflexivity. apply map_id.
  - intros o H. apply in_map_iff in H. destruct H as (k & <- & _). reflexivity.
  - destruct (filter (isrst par) (seq 1 maxout)) as [|y l] using rev_ind; [reflexivity|].
    rewrite !map_app. cbn [map]. rewrite !last_last. simpl. auto.
Qed.
Lemma consistent_step : forall maxout par flag time s s' e, data_output flag time s = Ok (s', e) ->
  consistent maxout par s -> consistent maxout par s'.
Proof.
  intros maxout par flag time s s' e H (C1 & C2 & C3). apply data_output_spec in H. destruct H as (A & e1 & B & _).
  unfold consistent. rewrite A. split; [|split].
  - rewrite map_map. rewrite (map_ext _ o_n) by (intros; apply step1_n). auto.
  - intros o I. apply in_map_iff in I. destruct I as (x & <- & I). rewrite step1_n, step1_dt. auto.
  - apply restart_part_same in B. destruct (rst s); destruct B as [-> _]; auto. rewrite step1_n, step1_dt. auto.
Qed.
Lemma consistent_run : forall maxout par calls s s' e, data_outputs calls s = Ok (s', e) ->
  consistent maxout par s -> consistent maxout par s'.
Proof.
  induction calls as [|[t f] cs IH]; intros s s' ess H C; [simpl in H; injection H as <- <-; auto|].
  cbn [data_outputs] in H. destruct (data_output f t s) as [[s1 e]| |] eqn:E; try discriminate. cbn [bind] in H.
  destruct (data_outputs cs s1) as [[s2 es]| |] eqn:E2; try discriminate. cbn [bind] in H. injection H as <- <-.
  eapply IH; eauto. eapply consistent_step; eauto.
Qed.

Lemma find_saved_in : forall l v, NoDup (map sv_n l) -> In v l -> find_saved (sv_n v) l = Some v.
Proof.
  induction l as [|x l IH]; intros v ND I; [contradiction|]. unfold find_saved in *. cbn [find map] in *.
  inversion ND; subst. destruct I as [->|I]; [rewrite Nat.eqb_refl; reflexivity|].
  destruct (Nat.eqb_spec (sv_n x) (sv_n v)) as [E|E]; auto. exfalso. apply H1. rewrite E. apply in_map. auto.
Qed.
Lemma sv_of : forall f t o, save_one (mk f t o) = Sv (o_n o) (o_num (step1 f t o)) (o_t (step1 f t o)).
Proof.
  intros. unfold save_one. assert (N := mk_n f t o). assert (M := mk_num f t o). unfold step1, fin.
  destruct (mk f t o) as [x b]. simpl in *. subst. destruct b; simpl; rewrite N; reflexivity.
Qed.
Lemma ob_eta : forall o, o = Ob (o_n o) (o_t o) (o_dt o) (o_num o).
Proof. destruct o; reflexivity. Qed.
Lemma filter_ext_all : forall (f g : nat -> bool) l, (forall x, f x = g x) -> filter f l = filter g l.
Proof. intros. induction l; simpl; auto. rewrite H, IHl. reflexivity. Qed.
Lemma kind_resumed : forall rd par l n, bp_kind (resumed_par rd par l n) = bp_kind (par n).
Proof. intros. unfold resumed_par. destruct (find_saved n l); reflexivity. Qed.
Lemma nodup_last : forall (l : list nat) x, last (map Some l) None = Some x -> In x l.
Proof.
  intros l x. destruct l as [|y l] using rev_ind; [discriminate|]. rewrite map_app. cbn [map]. rewrite last_last.
  intros E. injection E as ->. apply in_or_app. right. left. reflexivity.
Qed.

(** The state of the outputs restored from a restart dump is exactly the state of the
    run that wrote it, provided the printed times read back exactly. *)
Lemma resume_state : forall maxout par time0 rd flag time s s' e num blocks,
  consistent maxout par s ->
  data_output flag time s = Ok (s', e) -> In (Restart num time blocks) e ->
  (forall o, In o (arr s') \/ rst s' = Some o -> rd (o_t o) = o_t o) ->
  init_output maxout time0 (resumed_par rd par blocks) = s'.
Proof.
  intros maxout par time0 rd flag time s s' e num blocks C H I RD.
  assert (C' := consistent_step _ _ _ _ _ _ _ H C).
  apply data_output_spec in H. destruct H as (A & e1 & B & ->).
  apply in_app_or in I. destruct I as [I|I].
  2:{ exfalso. clear - I. induction (arr s) as [|o l IH]; [contradiction|]. cbn [map flat_map] in I. apply in_app_or in I.
      destruct I as [I|I]; auto. unfold dump_ev in I. destruct (snd (mk flag time o)); simpl in I; [|contradiction].
      destruct I as [I|I]; [discriminate|contradiction]. }
  assert (BL : exists o, rst s = Some o /\ rst s' = Some (step1 flag time o) /\
     blocks = map (fun x => Sv (o_n x) (o_num x) (o_t x)) (arr s' ++ [step1 flag time o])).
  { unfold restart_part in B. destruct (rst s) as [o|]; [|injection B as B1 <-; contradiction].
    destruct (flag_ok (length (map (mk flag time) (arr s)))); [|discriminate].
    exists o. split; [reflexivity|].
    destruct (if due time o then (advance o, true) else (o, flag)) as [o' f] eqn:E.
    assert (SF : step1 flag time o = if f then bump o' else o').
    { unfold step1, fin, mk. rewrite E. reflexivity. }
    assert (N : o_n o' = o_n o) by (destruct (due time o); injection E as <- <-; reflexivity).
    destruct f; [|injection B as B1 <-; contradiction]. injection B as B1 <-.
    rewrite SF. split; [congruence|].
    destruct I as [I|[]]. injection I as _ <-. rewrite map_app, A, !map_map. f_equal.
    apply map_ext. intros x. rewrite sv_of. rewrite step1_n. reflexivity. }
  destruct BL as (o & R0 & R1 & BL).
  destruct C' as (C1 & C2 & C3). rewrite R1 in C3. destruct C3 as [C3 C4].
  set (o' := step1 flag time o) in *.
  assert (ISO : forall x, isout (resumed_par rd par blocks) x = isout par x) by (intros; unfold isout; rewrite kind_resumed; reflexivity).
  assert (ISR : forall x, isrst (resumed_par rd par blocks) x = isrst par x) by (intros; unfold isrst; rewrite kind_resumed; reflexivity).
  assert (INR' : In (o_n o') (filter (isrst par) (seq 1 maxout))) by (apply nodup_last; auto).
  assert (ND : NoDup (map sv_n blocks)).
  { rewrite BL, map_map. cbn [sv_n]. rewrite map_app. cbn [map].
    change (fun x : outb => o_n x) with o_n. rewrite C1.
    assert (NF : NoDup (filter (isout par) (seq 1 maxout))) by (apply NoDup_filter; apply seq_NoDup).
    assert (NI : ~ In (o_n o') (filter (isout par) (seq 1 maxout))).
    { intros X. apply filter_In in X. apply filter_In in INR'. destruct X as [_ X], INR' as [_ Y].
      unfold isout in X. unfold isrst in Y. destruct (bp_kind (par (o_n o'))); discriminate. }
    clear - NF NI. induction (filter (isout par) (seq 1 maxout)) as [|x l IH]; simpl.
    - constructor; [simpl; tauto|constructor].
    - inversion NF; subst. constructor; [|apply IH; auto; simpl in NI; tauto].
      intros X. apply in_app_or in X. destruct X as [X|[X|[]]]; auto. subst. apply NI. left. reflexivity. }
  assert (BACK : forall x, In x (arr s' ++ [o']) -> mk_out time0 (o_n x) (resumed_par rd par blocks (o_n x)) = x).
  { intros x IX. unfold resumed_par.
    assert (IB : In (Sv (o_n x) (o_num x) (o_t x)) blocks).
    { rewrite BL. apply (in_map (fun x => Sv (o_n x) (o_num x) (o_t x))). auto. }
    assert (F := find_saved_in _ _ ND IB). cbn [sv_n] in F. rewrite F. unfold mk_out. cbn [bp_t bp_dt bp_num sv_t sv_num].
    assert (D : o_dt x = bp_dt (par (o_n x))).
    { apply in_app_or in IX. destruct IX as [IX|[<-|[]]]; auto. }
    rewrite RD; [rewrite <- D; symmetry; apply ob_eta|].
    apply in_app_or in IX. destruct IX as [IX|[<-|[]]]; auto. }
  assert (Harr : arr (init_output maxout time0 (resumed_par rd par blocks)) = arr s').
  { rewrite init_arr. rewrite (filter_ext_all _ (isout par)) by auto. rewrite <- C1, map_map.
    assert (G : forall l, incl l (arr s' ++ [o']) -> map (fun x => mk_out time0 (o_n x) (resumed_par rd par blocks (o_n x))) l = l).
    { induction l as [|x l IH]; intros IN; [reflexivity|]. cbn [map]. rewrite BACK by (apply IN; left; reflexivity).
      rewrite IH; [reflexivity|]. intros y Y. apply IN. right. auto. }
    apply G. intros y Y. apply in_or_app. auto. }
  assert (Hrst : rst (init_output maxout time0 (resumed_par rd par blocks)) = rst s').
  { rewrite init_rst. rewrite (filter_ext_all _ (isrst par)) by auto. rewrite R1.
    destruct (filter (isrst par) (seq 1 maxout)) as [|y l] using rev_ind; [discriminate|]. clear IHl.
    rewrite map_app in C3 |- *. cbn [map] in C3 |- *. rewrite last_last in C3 |- *. injection C3 as ->.
    f_equal. apply BACK. apply in_or_app. right. left. reflexivity. }
  destruct (init_output maxout time0 (resumed_par rd par blocks)) as [a r]. simpl in *. subst. destruct s'; reflexivity.
Qed.

Lemma quiet_call : forall time s, (forall o, In o (arr s) \/ rst s = Some o -> time < o_t o) -> fits s ->
  data_output false time s = Ok (s, []).
Proof.
  intros time s Q F.
  destruct (data_output_ok false time s F) as [[s' e] E]. rewrite E.
  assert (E' := E). apply data_output_spec in E. destruct E as (A & e1 & B & ->).
  assert (NS : forall o, In o (arr s) \/ rst s = Some o -> mk false time o = (o, false)).
  { intros o I. unfold mk, due. destruct (Rle_dec (o_t o) time); [|reflexivity]. specialize (Q o I). lra. }
  assert (A1 : arr s' = arr s).
  { rewrite A. clear - NS. assert (G : forall l, (forall o, In o l -> mk false time o = (o, false)) -> map (step1 false time) l = l).
    { induction l as [|x l IH]; intros H; [reflexivity|]. cbn [map]. unfold step1 at 1. rewrite H by (left; reflexivity).
      rewrite IH; [reflexivity|]. intros. apply H. right. auto. }
    apply G. auto. }
  assert (E2 : flat_map (dump_ev time) (map (mk false time) (arr s)) = []).
  { assert (G : forall l, (forall o, In o l -> mk false time o = (o, false)) -> flat_map (dump_ev time) (map (mk false time) l) = []).
    { induction l as [|x l IH]; intros H; [reflexivity|]. cbn [map flat_map]. rewrite H by (left; reflexivity).
      rewrite IH; [reflexivity|]. intros. apply H. right. auto. }
    apply G. auto. }
  rewrite E2, app_nil_r.
  assert (R1 : rst s' = rst s /\ e1 = []).
  { unfold restart_part in B. destruct (rst s) as [o|] eqn:R; [|injection B as B1 B2; rewrite <- B1, <- B2; auto].
    destruct (flag_ok (length (map (mk false time) (arr s)))); [|discriminate].
    assert (X := NS o (or_intror eq_refl)). unfold mk in X. rewrite X in B. injection B as B1 B2. rewrite <- B1, <- B2. auto. }
  destruct R1 as [R1 ->]. clear A B. destruct s, s'. simpl in *. subst. reflexivity.
Qed.

(** C18: a run resumed from a restart dump written in a call at time [time] starts by
    calling data_output at that same time, and then writes exactly what the
    uninterrupted run writes in the following calls. *)
Theorem C18_resumed_run_continues_schedule :
  forall maxout par time0 pre flag time rest s0 s s' e num blocks rd,
  (* the run so far, from its parameter file *)
  s0 = init_output maxout time0 par ->
  (exists es, data_outputs pre s0 = Ok (s, es)) -> fits s0 ->
  (* the call that writes the restart dump *)
  data_output flag time s = Ok (s', e) -> In (Restart num time blocks) e ->
  (* printed times read back exactly, and no block lags behind *)
  (forall o, In o (arr s') \/ rst s' = Some o -> rd (o_t o) = o_t o /\ time < o_t o) ->
  let s2 := init_output maxout time (resumed_par rd par blocks) in
  exists sf es, data_outputs rest s' = Ok (sf, es) /\
                data_outputs ((time, false) :: rest) s2 = Ok (sf, [] :: es).
Proof.
  intros maxout par time0 pre flag time rest s0 s s' e num blocks rd E0 [es0 RUN] F0 H I RD s2.
  assert (C : consistent maxout par s) by (eapply consistent_run; [eauto|subst; apply consistent_init]).
  assert (Fs : fits s).
  { clear - RUN F0. revert s0 es0 RUN F0. induction pre as [|[t f] cs IH]; intros s0 ess H F; [simpl in H; injection H as <- <-; auto|].
    cbn [data_outputs] in H. destruct (data_output f t s0) as [[s1 e]| |] eqn:E; try discriminate. cbn [bind] in H.
    destruct (data_outputs cs s1) as [[s2 es]| |] eqn:E2; try discriminate. cbn [bind] in H. injection H as <- <-.
    eapply IH; eauto. eapply fits_step; eauto. }
  assert (Fs' := fits_step _ _ _ _ _ H Fs).
  assert (ES : s2 = s') by (unfold s2; eapply resume_state; eauto; intros; apply RD; auto).
  destruct (fits_run rest s' Fs') as [[sf es] E]. exists sf, es. split; auto.
  rewrite ES. cbn [data_outputs]. rewrite quiet_call; auto.
  - cbn [bind]. rewrite E. reflexivity.
  - intros; apply RD; auto.
Qed.
Print Assumptions C18_resumed_run_continues_schedule.

(** The hypotheses are met: one data output every 1 and a restart output every 2. *)
Definition ex_par : nat -> blockpar := fun n =>
  match n with
  | 1%nat => Bp IsOut None 1 None
  | 2%nat => Bp IsRst None 2 None
  | _ => Bp Ignored None 0 None
  end.
Lemma due_T : forall t n a d k, a <= t -> due t (Ob n a d k) = true.
Proof. intros. unfold due. cbn [o_t]. destruct (Rle_dec a t); [reflexivity|contradiction]. Qed.
Lemma due_F : forall t n a d k, t < a -> due t (Ob n a d k) = false.
Proof. intros. unfold due. cbn [o_t]. destruct (Rle_dec a t); [lra|reflexivity]. Qed.
Ltac runout := repeat first
  [ progress unfold bump, advance | rewrite due_T by lra | rewrite due_F by lra
  | progress cbn [data_outputs data_output mark restart_part arr rst flag_ok MAXOUT_DEFAULT Nat.ltb Nat.leb Nat.add length bind
         advance o_t o_n o_dt o_num bump dumps app map save_one] ].
Example C18_example : exists s s' e num blocks,
  data_outputs [(0, true); (1, false)] (init_output 3 0 ex_par) = Ok (s, [[Restart 0 0 [Sv 1 1 1; Sv 2 1 2]; Dump 1 0 0]; [Dump 1 1 1]]) /\
  fits (init_output 3 0 ex_par) /\
  data_output false 2 s = Ok (s', e) /\ In (Restart num 2 blocks) e /\
  (forall o, In o (arr s') \/ rst s' = Some o -> (fun t : R => t) (o_t o) = o_t o /\ 2 < o_t o).
Proof.
  change (init_output 3 0 ex_par) with (Outs [Ob 1 0 1 0] (Some (Ob 2 0 2 0))).
  eexists _, _, _, _, _. split; [|split; [|split; [|split]]].
  - runout.
    replace (0 + 1) with 1 by lra. replace (0 + 2) with 2 by lra. reflexivity.
  - unfold fits. simpl. lia.
  - runout. reflexivity.
  - left. reflexivity.
  - cbn [arr rst]. intros o [[<-|[]]|E]; [|injection E as <-]; simpl; split; lra.
Qed.

(** ** The provisos of C18 are needed *)
(** A block that lags behind (interval shorter than the step) is written once more by
    the resumed run, at the same time. *)
Theorem C18_lagging_block_refuted : exists maxout par time0 t s' e num blocks,
  data_output true t (init_output maxout time0 par) = Ok (s', e) /\ In (Restart num t blocks) e /\
  exists sf es ev, data_outputs [(t, false)] (init_output maxout t (resumed_par (fun x => x) par blocks)) = Ok (sf, es) /\
    es = [[ev]] /\ ev = Dump 1 1 t.
Proof.
  exists 2%nat, (fun n => match n with 1%nat => Bp IsOut (Some 0) 1 None | _ => Bp IsRst (Some 0) 10 None end), 0, 3.
  eexists _, _, _, _. split; [|split].
  - change (init_output _ _ _) with (Outs [Ob 1 0 1 0] (Some (Ob 2 0 10 0))).
    runout. reflexivity.
  - left. reflexivity.
  - eexists _, _, _. split; [|split; reflexivity].
    change (init_output _ _ _) with (Outs [Ob 1 (0 + 1) 1 1] (Some (Ob 2 (0 + 10) 10 1))).
    runout. reflexivity.
Qed.
Print Assumptions C18_lagging_block_refuted.

(** Times are stored with "%.15e", i.e. rounded to 16 significant decimal digits; this
    is that rounding for numbers in [0.1,1). *)
Definition dec16 (x : R) : R := IZR (up (x * IZR (10 ^ 16) - 1 / 2)) / IZR (10 ^ 16).
(** The next output time 0.30000000000000004 (= 0.1+0.2 in double precision) is stored
    as 0.3: a resumed run whose time is 0.3 writes a dump that the uninterrupted run
    does not write at that time. *)
Theorem C18_rounded_time_refuted : exists maxout par time0 t t2 s' e num blocks,
  data_output false t (init_output maxout time0 par) = Ok (s', e) /\ In (Restart num t blocks) e /\
  (forall o, In o (arr s') \/ rst s' = Some o -> t < o_t o) /\
  exists s2 s2' ev, data_output false t2 s' = Ok (s2, []) /\
    data_output false t2 (init_output maxout t (resumed_par dec16 par blocks)) = Ok (s2', [ev]).
Proof.
  set (T := 30000000000000004 / IZR (10 ^ 17)).
  assert (E10 : IZR (10 ^ 16) = 10000000000000000) by (f_equal).
  assert (E17 : IZR (10 ^ 17) = 100000000000000000) by (f_equal).
  assert (D : dec16 T = 3 / 10).
  { unfold dec16, T. rewrite E10, E17.
    replace (up (30000000000000004 / 100000000000000000 * 10000000000000000 - 1 / 2)) with 3000000000000000%Z; [lra|].
    apply tech_up; lra. }
  exists 2%nat, (fun n => match n with 1%nat => Bp IsOut (Some T) 1 None | _ => Bp IsRst (Some (2/10)) (4/10) None end), 0, (2/10), (3/10).
  assert (TV : 3/10 < T < 4/10) by (unfold T; rewrite E17; lra).
  assert (D6 : 3/10 < dec16 (2/10 + 4/10)).
  { unfold dec16. rewrite E10. replace (up ((2 / 10 + 4 / 10) * 10000000000000000 - 1 / 2)) with 6000000000000000%Z; [lra|].
    apply tech_up; lra. }
  eexists _, _, _, _. split; [|split; [|split]].
  - change (init_output _ _ _) with (Outs [Ob 1 T 1 0] (Some (Ob 2 (2/10) (4/10) 0))).
    runout. reflexivity.
  - left. reflexivity.
  - cbn [arr rst]. intros o [[<-|[]]|E]; [|injection E as <-]; simpl; lra.
  - eexists _, _, _. split.
    + runout. reflexivity.
    + change (init_output _ _ _) with (Outs [Ob 1 (dec16 T) 1 0] (Some (Ob 2 (dec16 (2/10 + 4/10)) (4/10) 1))).
      rewrite D. runout. reflexivity.
Qed.
Print Assumptions C18_rounded_time_refuted.

(** The restart dump is written before the other dumps of the same call and already
    counts them: if the run is killed in between, the resumed run never writes them. *)
Theorem C18_killed_between_dumps_refuted : exists maxout par time0 t s' e1 e2 num blocks,
  data_output true t (init_output maxout time0 par) = Ok (s', e1 ++ e2) /\
  e1 = [Restart num t blocks] /\ e2 = [Dump 1 0 t] /\
  forall calls sf es, data_outputs ((t, false) :: calls) (init_output maxout t (resumed_par (fun x => x) par blocks)) = Ok (sf, es) ->
    ~ In 0%nat (map fst (concat (map (dumps_of 1) es))).
Proof.
  exists 2%nat, (fun n => match n with 1%nat => Bp IsOut (Some 0) 1 None | _ => Bp IsRst (Some 0) 10 None end), 0, 0.
  eexists _, [_], [_], _, _. split; [|split; [reflexivity|split; [reflexivity|]]].
  - change (init_output _ _ _) with (Outs [Ob 1 0 1 0] (Some (Ob 2 0 10 0))).
    runout. reflexivity.
  - intros calls sf es H.
    change (init_output _ _ _) with (Outs [Ob 1 (0 + 1) 1 1] (Some (Ob 2 (0 + 10) 10 1))) in H.
    assert (D : distinct_blocks (Outs [Ob 1 (0 + 1) 1 1] (Some (Ob 2 (0 + 10) 10 1)))).
    { unfold distinct_blocks. simpl. repeat constructor; simpl; intuition lia. }
    destruct (C17_numbers_consecutive _ _ _ _ (Ob 1 (0 + 1) 1 1) H D) as [N _].
    specialize (N (or_introl eq_refl)). cbn [o_n o_num] in N. rewrite N. rewrite in_seq. lia.
Qed.
Print Assumptions C18_killed_between_dumps_refuted.
