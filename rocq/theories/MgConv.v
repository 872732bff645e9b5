(** * Jacobi's iteration converges to the only solution *)
From Coq Require Import Reals ZArith List Bool Lra Lia Psatz.
From Verif Require Import MgModel MgSpec MgFacts.
Import ListNotations.
Open Scope R_scope.

Lemma bounded {A} (f : A -> R) (l : list A) : exists B, 0 <= B /\ forall x, In x l -> Rabs (f x) <= B.
Proof.
  induction l as [|a l (B & HB & IH)].
  - exists 0. split; [lra|]. intros x [].
  - exists (B + Rabs (f a)). pose proof (Rabs_pos (f a)). split; [lra|].
    intros x [->|X]; [lra|]. specialize (IH x X). lra.
Qed.

Lemma cv_const c : Un_cv (fun _ => c) c.
Proof. intros e He. exists O. intros n _. unfold R_dist. replace (c - c) with 0 by ring. now rewrite Rabs_R0. Qed.
Lemma cv_ext (u v : nat -> R) l : (forall n, u n = v n) -> Un_cv u l -> Un_cv v l.
Proof. intros E H e He. destruct (H e He) as (N & HN). exists N. intros n Hn. rewrite <- E. now apply HN. Qed.
Lemma cv_S (u : nat -> R) l : Un_cv u l -> Un_cv (fun n => u (S n)) l.
Proof. intros H e He. destruct (H e He) as (N & HN). exists N. intros n Hn. apply HN. lia. Qed.
Lemma cv_squeeze (u v w : nat -> R) l : (forall n, u n <= v n <= w n) -> Un_cv u l -> Un_cv w l -> Un_cv v l.
Proof.
  intros H U W e He. destruct (U e He) as (N1 & H1). destruct (W e He) as (N2 & H2).
  exists (max N1 N2). intros n Hn. specialize (H1 n ltac:(lia)). specialize (H2 n ltac:(lia)). specialize (H n).
  unfold R_dist in *. apply Rabs_def2 in H1, H2. apply Rabs_def1; lra.
Qed.

Section Grid.
Variable g : mgrid.
Hypothesis OK : mg_ok g.
Notation nbg := (nb (v1 g) (v2 g) (v3 g)).
Notation ws := (wsum (v1 g) (v2 g) (v3 g)).

Lemma jacobi3_mono p q : (forall k j i, p k j i <= q k j i) -> forall k j i, jacobi3 g p k j i <= jacobi3 g q k j i.
Proof.
  intros H k j i. destruct (act g k j i) eqn:A.
  - apply act_iff in A. rewrite !(jacobi3_nb g OK) by exact A.
    destruct (v_pos g OK) as (V1 & V2 & V3). pose proof (ws_pos g OK) as W.
    apply Rmult_le_compat_r; [left; now apply Rinv_0_lt_compat|].
    unfold nb.
    pose proof (H k j (i + 1)%Z). pose proof (H k j (i - 1)%Z). pose proof (H k (j + 1)%Z i). pose proof (H k (j - 1)%Z i).
    pose proof (H (k + 1)%Z j i). pose proof (H (k - 1)%Z j i).
    assert (v1 g * (p k j (i + 1)%Z + p k j (i - 1)%Z) <= v1 g * (q k j (i + 1)%Z + q k j (i - 1)%Z)) by (apply Rmult_le_compat_l; lra).
    assert (v2 g * (p k (j + 1)%Z i + p k (j - 1)%Z i) <= v2 g * (q k (j + 1)%Z i + q k (j - 1)%Z i)) by (apply Rmult_le_compat_l; lra).
    assert (v3 g * (p (k + 1)%Z j i + p (k - 1)%Z j i) <= v3 g * (q (k + 1)%Z j i + q (k - 1)%Z j i)) by (apply Rmult_le_compat_l; lra).
    lra.
  - apply act_no in A. rewrite !jacobi3_out by exact A. apply H.
Qed.

Definition it n p := Nat.iter n (jacobi3 g) p.
Lemma it_S n p : it (S n) p = jacobi3 g (it n p). Proof. reflexivity. Qed.
Lemma it_S' n p : it (S n) p = it n (jacobi3 g p).
Proof. induction n as [|n IH]; [reflexivity|]. rewrite it_S, IH. reflexivity. Qed.
Lemma it_mono n p q : (forall k j i, p k j i <= q k j i) -> forall k j i, it n p k j i <= it n q k j i.
Proof. intro H. induction n as [|n IH]; [exact H|]. intros. rewrite !it_S. now apply jacobi3_mono. Qed.
Lemma it_out n p k j i : ~ active g k j i -> it n p k j i = p k j i.
Proof. intro A. induction n as [|n IH]; [reflexivity|]. rewrite it_S, jacobi3_out by exact A. exact IH. Qed.

Lemma it_limit p s : (forall k j i, Un_cv (fun n => it n p k j i) (s k j i)) -> solves g s.
Proof.
  intros H k j i A. apply (jacobi3_fixed g OK); [exact A|].
  apply (UL_sequence (fun n => it (S n) p k j i)).
  - apply cv_ext with (u := fun n => (nbg (it n p) k j i - rhs g k j i) * / ws).
    { intro n. rewrite it_S, (jacobi3_nb g OK) by exact A. reflexivity. }
    rewrite (jacobi3_nb g OK) by exact A. unfold Rdiv.
    apply (CV_mult (fun n => nbg (it n p) k j i - rhs g k j i) (fun _ => / ws)); [|apply cv_const].
    apply (CV_minus (fun n => nbg (it n p) k j i) (fun _ => rhs g k j i)); [|apply cv_const].
    unfold nb.
    repeat match goal with
    | |- Un_cv (fun n => @?a n + @?b n) _ => apply (CV_plus a b)
    | |- Un_cv (fun n => ?c * @?b n) _ => apply (CV_mult (fun _ => c) b); [apply cv_const|]
    | |- _ => apply H
    end.
  - apply (cv_S (fun n => it n p k j i)). apply H.
Qed.

Lemma lap_mono p q k j i : active g k j i -> q k j i = p k j i -> (forall k j i, p k j i <= q k j i) ->
  laplacian g p k j i <= laplacian g q k j i.
Proof.
  intros A E H. pose proof (jacobi3_mono p q H k j i) as J. rewrite !(jacobi3_nb g OK) in J by exact A.
  pose proof (ws_pos g OK) as W. apply Rmult_le_reg_r in J; [|now apply Rinv_0_lt_compat].
  rewrite !(lap_nb g OK), E. lra.
Qed.

Lemma below p k j i : active g k j i -> rhs g k j i <= laplacian g p k j i -> p k j i <= jacobi3 g p k j i.
Proof.
  intros A H. rewrite (jacobi3_nb g OK) by exact A. rewrite (lap_nb g OK) in H. pose proof (ws_pos g OK) as W.
  apply Rmult_le_reg_r with ws; [exact W|]. unfold Rdiv. rewrite Rmult_assoc, Rinv_l by lra. lra.
Qed.
Lemma above p k j i : active g k j i -> laplacian g p k j i <= rhs g k j i -> jacobi3 g p k j i <= p k j i.
Proof.
  intros A H. rewrite (jacobi3_nb g OK) by exact A. rewrite (lap_nb g OK) in H. pose proof (ws_pos g OK) as W.
  apply Rmult_le_reg_r with ws; [exact W|]. unfold Rdiv. rewrite Rmult_assoc, Rinv_l by lra. lra.
Qed.

Lemma unique p q : solves g p -> solves g q -> (forall k j i, edge g k j i -> p k j i = q k j i) ->
  forall k j i, active g k j i -> p k j i = q k j i.
Proof.
  assert (L : forall p q, solves g p -> solves g q -> (forall k j i, edge g k j i -> p k j i = q k j i) ->
    forall k j i, active g k j i -> p k j i <= q k j i).
  { intros a b HA HB E k j i A.
    destruct (max_principle g OK (fun k j i => a k j i - b k j i) 0) with (k := k) (j := j) (i := i) as [X _]; [| |exact A|].
    - intros x y z Y. rewrite !(lap_nb g OK). specialize (HA x y z Y). specialize (HB x y z Y). rewrite !(lap_nb g OK) in HA, HB.
      replace (nbg (fun k j i => a k j i - b k j i) x y z) with (nbg a x y z - nbg b x y z) by (unfold nb; ring). lra.
    - intros x y z Y. rewrite (E x y z Y). lra.
    - lra. }
  intros HP HQ E k j i A. apply Rle_antisym; [apply L | apply L]; auto. intros. symmetry. auto.
Qed.

(** A lower and an upper bound of the iterates from [p]. *)
Section Barrier.
Variable p : fld.
Variables RB EB : R.
Hypothesis RB0 : 0 <= RB.
Hypothesis EB0 : 0 <= EB.
Hypothesis HR : forall k j i, active g k j i -> Rabs (rhs g k j i) <= RB.
Hypothesis HE : forall k j i, active g k j i \/ edge g k j i -> Rabs (p k j i) <= EB.
Definition bA := RB * (dx1 g * dx1 g) / 2.
Definition bB := EB + bA * (IZR (Nx1 g + 1) * IZR (Nx1 g + 1)).
Definition bar (s : R) : fld := fun k j i => s * (bA * (IZR i * IZR i) - bB).
Definition start (s : R) : fld := fun k j i => if act g k j i then bar s k j i else p k j i.

Lemma bar_lap s k j i : laplacian g (bar s) k j i = s * RB.
Proof.
  unfold laplacian, bar, bA. rewrite plus_IZR, minus_IZR. destruct OK. field. lra.
Qed.
Lemma bA_pos : 0 <= bA. Proof. unfold bA. destruct OK. apply Rmult_le_pos; [|lra]. apply Rmult_le_pos; nra. Qed.
Lemma bar_bound k j i : active g k j i \/ edge g k j i -> bA * (IZR i * IZR i) - bB <= - EB.
Proof.
  intro H. assert (R : (0 <= i <= Nx1 g + 1)%Z) by (destruct H as [H|[H _]]; unfold active in H; lia).
  destruct R as [R1 R2]. apply IZR_le in R1, R2. unfold bB. pose proof bA_pos.
  assert (IZR i * IZR i <= IZR (Nx1 g + 1) * IZR (Nx1 g + 1)) by nra. nra.
Qed.

Lemma start_lo k j i : start 1 k j i <= p k j i.
Proof.
  unfold start. destruct (act g k j i) eqn:A; [|lra]. apply act_iff in A.
  pose proof (bar_bound k j i (or_introl A)). pose proof (HE k j i (or_introl A)) as X. apply Rabs_le_inv in X. unfold bar. lra.
Qed.
Lemma start_hi k j i : p k j i <= start (-1) k j i.
Proof.
  unfold start. destruct (act g k j i) eqn:A; [|lra]. apply act_iff in A.
  pose proof (bar_bound k j i (or_introl A)). pose proof (HE k j i (or_introl A)) as X. apply Rabs_le_inv in X. unfold bar. lra.
Qed.

(** The neighbours of an active cell have values on the right side of the parabola. *)
Lemma nb_compare a b k j i : active g k j i -> (forall k j i, active g k j i \/ edge g k j i -> a k j i <= b k j i) ->
  nbg a k j i <= nbg b k j i.
Proof.
  intros A H. destruct (all_le g (fun k j i => a k j i <= b k j i) k j i A H) as (B1 & B2 & B3 & B4 & B5 & B6).
  destruct (v_pos g OK) as (V1 & V2 & V3). unfold nb.
  apply Rplus_le_compat; [apply Rplus_le_compat|]; (apply Rmult_le_compat_l; [lra|]); lra.
Qed.
Lemma start_lo_up k j i : start 1 k j i <= jacobi3 g (start 1) k j i.
Proof.
  destruct (act g k j i) eqn:A; [|apply act_no in A; rewrite jacobi3_out by exact A; lra].
  pose proof A as A'. apply act_iff in A'. apply below; [exact A'|].
  rewrite (lap_nb g OK). pose proof (bar_lap 1 k j i) as L. rewrite (lap_nb g OK) in L.
  assert (E : start 1 k j i = bar 1 k j i) by (unfold start; now rewrite A). rewrite E.
  assert (N : nbg (bar 1) k j i <= nbg (start 1) k j i).
  { apply nb_compare; [exact A'|]. intros x y z H. unfold start. destruct (act g x y z) eqn:B; [lra|].
    pose proof (bar_bound x y z H). pose proof (HE x y z H) as X. apply Rabs_le_inv in X. unfold bar. lra. }
  pose proof (HR k j i A') as X. apply Rabs_le_inv in X. lra.
Qed.
Lemma start_hi_down k j i : jacobi3 g (start (-1)) k j i <= start (-1) k j i.
Proof.
  destruct (act g k j i) eqn:A; [|apply act_no in A; rewrite jacobi3_out by exact A; lra].
  pose proof A as A'. apply act_iff in A'. apply above; [exact A'|].
  rewrite (lap_nb g OK). pose proof (bar_lap (-1) k j i) as L. rewrite (lap_nb g OK) in L.
  assert (E : start (-1) k j i = bar (-1) k j i) by (unfold start; now rewrite A). rewrite E.
  assert (N : nbg (start (-1)) k j i <= nbg (bar (-1)) k j i).
  { apply nb_compare; [exact A'|]. intros x y z H. unfold start. destruct (act g x y z) eqn:B; [lra|].
    pose proof (bar_bound x y z H). pose proof (HE x y z H) as X. apply Rabs_le_inv in X. unfold bar. lra. }
  pose proof (HR k j i A') as X. apply Rabs_le_inv in X. lra.
Qed.

Lemma lo_grow k j i : Un_growing (fun n => it n (start 1) k j i).
Proof. intro n. rewrite it_S'. apply it_mono. apply start_lo_up. Qed.
Lemma hi_fall k j i : Un_decreasing (fun n => it n (start (-1)) k j i).
Proof. intro n. rewrite it_S'. apply it_mono. apply start_hi_down. Qed.
Lemma lo_hi n k j i : it n (start 1) k j i <= it n (start (-1)) k j i.
Proof. apply it_mono. intros. apply Rle_trans with (p k0 j0 i0); [apply start_lo | apply start_hi]. Qed.
Lemma lo_cv k j i : { l | Un_cv (fun n => it n (start 1) k j i) l }.
Proof.
  apply growing_cv; [apply lo_grow|]. exists (start (-1) k j i). intros x (n & ->).
  apply Rle_trans with (it n (start (-1)) k j i); [apply lo_hi|].
  change (start (-1) k j i) with (it 0 (start (-1)) k j i). apply (decreasing_prop (fun n => it n (start (-1)) k j i) 0 n); [apply hi_fall|lia].
Qed.
Lemma hi_cv k j i : { l | Un_cv (fun n => it n (start (-1)) k j i) l }.
Proof.
  apply decreasing_cv; [apply hi_fall|]. exists (- start 1 k j i). intros x (n & ->). unfold opp_seq. apply Ropp_le_contravar.
  apply Rle_trans with (it n (start 1) k j i); [|apply lo_hi].
  change (start 1 k j i) with (it 0 (start 1) k j i). apply Rge_le, (growing_prop (fun n => it n (start 1) k j i) n 0); [apply lo_grow|lia].
Qed.

Lemma limit : exists s, solves g s /\ (forall k j i, ~ active g k j i -> s k j i = p k j i) /\
  forall k j i, Un_cv (fun n => it n p k j i) (s k j i).
Proof.
  set (s := fun k j i => proj1_sig (lo_cv k j i)). set (t := fun k j i => proj1_sig (hi_cv k j i)).
  assert (S : forall k j i, Un_cv (fun n => it n (start 1) k j i) (s k j i)) by (intros; unfold s; apply proj2_sig).
  assert (T : forall k j i, Un_cv (fun n => it n (start (-1)) k j i) (t k j i)) by (intros; unfold t; apply proj2_sig).
  pose proof (it_limit _ _ S) as PS. pose proof (it_limit _ _ T) as PT.
  assert (ES : forall k j i, ~ active g k j i -> s k j i = p k j i).
  { intros k j i A. apply (UL_sequence (fun n => it n (start 1) k j i)); [apply S|].
    apply cv_ext with (fun _ => p k j i); [|apply cv_const].
    intro n. rewrite it_out by exact A. unfold start. apply act_no in A. now rewrite A. }
  assert (ET : forall k j i, ~ active g k j i -> t k j i = p k j i).
  { intros k j i A. apply (UL_sequence (fun n => it n (start (-1)) k j i)); [apply T|].
    apply cv_ext with (fun _ => p k j i); [|apply cv_const].
    intro n. rewrite it_out by exact A. unfold start. apply act_no in A. now rewrite A. }
  assert (ST : forall k j i, t k j i = s k j i).
  { intros k j i. destruct (act g k j i) eqn:A.
    - apply act_iff in A. apply (unique t s PT PS); [|exact A]. intros x y z [_ N]. rewrite ES, ET; auto.
    - apply act_no in A. rewrite ES, ET; auto. }
  exists s. split; [exact PS|]. split; [exact ES|]. intros k j i.
  apply cv_squeeze with (u := fun n => it n (start 1) k j i) (w := fun n => it n (start (-1)) k j i); [|apply S|rewrite <- ST; apply T].
  intro n. split; apply it_mono; [apply start_lo | apply start_hi].
Qed.
End Barrier.

Lemma converges p : exists s, solves g s /\ (forall k j i, ~ active g k j i -> s k j i = p k j i) /\
  forall k j i, Un_cv (fun n => it n p k j i) (s k j i).
Proof.
  set (l := list_prod (cells 0 (Nx3 g + 1)) (list_prod (cells 0 (Nx2 g + 1)) (cells 0 (Nx1 g + 1)))).
  assert (In_l : forall k j i, active g k j i \/ edge g k j i -> In (k, (j, i)) l).
  { intros k j i H. unfold l. rewrite !in_prod_iff, !in_cells. unfold edge, active in H. lia. }
  destruct (bounded (fun t => let '(k, (j, i)) := t in rhs g k j i) l) as (RB & R0 & HR).
  destruct (bounded (fun t => let '(k, (j, i)) := t in p k j i) l) as (EB & E0 & HE).
  apply (limit p RB EB R0).
  - intros k j i A. apply (HR (k, (j, i))). auto.
  - intros k j i A. apply (HE (k, (j, i))). auto.
Qed.
End Grid.
