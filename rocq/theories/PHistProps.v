(** * C109: the history of the particles *)
From Coq Require Import ZArith Bool Reals Lra Lia List Permutation.
From Verif Require Import CStr MeshModel GasModel PartModel PBinSpec PBinProps PHistModel PHistSpec.
Import ListNotations.
Open Scope R_scope.

Lemma psum_app : forall a b f, psum (a ++ b) f = psum a f + psum b f.
Proof. induction a as [|g a IH]; intros b f; cbn [psum app]; [lra|]. rewrite IH. lra. Qed.
Lemma local_eq : forall ok f ps s, fold_left (fun s g => if (g_pos g =? 1)%Z && ok g then s + f g else s) ps s =
  s + psum (filter ok (filter (fun g => (g_pos g =? 1)%Z) ps)) f.
Proof.
  intros ok f. induction ps as [|g ps IH]; intros s; cbn [fold_left filter psum]; [lra|]. rewrite IH.
  destruct (g_pos g =? 1)%Z; cbn [andb filter]; [destruct (ok g); cbn [psum]|]; lra.
Qed.
Lemma count_eq : forall ok ps n, fold_left (fun n g => if (g_pos g =? 1)%Z && ok g then (n + 1)%Z else n) ps n =
  (n + Z.of_nat (length (filter ok (filter (fun g => (g_pos g =? 1)%Z) ps))))%Z.
Proof.
  intros ok. induction ps as [|g ps IH]; intros n; cbn [fold_left filter length]; [lia|]. rewrite IH.
  destruct (g_pos g =? 1)%Z; cbn [andb filter]; [destruct (ok g); cbn [length]|]; lia.
Qed.
Lemma filter_all : forall A (l : list A), filter (fun _ => true) l = l.
Proof. induction l; cbn; congruence. Qed.
Lemma sum_eq : forall ok f P s, fold_left Rplus (map (local_sum ok f) P) s = s + psum (filter ok (real_parts P)) f.
Proof.
  intros ok f. induction P as [|p P IH]; intros s; cbn [map fold_left]; [cbn; lra|]. rewrite IH. unfold local_sum. rewrite local_eq.
  unfold real_parts, all_parts. cbn [flat_map]. rewrite !filter_app, psum_app. lra.
Qed.
Lemma counts_eq : forall ok P n, fold_left Z.add (map (local_count ok) P) n = (n + Z.of_nat (length (filter ok (real_parts P))))%Z.
Proof.
  intros ok. induction P as [|p P IH]; intros n; cbn [map fold_left]; [cbn; lia|]. rewrite IH. unfold local_count. rewrite count_eq.
  unfold real_parts, all_parts. cbn [flat_map]. rewrite !filter_app, app_length. lia.
Qed.
Lemma npar_eq : forall t P, npar t P = Z.of_nat (length (of_kind t P)).
Proof. intros. unfold npar, reduce_count. rewrite counts_eq. reflexivity. Qed.
Lemma ksum_eq : forall t P f, reduce_sum (map (local_sum (fun g => (g_type g =? t)%Z) f) P) = psum (of_kind t P) f.
Proof. intros. unfold reduce_sum. rewrite sum_eq. unfold of_kind. lra. Qed.
Lemma loss_eq : forall P s, fold_left Rplus (map local_loss P) s = s + fold_right (fun c r => pc_loss c + r) 0 (all_cells P).
Proof.
  assert (ONE : forall l s, fold_left (fun s c => s + pc_loss c) l s = s + fold_right (fun c r => pc_loss c + r) 0 l).
  { induction l as [|c l IH]; intros s; cbn; [lra|]. rewrite IH. lra. }
  induction P as [|p P IH]; intros s; cbn [map fold_left]; [cbn; lra|]. rewrite IH. unfold local_loss. rewrite ONE. unfold all_cells. cbn [flat_map].
  rewrite fold_right_app. set (z := fold_right _ 0 (flat_map pr_cells P)). clearbody z. generalize (pr_cells p). induction l as [|c l IHl]; cbn; lra.
Qed.
Lemma MAX_cases : forall a b, a <= MAX a b /\ b <= MAX a b /\ (MAX a b = a \/ MAX a b = b).
Proof. intros. unfold MAX. destruct (Rlt_dec b a); lra. Qed.
Lemma local_largest : forall (f : pcell -> R) (l : list pcell) s, let m := fold_left (fun s c => MAX s (f c)) l s in s <= m /\ (forall c, In c l -> f c <= m) /\ (m = s \/ exists c, In c l /\ f c = m).
Proof.
  intros f. induction l as [|c l IH]; intros s; cbn [fold_left]; [cbn; repeat split; auto; [lra|intros c []]|].
  destruct (IH (MAX s (f c))) as (A & B & D). destruct (MAX_cases s (f c)) as (M1 & M2 & M3). cbv zeta in *. split; [lra|]. split.
  - intros c' [<-|I]; [lra|auto].
  - destruct D as [D|(c' & I & D)]; [|right; exists c'; split; [right|]; auto]. destruct M3 as [M3|M3]; [left; rewrite D; exact M3|right; exists c; split; [left; reflexivity|rewrite D; symmetry; exact M3]].
Qed.
Lemma reduce_largest : forall f l x, let m := fold_left MAX (map (local_max f) l) x in x <= m /\ (forall p, In p l -> local_max f p <= m) /\ (m = x \/ exists p, In p l /\ m = local_max f p).
Proof.
  intros f. induction l as [|p l IH]; intros x; cbn [map fold_left]; [cbn; repeat split; auto; [lra|intros c []]|].
  destruct (IH (MAX x (local_max f p))) as (A & B & D). destruct (MAX_cases x (local_max f p)) as (M1 & M2 & M3). cbv zeta in *. split; [lra|]. split.
  - intros q [<-|I]; [lra|auto].
  - destruct D as [D|(q & I & D)]; [|right; exists q; split; [right|]; auto]. destruct M3 as [M3|M3]; [left; rewrite D; exact M3|right; exists p; split; [left; reflexivity|rewrite D; exact M3]].
Qed.
Lemma max_eq : forall f P, largest (all_cells P) f (reduce_max (map (local_max f) P)).
Proof.
  intros f P. unfold largest. destruct P as [|p P]; cbn [map reduce_max]; [cbn; repeat split; auto; [lra|intros c []]|].
  destruct (reduce_largest f P (local_max f p)) as (A & B & D). set (m := fold_left MAX _ _) in *. clearbody m. cbv zeta in *.
  assert (LM : forall q, 0 <= local_max f q /\ (forall c, In c (pr_cells q) -> f c <= local_max f q) /\ (local_max f q = 0 \/ exists c, In c (pr_cells q) /\ f c = local_max f q))
    by (intros q; apply (local_largest f (pr_cells q) 0)).
  split; [pose proof (proj1 (LM p)); lra|]. split.
  - intros c I. unfold all_cells in I. cbn [flat_map] in I. apply in_app_iff in I. destruct I as [I|I].
    + pose proof (proj1 (proj2 (LM p)) c I). lra.
    + apply in_flat_map in I. destruct I as (q & Q & I). pose proof (proj1 (proj2 (LM q)) c I). pose proof (B q Q). lra.
  - assert (EX : exists q, In q (p :: P) /\ m = local_max f q) by (destruct D as [->|(q & Q & ->)]; eexists; (split; [|reflexivity]); [left|right]; auto).
    destruct EX as (q & Q & ->). destruct (LM q) as (_ & _ & [Z|(c & I & E)]); [left; exact Z|]. right. exists c. split; [|exact E]. unfold all_cells. apply in_flat_map. eauto.
Qed.

(** The row of scalars: time, largest density and stiffness; then energy loss, mass, momentum and kinetic energy along each axis, and what the user
    enrolled, of all particles of all processes, each once (copies in ghost zones do not count), per cell of the Domain. *)
Theorem C109_scalars : forall fbk drho user time Nx P, (forall a, 1 <= Nx a)%Z -> (Nx X1 * Nx X2 * Nx X3 < 2 ^ 31)%Z ->
  let per_cell x := x / IZR (Nx X1 * Nx X2 * Nx X3) in let S f := per_cell (psum (real_parts P) f) in
  exists dmax stiff, scalars fbk drho user time Nx P = Ok
    ([time; dmax; stiff; if fbk then per_cell (fold_right (fun c r => pc_loss c + r) 0 (all_cells P)) else 0;
      S (fun g => drho (g_type g)); S (fun g => drho (g_type g) * q1 (g_v g)); S (fun g => drho (g_type g) * q2 (g_v g)); S (fun g => drho (g_type g) * q3 (g_v g));
      S (fun g => kinetic (q1 (g_v g)) (drho (g_type g))); S (fun g => kinetic (q2 (g_v g)) (drho (g_type g))); S (fun g => kinetic (q3 (g_v g)) (drho (g_type g)))]
     ++ map S user) /\
    largest (all_cells P) pc_d dmax /\ (if fbk then largest (all_cells P) pc_stiff stiff else stiff = 0).
Proof.
  intros fbk drho user time Nx P HN HV per_cell S. exists (reduce_max (map (local_max pc_d) P)), (if fbk then reduce_max (map (local_max pc_stiff) P) else 0).
  split; [|split; [apply max_eq|destruct fbk; [apply max_eq|reflexivity]]].
  pose proof (HN X1) as N1. pose proof (HN X2) as N2. pose proof (HN X3) as N3.
  assert (V : vol_rat Nx = Ok (Nx X1 * Nx X2 * Nx X3)%Z).
  { unfold vol_rat, int_mul. cbv zeta. assert (A : (1 <= Nx X1 * Nx X2)%Z) by nia. assert (B : (Nx X1 * Nx X2 <= Nx X1 * Nx X2 * Nx X3)%Z) by nia.
    set (q := (Nx X1 * Nx X2)%Z) in *. set (r := (q * Nx X3)%Z) in *. change (- 2 ^ 31)%Z with (-2147483648)%Z. change (2 ^ 31)%Z with 2147483648%Z in *.
    rewrite (proj2 (Z.leb_le (-2147483648) q)), (proj2 (Z.ltb_lt q 2147483648)) by lia. cbn [andb bind]. fold r.
    rewrite (proj2 (Z.leb_le (-2147483648) r)), (proj2 (Z.ltb_lt r 2147483648)) by lia. reflexivity. }
  unfold scalars. cbv zeta. rewrite V. cbn [bind]. f_equal. unfold columns.
  assert (SE : forall f, reduce_sum (map (local_sum (fun _ => true) f) P) * (1 / IZR (Nx X1 * Nx X2 * Nx X3)) = S f).
  { intros f. unfold reduce_sum. rewrite sum_eq, filter_all. unfold S, per_cell, Rdiv. ring. }
  assert (KE : forall (b : v3 -> R), S (fun g => 1/2 * drho (g_type g) * SQR (b (g_v g))) = S (fun g => kinetic (b (g_v g)) (drho (g_type g)))).
  { intros b. unfold S. f_equal. apply psum_ext. intros. unfold kinetic, SQR. field. }
  cbn [map app]. rewrite !SE, (KE q1), (KE q2), (KE q3). do 3 f_equal. f_equal.
  - destruct fbk; [unfold reduce_sum; rewrite loss_eq; unfold per_cell, Rdiv; ring|ring].
  - do 7 f_equal. rewrite map_map. apply map_ext. exact SE.
Qed.
Print Assumptions C109_scalars.

(** The row of a kind with particles: means of position and velocity, the roots of their variances (0 for a single particle), and the means of what
    the user enrolled, over the particles of that kind on all processes. *)
Theorem C109_kind : forall t user P, of_kind t P <> [] -> let l := of_kind t P in
  kind_row t P user = map (mean_of l) place_and_velocity ++ map (fun f => if (length l =? 1)%nat then 0 else sqrt (variance l f)) place_and_velocity ++ map (mean_of l) user.
Proof.
  intros t user P NE l. change place_and_velocity with coords. assert (LP : (1 <= length l)%nat) by (unfold l; destruct (of_kind t P); [congruence|cbn; lia]).
  assert (AV : forall f, average t P f = mean_of l f).
  { intros f. unfold average. rewrite ksum_eq, npar_eq. fold l. unfold mean_of, amount. rewrite INR_IZR_INZ. do 2 f_equal. lia. }
  unfold kind_row. rewrite (map_ext _ _ AV coords), (map_ext _ _ AV user). do 2 f_equal. apply map_ext. intros f. unfold scatter. rewrite ksum_eq, npar_eq. fold l.
  rewrite (psum_ext l _ (fun g => (f g - mean_of l f) ^ 2)) by (intros; rewrite AV; unfold SQR; ring).
  destruct (Nat.eqb_spec (length l) 1) as [E|E].
  - rewrite E. change (Z.max 1 (Z.of_nat 1 - 1)) with 1%Z. destruct l as [|g [|h l']] eqn:EL; cbn in E; try lia. cbn [psum].
    unfold mean_of, amount. cbn [length psum INR]. replace (f g - (f g + 0) / 1) with 0 by field. replace ((0 ^ 2 + 0) / 1) with 0 by field. apply sqrt_0.
  - unfold variance, amount. f_equal. f_equal. rewrite Z.max_r by lia. rewrite minus_IZR, <- INR_IZR_INZ. reflexivity.
Qed.
Print Assumptions C109_kind.
(** A kind without particles: zeros. *)
Theorem C109_empty : forall t user P, of_kind t P = [] -> kind_row t P user = repeat 0 (12 + length user).
Proof.
  intros t user P E. assert (AV : forall f, average t P f = 0) by (intros f; unfold average; rewrite ksum_eq, E; cbn [psum]; unfold Rdiv; ring).
  assert (SC : forall f, scatter t P f = 0) by (intros f; unfold scatter; rewrite ksum_eq, E; cbn [psum]; unfold Rdiv; rewrite Rmult_0_l; apply sqrt_0).
  unfold kind_row. rewrite (map_ext _ (fun _ => 0) AV coords), (map_ext _ (fun _ => 0) SC coords), (map_ext _ (fun _ => 0) AV user). cbn [coords map app plus repeat].
  do 12 f_equal. induction user; cbn; congruence.
Qed.
Print Assumptions C109_empty.

(** How particles are spread over processes, and in which order, does not matter. *)
Lemma filter_perm : forall A (f : A -> bool) l r, Permutation l r -> Permutation (filter f l) (filter f r).
Proof.
  intros A f l r H. induction H; cbn [filter]; auto; [destruct (f x); auto|destruct (f x), (f y); auto; apply perm_swap|eapply Permutation_trans; eauto].
Qed.
Theorem C109_processes : forall t user P Q, Permutation (all_parts P) (all_parts Q) -> kind_row t P user = kind_row t Q user.
Proof.
  intros t user P Q H. assert (K : Permutation (of_kind t P) (of_kind t Q)) by (apply filter_perm, filter_perm, H).
  assert (AV : forall f, average t P f = average t Q f).
  { intros f. unfold average. rewrite !ksum_eq, !npar_eq, (Permutation_length K), (psum_perm _ _ _ K). reflexivity. }
  unfold kind_row. rewrite (map_ext _ _ AV coords), (map_ext _ _ AV user). do 2 f_equal. apply map_ext. intros f. unfold scatter.
  rewrite !ksum_eq, !npar_eq, (Permutation_length K), (psum_perm _ _ _ K). do 2 f_equal. apply psum_ext. intros. rewrite AV. reflexivity.
Qed.
Print Assumptions C109_processes.

Definition at_ (x : R) : grain := Grain (V3 x 0 0) (V3 0 0 0) 0 1 0.
(** Refuted: the columns headed "var" do not hold the variance.  Particles at -1 and 1, on two processes: variance 2, column sqrt 2. *)
Theorem C109_var_refuted : exists P, variance (of_kind 0 P) (fun g => q1 (g_x g)) = 2 /\ nth 6 (kind_row 0 P []) 0 = sqrt 2 /\ sqrt 2 <> 2.
Proof.
  exists [Proc [] [at_ (-1)]; Proc [] [at_ 1]]. assert (V : variance (of_kind 0 [Proc [] [at_ (-1)]; Proc [] [at_ 1]]) (fun g => q1 (g_x g)) = 2) by (unfold variance, mean_of, amount; cbn; field).
  split; [exact V|]. split.
  - rewrite C109_kind by discriminate. cbn [place_and_velocity map app nth]. change ((length (of_kind 0 [Proc [] [at_ (-1)]; Proc [] [at_ 1]]) =? 1)%nat) with false. cbv iota. rewrite V. reflexivity.
  - intros C. pose proof (sqrt_sqrt 2 ltac:(lra)) as S. rewrite C in S. lra.
Qed.
Print Assumptions C109_var_refuted.
(** Refuted for Domains of 2^31 cells or more: the number of cells overflows int. *)
Theorem C109_large_refuted : forall fbk drho user time P, scalars fbk drho user time (fun a => match a with X1 => 2048 | _ => 1024 end)%Z P = UB.
Proof. intros. unfold scalars. cbv zeta. reflexivity. Qed.
Print Assumptions C109_large_refuted.

(** A run of two processes, with a copy in a ghost zone, which does not count, and a particle of another kind. *)
Definition run2 : list proc :=
  [ Proc [PCell 1 0 2; PCell 5 3 0] [Grain (V3 0 1 0) (V3 2 0 0) 0 1 0; Grain (V3 9 9 9) (V3 9 9 9) 0 2 0];
    Proc [PCell 4 7 1] [Grain (V3 6 1 0) (V3 4 0 0) 0 1 0; Grain (V3 5 5 5) (V3 1 1 1) 1 1 0] ].
Definition three_cells (a : axis) : Z := match a with X1 => 3 | _ => 1 end.
Example C109_scalars_case : (forall a, 1 <= three_cells a)%Z /\ (three_cells X1 * three_cells X2 * three_cells X3 < 2 ^ 31)%Z /\
  exists row, scalars true (fun t => if (t =? 0)%Z then 1 else 2) [] 1 three_cells run2 = Ok row /\ nth 3 row 0 = 1 /\ nth 4 row 0 = 4/3 /\ nth 5 row 0 = 8/3 /\ nth 1 row 0 = 5 /\ nth 2 row 0 = 7.
Proof.
  assert (A : forall a, (1 <= three_cells a)%Z) by (intros []; cbn; lia). assert (B : (three_cells X1 * three_cells X2 * three_cells X3 < 2 ^ 31)%Z) by (cbn; lia).
  split; [exact A|]. split; [exact B|].
  destruct (C109_scalars true (fun t => if (t =? 0)%Z then 1 else 2) [] 1 three_cells run2 A B) as (dm & st & E & (_ & D1 & D2) & (_ & S1 & S2)).
  eexists. split; [exact E|]. cbn [app nth]. cbn in D1, D2, S1, S2. split; [cbn; field|]. split; [cbn; field|]. split; [cbn; field|].
  pose proof (D1 (PCell 5 3 0) ltac:(auto)) as X. pose proof (S1 (PCell 4 7 1) ltac:(auto)) as Y. cbn in X, Y.
  split; [destruct D2 as [D2|(c & I & D2)]; [lra|]; repeat (destruct I as [<-|I]; [cbn in D2; lra|]); destruct I|].
  destruct S2 as [S2|(c & I & S2)]; [lra|]; repeat (destruct I as [<-|I]; [cbn in S2; lra|]); destruct I.
Qed.
Example C109_kind_case : of_kind 0 run2 <> [] /\ nth 0 (kind_row 0 run2 []) 0 = 3 /\ nth 3 (kind_row 0 run2 []) 0 = 3 /\ nth 6 (kind_row 0 run2 []) 0 = sqrt 18 /\ nth 7 (kind_row 0 run2 []) 0 = 0 /\
  of_kind 7 run2 = [] /\ length (of_kind 1 run2) = 1%nat.
Proof.
  assert (N : of_kind 0 run2 <> []) by discriminate. split; [exact N|]. rewrite (C109_kind 0 [] run2 N). cbn [place_and_velocity map app nth]. change ((length (of_kind 0 run2) =? 1)%nat) with false. cbv iota.
  unfold variance, mean_of, amount. repeat split; cbn; try field; [f_equal; field|]. replace (_ / _) with 0 by field. apply sqrt_0.
Qed.

(** What the user enrolled, in order, is what the rows show; an eleventh column of either kind stops the program. *)
Definition for_scalars (calls : list ((grain -> R) * Z)) : list (grain -> R) := map fst (filter (fun c => (snd c =? 0)%Z) calls).
Definition for_kinds (calls : list ((grain -> R) * Z)) : list (grain -> R) := map fst (filter (fun c => negb (snd c =? 0)%Z) calls).
Lemma enroll_gen : forall calls a b, (length a <= 10)%nat -> (length b <= 10)%nat -> enroll_all (a, b) calls =
  if ((length (a ++ for_scalars calls) <=? 10) && (length (b ++ for_kinds calls) <=? 10))%nat then Ok (a ++ for_scalars calls, b ++ for_kinds calls) else Fatal.
Proof.
  induction calls as [|[f set] calls IH]; intros a b A B; cbn [enroll_all].
  - unfold for_scalars, for_kinds. cbn [filter map]. rewrite !app_nil_r, !(proj2 (Nat.leb_le _ _)) by assumption. reflexivity.
  - unfold enroll, for_scalars, for_kinds in *. cbn [fst snd filter]. destruct (set =? 0)%Z; cbn [negb map fst].
    + destruct (Nat.leb_spec 10 (length a)) as [H|H]; cbn [bind].
      * rewrite (proj2 (Nat.leb_gt _ _)); [reflexivity|]. rewrite app_length. cbn [length]. lia.
      * rewrite IH by (rewrite ?app_length; cbn [length]; lia). rewrite <- app_assoc. reflexivity.
    + destruct (Nat.leb_spec 10 (length b)) as [H|H]; cbn [bind].
      * rewrite (proj2 (Nat.leb_gt (length (b ++ _)) 10)); [rewrite andb_false_r; reflexivity|]. rewrite app_length. cbn [length]. lia.
      * rewrite IH by (rewrite ?app_length; cbn [length]; lia). rewrite <- app_assoc. reflexivity.
Qed.
Theorem C109_enroll : forall calls,
  ((length (for_scalars calls) <= 10)%nat /\ (length (for_kinds calls) <= 10)%nat -> enroll_all ([], []) calls = Ok (for_scalars calls, for_kinds calls)) /\
  ((10 < length (for_scalars calls))%nat \/ (10 < length (for_kinds calls))%nat -> enroll_all ([], []) calls = Fatal).
Proof.
  intros calls. rewrite enroll_gen by (cbn; lia). cbn [app].
  destruct (Nat.leb_spec (length (for_scalars calls)) 10), (Nat.leb_spec (length (for_kinds calls)) 10); cbn [andb]; split; intros; try reflexivity; lia.
Qed.
Print Assumptions C109_enroll.
