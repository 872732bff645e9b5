(** * The order in which join_vtk puts the files *)
From Coq Require Import String Ascii ZArith Reals Bool Arith Lia Lra Permutation Sorted List.
From Verif Require Import CStr MeshModel PosModel GasModel VtkModel VtkSpec.
Import ListNotations.
Open Scope nat_scope.

Lemma flat_map_ext_in : forall A B (f g : A -> list B) l, (forall a, In a l -> f a = g a) -> flat_map f l = flat_map g l.
Proof. intros A B f g l H. induction l; [reflexivity|]. cbn [flat_map]. rewrite H, IHl; [reflexivity|intros; apply H; right; auto|left; auto]. Qed.
Lemma flat_map_map : forall A B C (f : B -> list C) (g : A -> B) l, flat_map f (map g l) = flat_map (fun x => f (g x)) l.
Proof. induction l; [reflexivity|]. cbn [map flat_map]. rewrite IHl. reflexivity. Qed.
Lemma map_flat_map : forall A B C (f : B -> C) (g : A -> list B) l, map f (flat_map g l) = flat_map (fun x => map f (g x)) l.
Proof. induction l; [reflexivity|]. cbn [flat_map]. rewrite map_app, IHl. reflexivity. Qed.
Lemma flat_map_nil : forall A B (f : A -> list B) l, (forall a, In a l -> f a = []) -> flat_map f l = [].
Proof. intros A B f l H. induction l; [reflexivity|]. cbn [flat_map]. rewrite H, IHl; [reflexivity|intros; apply H; right; auto|left; auto]. Qed.
Lemma flat_map_length_const : forall A B (f : A -> list B) n l, (forall a, In a l -> length (f a) = n) -> length (flat_map f l) = length l * n.
Proof. intros A B f n l H. induction l; [reflexivity|]. cbn [flat_map length]. rewrite app_length, H, IHl; [lia|intros; apply H; right; auto|left; auto]. Qed.
Lemma filter_false : forall A (p : A -> bool) l, (forall a, In a l -> p a = false) -> filter p l = [].
Proof. intros A p l H. induction l; [reflexivity|]. cbn [filter]. rewrite H by (left; auto). apply IHl. intros. apply H. right. auto. Qed.
Lemma filter_true : forall A (p : A -> bool) l, (forall a, In a l -> p a = true) -> filter p l = l.
Proof. intros A p l H. induction l; [reflexivity|]. cbn [filter]. rewrite H by (left; auto). f_equal. apply IHl. intros. apply H. right. auto. Qed.
Lemma filter_flat_map : forall A B (p : B -> bool) (f : A -> list B) l, filter p (flat_map f l) = flat_map (fun a => filter p (f a)) l.
Proof. intros. induction l; [reflexivity|]. cbn [flat_map]. rewrite filter_app, IHl. reflexivity. Qed.
Lemma Permutation_filter : forall A (p : A -> bool) l l', Permutation l l' -> Permutation (filter p l) (filter p l').
Proof.
  intros A p l l' H. induction H; cbn [filter]; auto.
  - destruct (p x); auto.
  - destruct (p x), (p y); auto. apply perm_swap.
  - eapply Permutation_trans; eauto.
Qed.

(** A list sorted by a natural number is the concatenation of its parts. *)
Lemma sorted_parts : forall A (f : A -> nat) n l, StronglySorted (fun x y => f x <= f y) l -> (forall x, In x l -> f x < n) ->
  l = flat_map (fun i => filter (fun x => f x =? i) l) (seq 0 n).
Proof.
  intros A f n l S. induction S as [|a l S IH F]; intros B.
  - rewrite flat_map_nil; auto.
  - assert (BA := B a (or_introl eq_refl)).
    assert (E : seq 0 n = seq 0 (f a) ++ f a :: seq (Datatypes.S (f a)) (n - Datatypes.S (f a))).
    { replace n with (f a + Datatypes.S (n - Datatypes.S (f a))) at 1 by lia. rewrite seq_app. reflexivity. }
    specialize (IH (fun x I => B x (or_intror I))). rewrite Forall_forall in F. rewrite E in IH |- *. rewrite flat_map_app in IH |- *. cbn [flat_map] in IH |- *.
    rewrite flat_map_nil.
    2:{ intros i I. apply in_seq in I. apply filter_false. intros x [<-|X]; apply Nat.eqb_neq; [lia|]. specialize (F x X). lia. }
    rewrite flat_map_nil in IH.
    2:{ intros i I. apply in_seq in I. apply filter_false. intros x X. apply Nat.eqb_neq. specialize (F x X). lia. }
    cbn [app filter] in *. rewrite Nat.eqb_refl. cbn [app]. f_equal. rewrite IH at 1. f_equal. apply flat_map_ext_in. intros i I. apply in_seq in I.
    cbn [filter]. destruct (Nat.eqb_spec (f a) i); [lia|reflexivity].
Qed.
Lemma filter_parts : forall A (f : A -> nat) (B : nat -> list A) n i, (forall j x, In x (B j) -> f x = j) -> i < n ->
  filter (fun x => f x =? i) (flat_map B (seq 0 n)) = B i.
Proof.
  intros A f B n i H L. rewrite filter_flat_map.
  replace n with (i + S (n - S i)) by lia. rewrite seq_app, flat_map_app. cbn [seq flat_map plus].
  rewrite flat_map_nil, (filter_true _ _ (B i)), flat_map_nil; [rewrite app_nil_r; reflexivity| | |].
  - intros j I. apply in_seq in I. apply filter_false. intros x X. apply Nat.eqb_neq. apply H in X. lia.
  - intros x X. apply Nat.eqb_eq. eauto.
  - intros j I. apply in_seq in I. apply filter_false. intros x X. apply Nat.eqb_neq. apply H in X. lia.
Qed.

(** [groups] undoes concatenation. *)
Lemma groups_parts : forall (B : nat -> list vdom) len n, (forall i, i < n -> length (B i) = len) -> groups n len (flat_map B (seq 0 n)) = map B (seq 0 n).
Proof.
  intros B len n H. unfold groups. apply map_ext_in. intros i I. apply in_seq in I.
  replace n with (i + S (n - S i)) by lia. rewrite seq_app, flat_map_app. cbn [seq flat_map plus].
  assert (L : length (flat_map B (seq 0 i)) = i * len).
  { rewrite (flat_map_length_const _ _ _ len), seq_length; auto. intros j J. apply in_seq in J. apply H. lia. }
  rewrite <- L, skipn_app, skipn_all, Nat.sub_diag. cbn [app skipn]. rewrite <- (H i) by lia. rewrite firstn_app, firstn_all, Nat.sub_diag, firstn_O, app_nil_r. reflexivity.
Qed.
Lemma seq_mul : forall A (F : nat -> nat -> list A) a b, flat_map (fun m => flat_map (fun l => F m l) (seq 0 a)) (seq 0 b) = flat_map (fun p => F (p / a) (p mod a)) (seq 0 (b * a)).
Proof.
  intros A F a b. destruct a as [|a]; [rewrite Nat.mul_0_r; cbn; apply flat_map_nil; auto|]. set (c := S a). assert (C : c <> 0) by (unfold c; lia). clearbody c.
  induction b as [|b IH]; [reflexivity|]. rewrite seq_S, flat_map_app, IH. replace (S b * c) with (b * c + c) by lia. rewrite seq_app, flat_map_app. f_equal. cbn [plus flat_map].
  rewrite app_nil_r. assert (E : forall n s k, seq (s + k) n = map (fun r => s + r) (seq k n)).
  { induction n; intros; cbn [seq map]; [reflexivity|]. f_equal. replace (S (s + k)) with (s + S k) by lia. apply IHn. }
  replace (b * c) with (b * c + 0) by lia. rewrite E, flat_map_map. apply flat_map_ext_in. intros r I. apply in_seq in I. f_equal.
  - rewrite Nat.div_add_l by lia. rewrite Nat.div_small by lia. lia.
  - rewrite Nat.add_comm, Nat.mod_add by lia. symmetry. apply Nat.mod_small. lia.
Qed.

Section Sort.
Variables (nx ny nz : nat) (E : gidx -> vdom) (key : axis -> nat -> R) (qs : axis -> list vdom -> list vdom).
Hypotheses (PX : 0 < nx) (PY : 0 < ny) (PZ : 0 < nz).
Definition cnt (a : axis) : nat := match a with X1 => nx | X2 => ny | X3 => nz end.
Hypothesis EK : forall g a, v_origin (vd_file (E g)) a = key a (gi_ax g a).
Hypothesis KI : forall a i j, i < j -> j < cnt a -> (key a i < key a j)%R.
Hypothesis QS : sorts qs.
Lemma key_le : forall a i j, i < cnt a -> j < cnt a -> (key a i <= key a j)%R -> i <= j.
Proof. intros a i j I J H. destruct (le_lt_dec i j); auto. assert (X := KI a j i l I). lra. Qed.
(** Sorting Grids is sorting their indices. *)
Lemma qs_grids : forall a gs, (forall g, In g gs -> gi_ax g a < cnt a) -> exists gs', qs a (map E gs) = map E gs' /\ Permutation gs gs' /\ StronglySorted (fun x y => gi_ax x a <= gi_ax y a) gs'.
Proof.
  intros a gs B. destruct (QS a (map E gs)) as [P S]. destruct (Permutation_map_inv E _ P) as (gs' & EQ & P').
  exists gs'. split; auto. split; [auto|]. rewrite EQ in S.
  assert (B' : forall g, In g gs' -> gi_ax g a < cnt a) by (intros; apply B; eapply Permutation_in; [apply Permutation_sym; eassumption|auto]).
  clear - S B' EK KI. induction gs' as [|g gs' IH]; [constructor|]. cbn [map] in S. inversion S as [|x l S' F]; subst. constructor.
  - apply IH; auto. intros; apply B'; right; auto.
  - rewrite Forall_forall in *. intros h H. apply (key_le a); [apply B'; left; auto|apply B'; right; auto|]. rewrite <- !EK. apply F. apply in_map. auto.
Qed.
(** Counting distinct origins. *)
Lemma count_same : forall a o n B rest, (forall g, In g B -> key a (gi_ax g a) = o) -> count_up a o n (map E B ++ rest) = count_up a o n rest.
Proof.
  intros a o n B rest H. induction B as [|g B IH]; [reflexivity|]. cbn [map app count_up]. 
  destruct (Rlt_dec o (vorigin a (E g))) as [X|_]; [exfalso; unfold vorigin in X; rewrite EK, H in X by (left; auto); lra|]. apply IH. intros; apply H; right; auto.
Qed.
Lemma count_blocks : forall a (B : nat -> list gidx) m s o n, s + m <= cnt a -> (forall j g, In g (B j) -> gi_ax g a = j) -> (forall j, j < cnt a -> B j <> []) -> (m = 0 \/ (o < key a s)%R) ->
  count_up a o n (map E (flat_map B (seq s m))) = n + m.
Proof.
  intros a B m. induction m as [|m IH]; intros s o n L H NE O; [cbn; lia|]. cbn [seq flat_map]. rewrite map_app.
  assert (N := NE s ltac:(lia)). assert (HS := H s). destruct (B s) as [|g b]; [congruence|]. cbn [map app count_up]. unfold vorigin. rewrite EK, (HS g) by (left; auto).
  destruct O as [|O]; [lia|]. destruct (Rlt_dec o (key a s)); [|lra]. rewrite count_same by (intros h I; f_equal; apply HS; right; auto).
  rewrite IH; auto; try lia. destruct m; [left; auto|right]. apply KI; lia.
Qed.
Lemma count_distinct_ok : forall a (B : nat -> list gidx), 0 < cnt a -> (forall j g, In g (B j) -> gi_ax g a = j) -> (forall j, j < cnt a -> B j <> []) ->
  count_distinct a (map E (flat_map B (seq 0 (cnt a)))) = Ok (cnt a).
Proof.
  intros a B C H NE. destruct (cnt a) as [|m] eqn:CE; [lia|]. cbn [seq flat_map]. rewrite map_app.
  assert (N := NE 0 ltac:(lia)). assert (H0 := H 0). destruct (B 0) as [|g b]; [congruence|]. cbn [map app count_distinct]. f_equal.
  unfold vorigin. rewrite EK, (H0 g) by (left; auto). rewrite count_same by (intros h I; f_equal; apply H0; right; auto).
  rewrite count_blocks; [lia|lia|auto|intros; apply NE; lia|]. destruct m; [left; auto|right]. apply KI; lia.
Qed.
Definition grid_list : list gidx := flat_map (fun n => flat_map (fun m => map (fun l => Gi l m n) (seq 0 nx)) (seq 0 ny)) (seq 0 nz).
Lemma in_row : forall n m g, In g (map (fun l => Gi l m n) (seq 0 nx)) -> gl g < nx /\ gm g = m /\ gn g = n.
Proof. intros n m g I. apply in_map_iff in I. destruct I as (l & <- & I). apply in_seq in I. cbn. lia. Qed.
Lemma in_plane : forall n g, In g (flat_map (fun m => map (fun l => Gi l m n) (seq 0 nx)) (seq 0 ny)) -> gl g < nx /\ gm g < ny /\ gn g = n.
Proof. intros n g I. apply in_flat_map in I. destruct I as (m & M & I). apply in_row in I. apply in_seq in M. lia. Qed.
Lemma in_grids : forall g, In g grid_list -> gl g < nx /\ gm g < ny /\ gn g < nz.
Proof. intros g I. apply in_flat_map in I. destruct I as (n & M & I). apply in_plane in I. apply in_seq in M. lia. Qed.
Lemma plane_length : forall n, length (flat_map (fun m => map (fun l => Gi l m n) (seq 0 nx)) (seq 0 ny)) = ny * nx.
Proof. intros. rewrite (flat_map_length_const _ _ _ nx), seq_length; auto. intros. rewrite map_length, seq_length. reflexivity. Qed.
Lemma list_length : length grid_list = nz * (ny * nx).
Proof. unfold grid_list. rewrite (flat_map_length_const _ _ _ (ny * nx)), seq_length; auto. intros. apply plane_length. Qed.
(** One row after the last sort. *)
Lemma row_sorted : forall n m gs, Permutation gs (map (fun l => Gi l m n) (seq 0 nx)) -> qs X1 (map E gs) = map E (map (fun l => Gi l m n) (seq 0 nx)).
Proof.
  intros n m gs P. destruct (qs_grids X1 gs) as (gs' & -> & P' & S).
  { intros g I. apply (Permutation_in _ P) in I. apply in_row in I. cbn. lia. }
  f_equal. assert (P2 : Permutation gs' (map (fun l => Gi l m n) (seq 0 nx))) by (eapply Permutation_trans; [apply Permutation_sym; eassumption|auto]).
  rewrite (sorted_parts _ gl nx gs'); auto.
  2:{ intros g I. apply (Permutation_in _ P2) in I. apply in_row in I. lia. }
  replace (map (fun l => Gi l m n) (seq 0 nx)) with (flat_map (fun l => [Gi l m n]) (seq 0 nx)) in * by (clear; induction (seq 0 nx); [reflexivity|]; cbn [flat_map map app]; f_equal; auto).
  apply flat_map_ext_in. intros i I. apply in_seq in I. assert (F := Permutation_filter _ (fun x => gl x =? i) _ _ P2).
  rewrite (filter_parts _ gl (fun l => [Gi l m n])) in F; [|intros j x [<-|[]]; reflexivity|lia]. apply Permutation_sym, Permutation_length_1_inv in F. exact F.
Qed.
Lemma choose : forall A (P : nat -> A -> Prop) n (a0 : A), (forall i, i < n -> exists a, P i a) -> exists f, forall i, i < n -> P i (f i).
Proof.
  intros A P n a0. induction n as [|n IH]; intros H; [exists (fun _ => a0); lia|].
  destruct IH as (f & F); [intros; apply H; lia|]. destruct (H n) as (a & HA); [lia|]. exists (fun i => if i =? n then a else f i). intros i I.
  destruct (Nat.eqb_spec i n) as [->|]; [auto|]. apply F. lia.
Qed.
(** The files end up in the order of the Grids. *)
Lemma sort_ok : forall l, Permutation l (map E grid_list) -> sort_domain_1d qs l = Ok (map E grid_list, nx, ny, nz).
Proof.
  intros l PL. destruct (Permutation_map_inv E _ PL) as (gs & -> & P0).
  assert (BG : forall g, In g gs -> gl g < nx /\ gm g < ny /\ gn g < nz) by (intros g I; apply in_grids; eapply Permutation_in; [apply Permutation_sym|]; eassumption).
  unfold sort_domain_1d. destruct (qs_grids X3 gs) as (g1 & E1 & P1 & S1); [intros g I; apply BG in I; cbn; lia|]. rewrite E1. clear E1. cbv zeta.
  assert (PG : Permutation g1 grid_list) by (eapply Permutation_trans; [apply Permutation_sym; exact P1|apply Permutation_sym; auto]).
  assert (B1 : forall g, In g g1 -> gl g < nx /\ gm g < ny /\ gn g < nz) by (intros g I; apply in_grids; eapply Permutation_in; eassumption).
  set (B := fun i => filter (fun x => gn x =? i) g1).
  assert (D1 : g1 = flat_map B (seq 0 nz)) by (apply (sorted_parts _ gn); auto; intros g I; apply B1 in I; lia).
  assert (PB : forall i, i < nz -> Permutation (B i) (flat_map (fun m => map (fun l => Gi l m i) (seq 0 nx)) (seq 0 ny))).
  { intros i I. unfold B. eapply Permutation_trans; [apply Permutation_filter; exact PG|]. unfold grid_list. rewrite (filter_parts _ gn (fun n => flat_map (fun m => map (fun l => Gi l m n) (seq 0 nx)) (seq 0 ny))); auto.
    intros j x X. apply in_plane in X. lia. }
  assert (LB : forall i, i < nz -> length (B i) = ny * nx) by (intros i I; rewrite (Permutation_length (PB i I)); apply plane_length).
  assert (CZ : count_distinct X3 (map E g1) = Ok nz).
  { rewrite D1. apply (count_distinct_ok X3 B); auto.
    - intros j g I. apply filter_In in I. destruct I as [_ I]. apply Nat.eqb_eq in I. exact I.
    - intros j J N. assert (X := LB j J). rewrite N in X. cbn in X. nia. }
  rewrite CZ. cbn [bind]. rewrite map_length. assert (LG : length g1 = nz * (ny * nx)) by (rewrite (Permutation_length PG); apply list_length).
  rewrite LG. rewrite (Nat.mul_comm nz), Nat.mod_mul, Nat.div_mul by lia. cbn [Nat.eqb negb].
  rewrite D1, map_flat_map, (groups_parts (fun i => map E (B i)) (ny * nx)) by (intros; rewrite map_length; auto). rewrite map_map.
  destruct (choose (list gidx) (fun i g => qs X2 (map E (B i)) = map E g /\ Permutation (B i) g /\ StronglySorted (fun x y => gm x <= gm y) g) nz []) as (C & HC).
  { intros i I. apply (qs_grids X2). intros g G. apply (Permutation_in _ (PB i I)) in G. apply in_plane in G. cbn. lia. }
  assert (EC : map (fun x => qs X2 (map E (B x))) (seq 0 nz) = map (fun x => map E (C x)) (seq 0 nz)).
  { apply map_ext_in. intros i I. apply in_seq in I. apply (HC i). lia. }
  rewrite EC. clear EC.
  assert (PC : forall i, i < nz -> Permutation (C i) (flat_map (fun m => map (fun l => Gi l m i) (seq 0 nx)) (seq 0 ny))).
  { intros i I. eapply Permutation_trans; [apply Permutation_sym; apply (HC i I)|auto]. }
  set (D := fun n m => filter (fun x => gm x =? m) (C n)).
  assert (DC : forall n, n < nz -> C n = flat_map (D n) (seq 0 ny)).
  { intros n N. apply (sorted_parts _ gm); [apply (HC n N)|]. intros g G. apply (Permutation_in _ (PC n N)) in G. apply in_plane in G. lia. }
  assert (PD : forall n m, n < nz -> m < ny -> Permutation (D n m) (map (fun l => Gi l m n) (seq 0 nx))).
  { intros n m N M. unfold D. eapply Permutation_trans; [apply Permutation_filter; apply PC; auto|]. rewrite (filter_parts _ gm (fun m => map (fun l => Gi l m n) (seq 0 nx))); auto.
    intros j x X. apply in_row in X. lia. }
  assert (LD : forall n m, n < nz -> m < ny -> length (D n m) = nx) by (intros n m N M; rewrite (Permutation_length (PD n m N M)), map_length, seq_length; reflexivity).
  assert (CY : count_distinct X2 (hd [] (map (fun x => map E (C x)) (seq 0 nz))) = Ok ny).
  { replace (hd [] (map (fun x => map E (C x)) (seq 0 nz))) with (map E (C 0)) by (destruct nz; [lia|reflexivity]). rewrite DC by lia.
    apply (count_distinct_ok X2 (D 0)); auto.
    - intros j g I. apply filter_In in I. destruct I as [_ I]. apply Nat.eqb_eq in I. exact I.
    - intros j J N. assert (X := LD 0 j PZ J). rewrite N in X. cbn in X. lia. }
  rewrite CY. cbn [bind]. rewrite (Nat.mul_comm ny nx), Nat.mod_mul, Nat.div_mul by lia. cbn [Nat.eqb negb].
  rewrite <- (flat_map_concat_map (fun x => map E (C x))). f_equal. f_equal. f_equal. f_equal.
  rewrite (flat_map_ext_in _ _ _ (fun n => flat_map (fun m => map E (D n m)) (seq 0 ny))).
  2:{ intros n I. apply in_seq in I. rewrite (DC n) by lia. apply map_flat_map. }
  rewrite (seq_mul _ (fun n m => map E (D n m)) ny nz). rewrite (Nat.mul_comm ny nz).
  assert (DM : forall p, p < nz * ny -> p / ny < nz /\ p mod ny < ny).
  { intros p P. split; [apply Nat.div_lt_upper_bound; lia|apply Nat.mod_upper_bound; lia]. }
  rewrite (groups_parts (fun p => map E (D (p / ny) (p mod ny))) nx).
  2:{ intros p P. destruct (DM p P). rewrite map_length. auto. }
  rewrite map_map, <- flat_map_concat_map. unfold grid_list. rewrite map_flat_map.
  rewrite (flat_map_ext_in _ _ (fun x => map E (flat_map _ _)) (fun n => flat_map (fun m => map E (map (fun l => Gi l m n) (seq 0 nx))) (seq 0 ny))) by (intros; apply map_flat_map).
  rewrite (seq_mul _ (fun n m => map E (map (fun l => Gi l m n) (seq 0 nx)))). apply flat_map_ext_in. intros p I. apply in_seq in I. destruct (DM p); [lia|]. apply row_sorted. auto.
Qed.
End Sort.
