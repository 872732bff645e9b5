(** * Sums over the Grids of a Domain *)
From Coq Require Import ZArith List Bool Arith Reals Lia Lra.
From Verif Require Import CStr MeshModel MeshProps PosModel IntegSpec IntegFacts.
Import ListNotations.
Open Scope R_scope.

Definition lsum {A} (l : list A) (f : A -> R) : R := fold_right Rplus 0 (map f l).
Lemma lsum_nil : forall A (f : A -> R), lsum [] f = 0. Proof. reflexivity. Qed.
Lemma lsum_cons : forall A a l (f : A -> R), lsum (a :: l) f = f a + lsum l f. Proof. reflexivity. Qed.
Lemma lsum_app : forall A l l' (f : A -> R), lsum (l ++ l') f = lsum l f + lsum l' f.
Proof. intros. induction l; [cbn [app]; rewrite lsum_nil; lra|]. cbn [app]. rewrite !lsum_cons, IHl. lra. Qed.
Lemma lsum_ext : forall A l (f g : A -> R), (forall a, In a l -> f a = g a) -> lsum l f = lsum l g.
Proof. intros. unfold lsum. f_equal. apply map_ext_in. auto. Qed.
Lemma lsum_map : forall A B (h : A -> B) l (f : B -> R), lsum (map h l) f = lsum l (fun a => f (h a)).
Proof. intros. unfold lsum. rewrite map_map. reflexivity. Qed.
Lemma lsum_flat : forall A B (h : A -> list B) l (f : B -> R), lsum (flat_map h l) f = lsum l (fun a => lsum (h a) f).
Proof. intros. induction l; [reflexivity|]. cbn [flat_map]. rewrite lsum_app, lsum_cons, IHl. reflexivity. Qed.
Lemma lsum_plus : forall A l (f g : A -> R), lsum l (fun a => f a + g a) = lsum l f + lsum l g.
Proof. intros. induction l; [rewrite !lsum_nil; lra|]. rewrite !lsum_cons, IHl. lra. Qed.
Lemma lsum_scal : forall A l (c : R) (f : A -> R), lsum l (fun a => c * f a) = c * lsum l f.
Proof. intros. induction l; [rewrite !lsum_nil; lra|]. rewrite !lsum_cons, IHl. lra. Qed.
Lemma lsum_swap : forall A B (l : list A) (m : list B) f, lsum l (fun a => lsum m (fun b => f a b)) = lsum m (fun b => lsum l (fun a => f a b)).
Proof.
  intros. induction l; [rewrite lsum_nil; symmetry; induction m; [reflexivity|]; rewrite lsum_cons, IHm, lsum_nil; lra|].
  rewrite lsum_cons, IHl, <- lsum_plus. apply lsum_ext. intros. rewrite lsum_cons. reflexivity.
Qed.
Lemma lsum_seq_S : forall a n f, lsum (seq a (S n)) f = lsum (seq a n) f + f (a + n)%nat.
Proof. intros. rewrite seq_S, lsum_app, lsum_cons, lsum_nil. lra. Qed.
Lemma lsum_zrange : forall l u f, lsum (map (fun n => (l + Z.of_nat n)%Z) (seq 0 (Z.to_nat (u - l + 1)))) f = sumZ l u f.
Proof. intros. unfold lsum, sumZ. rewrite map_map. reflexivity. Qed.

Lemma sumZ_move : forall l u s f, sumZ l u (fun i => f (s + (i - l))%Z) = sumZ s (s + (u - l)) f.
Proof.
  intros l u s f. apply (sumZ_ind (fun u => sumZ l u (fun i => f (s + (i - l))%Z) = sumZ s (s + (u - l)) f) l).
  - intros v V. rewrite !sumZ_empty by lia. reflexivity.
  - intros v V IH. rewrite (sumZ_last l v) by lia. rewrite (sumZ_last s (s + (v - l))) by lia. rewrite IH. f_equal. f_equal. lia.
Qed.
Lemma sumZ_cat : forall l m u f, (l <= m + 1)%Z -> (m <= u)%Z -> sumZ l m f + sumZ (m + 1) u f = sumZ l u f.
Proof.
  intros l m u f L. apply (sumZ_ind (fun u => (m <= u)%Z -> sumZ l m f + sumZ (m + 1) u f = sumZ l u f) (m + 1)).
  - intros v V H. assert (v = m) as -> by lia. rewrite (sumZ_empty (m + 1)) by lia. lra.
  - intros v V IH _. rewrite (sumZ_last (m + 1) v), (sumZ_last l v), <- IH by lia. lra.
Qed.

(** The Grids of one axis. *)
Lemma grid_len : forall ng d a l, (1 <= gNx d a l)%Z -> (grid_e ng d a l - grid_s ng d a l = gNx d a l - 1)%Z.
Proof. intros. unfold grid_e, grid_s. destruct (Z.ltb_spec 1 (gNx d a l)); lia. Qed.
Lemma gNx_pos : forall d a i, (0 < dm_NG d a)%Z -> (dm_NG d a <= dm_Nx d a)%Z -> (1 <= gNx d a i)%Z.
Proof.
  intros d a i P L. unfold gNx. assert ((1 <= Z.quot (dm_Nx d a) (dm_NG d a))%Z) by (apply Z.quot_le_lower_bound; lia).
  destruct (Z.ltb_spec (Z.of_nat i) (Z.rem (dm_Nx d a) (dm_NG d a))); lia.
Qed.
Lemma axis_sum_n : forall d a n f, (0 < dm_NG d a)%Z -> (dm_NG d a <= dm_Nx d a)%Z ->
  lsum (seq 0 n) (fun l => sumZ (gDisp d a l) (gDisp d a l + gNx d a l - 1) f) = sumZ (dm_Disp d a) (gDisp d a n - 1) f.
Proof.
  intros d a n f P L. induction n as [|n IH].
  - cbn [gDisp seq]. rewrite lsum_nil, sumZ_empty by lia. reflexivity.
  - rewrite lsum_seq_S, IH. cbn [gDisp plus]. pose proof (gNx_pos d a n P L).
    assert (D : (dm_Disp d a <= gDisp d a n)%Z) by (apply (gDisp_mono d a) with (i := O) (j := n); lia).
    replace (gDisp d a n + gNx d a n - 1)%Z with (gDisp d a n + gNx d a n - 1)%Z by lia.
    rewrite <- (sumZ_cat (dm_Disp d a) (gDisp d a n - 1) (gDisp d a n + gNx d a n - 1)) by lia.
    replace (gDisp d a n - 1 + 1)%Z with (gDisp d a n) by lia. reflexivity.
Qed.
Lemma axis_sum : forall ng d a f, (0 < dm_NG d a)%Z -> (dm_NG d a <= dm_Nx d a)%Z ->
  lsum (seq 0 (Z.to_nat (dm_NG d a))) (fun l => sumZ (grid_s ng d a l) (grid_e ng d a l) (fun i => f (gDisp d a l + (i - grid_s ng d a l))%Z)) =
  sumZ (dm_Disp d a) (dm_Disp d a + dm_Nx d a - 1) f.
Proof.
  intros ng d a f P L. rewrite <- (gDisp_end d a) by lia. rewrite <- axis_sum_n by auto. apply lsum_ext. intros l _.
  rewrite sumZ_move. f_equal. pose proof (gNx_pos d a l P L). pose proof (grid_len ng d a l H). lia.
Qed.
(** The triple loop over Grids. *)
Lemma lsum_divmod : forall a b (F : nat -> nat -> R), (0 < a)%nat ->
  lsum (seq 0 (a * b)) (fun p => F (p mod a)%nat (p / a)%nat) = lsum (seq 0 b) (fun q => lsum (seq 0 a) (fun r => F r q)).
Proof.
  intros a b F A. induction b as [|b IH].
  - rewrite Nat.mul_0_r. reflexivity.
  - replace (a * S b)%nat with (a * b + a)%nat by lia. rewrite seq_app, lsum_app, IH, lsum_seq_S. f_equal. cbn [plus].
    assert (E : seq (a * b) a = map (fun r => (a * b + r)%nat) (seq 0 a)).
    { assert (Q : forall n k s, seq (s + k) n = map (fun r => (s + r)%nat) (seq k n)).
      { induction n; intros; cbn [seq map]; [reflexivity|]. rewrite <- IHn. f_equal. f_equal. lia. }
      rewrite <- (Q a 0%nat (a * b)%nat). f_equal. lia. }
    rewrite E, lsum_map. apply lsum_ext. intros r I. apply in_seq in I.
    replace ((a * b + r) mod a)%nat with r. replace ((a * b + r) / a)%nat with b; [reflexivity|].
    + symmetry. rewrite Nat.mul_comm, Nat.div_add_l by lia. rewrite Nat.div_small by lia. lia.
    + symmetry. rewrite Nat.mul_comm, Nat.add_comm, Nat.mod_add by lia. apply Nat.mod_small. lia.
Qed.
Lemma grid_pos_sum : forall d (F : gidx -> R), (forall a, (0 < dm_NG d a)%Z) ->
  lsum (seq 0 (Z.to_nat (ngrids d))) (fun p => F (idx_of_pos d p)) =
  lsum (seq 0 (Z.to_nat (dm_NG d X3))) (fun n => lsum (seq 0 (Z.to_nat (dm_NG d X2))) (fun m => lsum (seq 0 (Z.to_nat (dm_NG d X1))) (fun l => F (Gi l m n)))).
Proof.
  intros d F P. unfold ngrids, idx_of_pos. pose proof (P X1). pose proof (P X2). pose proof (P X3).
  rewrite !Z2Nat.inj_mul by nia. rewrite <- Nat.mul_assoc.
  rewrite (lsum_divmod _ _ (fun r q => F (Gi r (q mod Z.to_nat (dm_NG d X2)) (q / Z.to_nat (dm_NG d X2))))) by lia.
  rewrite (lsum_divmod _ _ (fun m n => lsum (seq 0 (Z.to_nat (dm_NG d X1))) (fun r => F (Gi r m n)))) by lia. reflexivity.
Qed.

(** Every Grid, every cell of it: every cell of the Domain once. *)
Lemma grids_sum : forall ng d f, (forall a, (0 < dm_NG d a)%Z) -> (forall a, (dm_NG d a <= dm_Nx d a)%Z) ->
  lsum (seq 0 (Z.to_nat (ngrids d))) (fun p => let g := idx_of_pos d p in
    sumZ (grid_s ng d X3 (gn g)) (grid_e ng d X3 (gn g)) (fun k =>
    sumZ (grid_s ng d X2 (gm g)) (grid_e ng d X2 (gm g)) (fun j =>
    sumZ (grid_s ng d X1 (gl g)) (grid_e ng d X1 (gl g)) (fun i =>
      f (gDisp d X3 (gn g) + (k - grid_s ng d X3 (gn g)))%Z (gDisp d X2 (gm g) + (j - grid_s ng d X2 (gm g)))%Z (gDisp d X1 (gl g) + (i - grid_s ng d X1 (gl g)))%Z)))) =
  sumZ (dm_Disp d X3) (dm_Disp d X3 + dm_Nx d X3 - 1) (fun K =>
  sumZ (dm_Disp d X2) (dm_Disp d X2 + dm_Nx d X2 - 1) (fun J =>
  sumZ (dm_Disp d X1) (dm_Disp d X1 + dm_Nx d X1 - 1) (fun I => f K J I))).
Proof.
  intros ng d f P L. cbv zeta.
  rewrite (grid_pos_sum d (fun g => sumZ (grid_s ng d X3 (gn g)) (grid_e ng d X3 (gn g)) (fun k =>
    sumZ (grid_s ng d X2 (gm g)) (grid_e ng d X2 (gm g)) (fun j =>
    sumZ (grid_s ng d X1 (gl g)) (grid_e ng d X1 (gl g)) (fun i =>
      f (gDisp d X3 (gn g) + (k - grid_s ng d X3 (gn g)))%Z (gDisp d X2 (gm g) + (j - grid_s ng d X2 (gm g)))%Z (gDisp d X1 (gl g) + (i - grid_s ng d X1 (gl g)))%Z))))) by auto.
  cbn [gl gm gn].
  assert (SW : forall l u (A : list nat) (h : nat -> Z -> R), lsum A (fun m => sumZ l u (fun k => h m k)) = sumZ l u (fun k => lsum A (fun m => h m k))).
  { intros l u A h. unfold sumZ. change (fun m => fold_right Rplus 0 (map (fun n => h m (l + Z.of_nat n)%Z) (seq 0 (Z.to_nat (u - l + 1))))) with (fun m => lsum (seq 0 (Z.to_nat (u - l + 1))) (fun n => h m (l + Z.of_nat n)%Z)).
    rewrite lsum_swap. reflexivity. }
  rewrite <- (axis_sum ng d X3) by auto. apply lsum_ext. intros n _.
  rewrite (lsum_ext _ _ _ (fun m => sumZ (grid_s ng d X3 n) (grid_e ng d X3 n) (fun k => lsum (seq 0 (Z.to_nat (dm_NG d X1))) (fun l => 
     sumZ (grid_s ng d X2 m) (grid_e ng d X2 m) (fun j => sumZ (grid_s ng d X1 l) (grid_e ng d X1 l) (fun i =>
      f (gDisp d X3 n + (k - grid_s ng d X3 n))%Z (gDisp d X2 m + (j - grid_s ng d X2 m))%Z (gDisp d X1 l + (i - grid_s ng d X1 l))%Z)))))).
  2:{ intros m _. apply SW. }
  rewrite SW. apply sumZ_ext. intros k _. set (K := (gDisp d X3 n + (k - grid_s ng d X3 n))%Z).
  rewrite <- (axis_sum ng d X2) by auto. apply lsum_ext. intros m _. rewrite SW. apply sumZ_ext. intros j _.
  apply (axis_sum ng d X1 (fun I => f K _ I)); auto.
Qed.
