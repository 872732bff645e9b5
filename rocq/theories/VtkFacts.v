(** * The joined file *)
From Coq Require Import String Ascii NArith ZArith Reals Bool Arith Lia Lra Permutation Sorted List.
From Verif Require Import CStr CStrFacts MeshModel MeshProps PosModel PosProps GasModel SumFacts HistSpec HistMain VtkModel VtkSpec VtkSort VtkRead.
Import ListNotations.
Open Scope nat_scope.

(** Chunks of equal length. *)
Lemma chunk_skip : forall A (f : nat -> list A) L n i r, (forall j, j < n -> length (f j) = L) -> i < n ->
  exists r', skipn (L * i) (flat_map f (seq 0 n) ++ r) = f i ++ r'.
Proof.
  intros A f L n i r H I. replace n with (i + S (n - S i)) by lia. rewrite seq_app, flat_map_app. cbn [seq flat_map plus]. rewrite <- !app_assoc.
  assert (LL : length (flat_map f (seq 0 i)) = L * i).
  { rewrite (flat_map_length_const _ _ _ L), seq_length; [lia|]. intros j J. apply in_seq in J. apply H. lia. }
  rewrite <- LL, skipn_app, skipn_all, Nat.sub_diag. cbn [app skipn]. eauto.
Qed.
Definition cube {A} (c : nat -> nat -> nat -> list A) (nx ny nz : nat) : list A := flat_map (fun k => flat_map (fun j => flat_map (fun i => c k j i) (seq 0 nx)) (seq 0 ny)) (seq 0 nz).
Lemma cube_length : forall A (c : nat -> nat -> nat -> list A) L nx ny nz, (forall k j i, k < nz -> j < ny -> i < nx -> length (c k j i) = L) -> length (cube c nx ny nz) = L * (nz * ny * nx).
Proof.
  intros A c L nx ny nz H. unfold cube. rewrite (flat_map_length_const _ _ _ (ny * (nx * L))), seq_length; [lia|]. intros k K. apply in_seq in K.
  rewrite (flat_map_length_const _ _ _ (nx * L)), seq_length; [lia|]. intros j J. apply in_seq in J.
  rewrite (flat_map_length_const _ _ _ L), seq_length; [lia|]. intros i I. apply in_seq in I. apply H; lia.
Qed.
Lemma cube_cell : forall A (c : nat -> nat -> nat -> list A) L nx ny nz r k j i, (forall k j i, k < nz -> j < ny -> i < nx -> length (c k j i) = L) -> k < nz -> j < ny -> i < nx ->
  firstn L (skipn (L * ((k * ny + j) * nx + i)) (cube c nx ny nz ++ r)) = c k j i.
Proof.
  intros A c L nx ny nz r k j i H K J I. replace (L * ((k * ny + j) * nx + i)) with (L * nx * ny * k + (L * nx * j + L * i)) by nia. rewrite !skipn_plus. unfold cube.
  destruct (chunk_skip _ (fun k => flat_map (fun j => flat_map (fun i => c k j i) (seq 0 nx)) (seq 0 ny)) (L * nx * ny) nz k r) as (r1 & E1); auto.
  { intros k' K'. rewrite (flat_map_length_const _ _ _ (nx * L)), seq_length; [nia|]. intros j' J'. apply in_seq in J'. rewrite (flat_map_length_const _ _ _ L), seq_length; [lia|]. intros i' I'. apply in_seq in I'. apply H; lia. }
  rewrite E1. destruct (chunk_skip _ (fun j => flat_map (fun i => c k j i) (seq 0 nx)) (L * nx) ny j r1) as (r2 & E2); auto.
  { intros j' J'. rewrite (flat_map_length_const _ _ _ L), seq_length; [lia|]. intros i' I'. apply in_seq in I'. apply H; lia. }
  rewrite E2. destruct (chunk_skip _ (fun i => c k j i) L nx i r2) as (r3 & E3); auto.
  rewrite E3. rewrite <- (H k j i K J I). rewrite firstn_app, firstn_all, Nat.sub_diag, firstn_O, app_nil_r. reflexivity.
Qed.
(** The Grids along an axis, cell by cell, are the cells of the Domain. *)
Lemma zr_app : forall l m u, (l <= m)%Z -> (m <= u + 1)%Z -> zr l u = zr l (m - 1) ++ zr m u.
Proof.
  intros l m u A B. unfold zr. replace (Z.to_nat (u - l + 1)) with (Z.to_nat (m - 1 - l + 1) + Z.to_nat (u - m + 1)) by lia.
  rewrite seq_app, map_app. f_equal. cbn [plus]. replace (Z.to_nat (m - 1 - l + 1)) with (Z.to_nat (m - l)) by lia.
  assert (E : forall n s k, seq (s + k) n = map (fun r => s + r) (seq k n)).
  { induction n; intros; cbn [seq map]; [reflexivity|]. f_equal. replace (S (s + k)) with (s + S k) by lia. apply IHn. }
  replace (Z.to_nat (m - l)) with (Z.to_nat (m - l) + 0) by lia. rewrite E, map_map. apply map_ext. intros. lia.
Qed.
Lemma axis_cells : forall A d a (H : Z -> list A), (0 < dm_NG d a)%Z -> (dm_NG d a <= dm_Nx d a)%Z ->
  flat_map (fun g => flat_map (fun i => H (gDisp d a g + Z.of_nat i)%Z) (seq 0 (Z.to_nat (gNx d a g)))) (seq 0 (Z.to_nat (dm_NG d a))) = flat_map H (zr (dm_Disp d a) (last_cell d a)).
Proof.
  intros A d a H P L. unfold last_cell. rewrite <- (gDisp_end d a) by lia.
  assert (G : forall n, flat_map (fun g => flat_map (fun i => H (gDisp d a g + Z.of_nat i)%Z) (seq 0 (Z.to_nat (gNx d a g)))) (seq 0 n) = flat_map H (zr (dm_Disp d a) (gDisp d a n - 1))).
  { induction n as [|n IH].
    - cbn [gDisp seq flat_map]. unfold zr. replace (Z.to_nat (dm_Disp d a - 1 - dm_Disp d a + 1)) with 0 by lia. reflexivity.
    - rewrite seq_S, flat_map_app, IH. cbn [gDisp flat_map plus]. rewrite app_nil_r. pose proof (gNx_pos d a n P L).
      assert (D : (dm_Disp d a <= gDisp d a n)%Z) by (apply (gDisp_mono d a) with (i := O) (j := n); lia).
      rewrite (zr_app (dm_Disp d a) (gDisp d a n) (gDisp d a n + gNx d a n - 1)) by lia. rewrite flat_map_app. f_equal.
      unfold zr. rewrite flat_map_map. replace (gDisp d a n + gNx d a n - 1 - gDisp d a n + 1)%Z with (gNx d a n) by lia. reflexivity. }
  apply G.
Qed.
Lemma flat_map_len : forall A (enc : A -> str) l, (forall x, length (enc x) = 4) -> length (flat_map enc l) = 4 * length l.
Proof. intros A enc l H. rewrite (flat_map_length_const _ _ _ 4); auto. lia. Qed.

Lemma size_nat_bound2 : forall p k, (Z.pos p < 2 ^ Z.of_nat k)%Z -> Pos.size_nat p <= k.
Proof.
  induction p as [p IH|p IH|]; intros k H; destruct k as [|k]; cbn [Pos.size_nat]; try (cbn in H; lia).
  - rewrite Nat2Z.inj_succ, Z.pow_succ_r in H by lia. specialize (IH k). lia.
  - rewrite Nat2Z.inj_succ, Z.pow_succ_r in H by lia. specialize (IH k). lia.
Qed.
Lemma digits_fuel_len : forall f n acc, length (digits_fuel f n acc) <= f + length acc.
Proof. induction f as [|f IH]; intros n acc; cbn [digits_fuel]; [lia|]. destruct (_ <? _)%N; [cbn [length]; lia|]. eapply Nat.le_trans; [apply IH|]. cbn [length]. lia. Qed.
Lemma dec_len : forall n, (Z.of_nat n < 2 ^ 31)%Z -> length (dec_N (N.of_nat n)) <= 32.
Proof.
  intros n H. unfold dec_N. eapply Nat.le_trans; [apply digits_fuel_len|]. cbn [length]. assert (N.size_nat (N.of_nat n) <= 31); [|lia].
  destruct (N.of_nat n) as [|p] eqn:E; [cbn; lia|]. apply size_nat_bound2. assert (Z.of_nat n = Z.pos p) by lia. lia.
Qed.

(** A field of a Grid and the same field of the Domain. *)
Record sim (ng : Z) (d : domain) (g : gidx) (f F : fld) : Prop := Sim {
  sim_vec : f_vec f = f_vec F; sim_name : f_name f = f_name F; sim_word : word (f_name F);
  sim_len : forall K J I, length (f_val F K J I) = if f_vec F then 3 else 1;
  sim_val : forall k j i, gactive ng d g X1 i -> gactive ng d g X2 j -> gactive ng d g X3 k -> f_val f k j i = f_val F (gcell ng d g X3 k) (gcell ng d g X2 j) (gcell ng d g X1 i) }.
Lemma fields_sim : forall c ng d grids S g, (Z.of_nat (vc_ns c) < 2 ^ 31)%Z -> hold ng d grids S -> (forall a, (Z.of_nat (gi_ax g a) < dm_NG d a)%Z) ->
  Forall2 (sim ng d g) (vtk_fields c (grids g)) (vtk_fields c S).
Proof.
  intros c ng d grids S g NS HO V. unfold vtk_fields.
  assert (V' : forall k j i, gactive ng d g X1 i -> gactive ng d g X2 j -> gactive ng d g X3 k ->
    vg_U (grids g) k j i = vg_U S (gcell ng d g X3 k) (gcell ng d g X2 j) (gcell ng d g X1 i) /\ vg_W (grids g) k j i = vg_W S (gcell ng d g X3 k) (gcell ng d g X2 j) (gcell ng d g X1 i) /\
    vg_Phi (grids g) k j i = vg_Phi S (gcell ng d g X3 k) (gcell ng d g X2 j) (gcell ng d g X1 i) /\ vg_par (grids g) k j i = vg_par S (gcell ng d g X3 k) (gcell ng d g X2 j) (gcell ng d g X1 i)) by (intros; apply HO; auto).
  Ltac one V' := split; cbn [f_vec f_name f_val];
    [reflexivity|reflexivity|try match goal with |- context [if ?b then _ else _] => destruct b end; apply word_lit; reflexivity
    |intros; try match goal with |- context [snd ?x] => destruct (snd x) as [[? ?] ?] end; try match goal with |- context [if ?b then _ else _] => destruct b end; reflexivity
    |intros k j i A B C; destruct (V' k j i A B C) as (E1 & E2 & E3 & E4); rewrite ?E1, ?E2, ?E3, ?E4; reflexivity].
  repeat apply Forall2_app.
  - constructor; [one V'|constructor; [one V'|constructor]].
  - destruct (vc_adb c); [constructor; [one V'|constructor]|constructor].
  - destruct (vc_mhd c); [constructor; [one V'|constructor]|constructor].
  - destruct (vc_selfg c); [constructor; [one V'|constructor]|constructor].
  - destruct (vc_par c); [constructor; [one V'|constructor; [one V'|constructor]]|constructor].
  - assert (G : forall l, (forall n, In n l -> n < vc_ns c) -> Forall2 (sim ng d g)
      (map (fun n => Fld false ((if vc_prim c then S_ "specific_scalar[" else S_ "scalar[") ++ dec_N (N.of_nat n) ++ S_ "]") (fun k j i => [nth n (if vc_prim c then pr (vg_W (grids g) k j i) else cs (vg_U (grids g) k j i)) 0%R])) l)
      (map (fun n => Fld false ((if vc_prim c then S_ "specific_scalar[" else S_ "scalar[") ++ dec_N (N.of_nat n) ++ S_ "]") (fun k j i => [nth n (if vc_prim c then pr (vg_W S k j i) else cs (vg_U S k j i)) 0%R])) l)).
    { induction l as [|n l IH]; intros B; [constructor|]. cbn [map]. constructor; [|apply IH; intros; apply B; right; auto].
      split; cbn [f_vec f_name f_val]; [reflexivity|reflexivity| |reflexivity|].
      2:{ intros k j i A' B' C'. destruct (V' k j i A' B' C') as (E1 & E2 & E3 & E4). rewrite ?E1, ?E2. reflexivity. }
      assert (NB := B n (or_introl eq_refl)). assert (DL := dec_len n ltac:(lia)).
      assert (W : forall s, length s <= 16 -> (forall x, In x s -> isspace x = false) -> s <> [] -> word (s ++ dec_N (N.of_nat n) ++ S_ "]")).
      { intros s L SP NE. split; [destruct s; [congruence|discriminate]|]. split; [rewrite !app_length; change (length (S_ "]")) with 1; lia|].
        intros x X. apply in_app_iff in X. destruct X as [X|X]; [auto|]. apply in_app_iff in X. destruct X as [X|[<-|[]]]; [|reflexivity].
        apply digit_not_space. assert (D := dec_N_digits (N.of_nat n)). rewrite Forall_forall in D. auto. }
      destruct (vc_prim c).
      - apply W; [apply Nat.leb_le; reflexivity| |discriminate]. apply (word_lit (S_ "specific_scalar[")). reflexivity.
      - apply W; [apply Nat.leb_le; reflexivity| |discriminate]. apply (word_lit (S_ "scalar[")). reflexivity. }
    apply G. intros n I. apply in_seq in I. lia.
Qed.
