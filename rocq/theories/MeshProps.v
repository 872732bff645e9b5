(** * C23-C29: the mesh *)
From Coq Require Import ZArith List Bool Arith Lia Permutation.
From Verif Require Import CStr MeshModel.
Import ListNotations.
Open Scope Z_scope.

(** ** Specification *)
Definition in_box (l r : vec) (c : vec) : Prop := forall a, l a <= c a < r a.
(** Cells of a Domain, in the coordinates of its own level. *)
Definition in_domain (d : domain) (c : vec) : Prop := forall a, dm_Disp d a <= c a < dm_Disp d a + dm_Nx d a.
Definition valid_grid (d : domain) (g : gidx) : Prop := forall a, Z.of_nat (gi_ax g a) < dm_NG d a.
Definition in_grid (d : domain) (g : gidx) (c : vec) : Prop :=
  forall a, gDisp d a (gi_ax g a) <= c a < gDisp d a (gi_ax g a) + gNx d a (gi_ax g a).
Definition domains (M : mesh) : list domain := concat (ms_levels M).

(** ** Small facts *)
Lemma all3_iff : forall f, all3 f = true <-> forall a, f a = true.
Proof.
  intros f. unfold all3. split.
  - intros H a. apply andb_true_iff in H. destruct H as [H H3]. apply andb_true_iff in H. destruct H, a; auto.
  - intros H. rewrite !H. reflexivity.
Qed.
Lemma all3_false : forall f, all3 f = false <-> exists a, f a = false.
Proof.
  intros f. unfold all3. split.
  - intros H. destruct (f X1) eqn:E1; [|eauto]. destruct (f X2) eqn:E2; [|eauto]. destruct (f X3) eqn:E3; [discriminate|eauto].
  - intros [a H]. destruct a; rewrite H; repeat rewrite ?andb_false_r, ?andb_false_l; reflexivity.
Qed.
Lemma bind_ok : forall A B (x : res A) (f : A -> res B) b, bind x f = Ok b -> exists a, x = Ok a /\ f a = Ok b.
Proof. intros A B [a| |] f b H; try discriminate. eauto. Qed.

(** ** Division of an axis into Grids *)
Lemma gNx_nonneg : forall d a i, 0 <= dm_Nx d a -> 0 < dm_NG d a -> 0 <= gNx d a i.
Proof.
  intros. unfold gNx. assert (0 <= Z.quot (dm_Nx d a) (dm_NG d a)) by (apply Z.quot_pos; lia). destruct (_ <? _); lia.
Qed.
Lemma gDisp_eq : forall d a, 0 <= dm_Nx d a -> 0 < dm_NG d a -> forall i,
  gDisp d a i = dm_Disp d a + Z.of_nat i * Z.quot (dm_Nx d a) (dm_NG d a) + Z.min (Z.of_nat i) (Z.rem (dm_Nx d a) (dm_NG d a)).
Proof.
  intros d a N G. assert (R := Z.rem_bound_pos (dm_Nx d a) (dm_NG d a) N G).
  induction i as [|i IH]; [simpl; lia|].
  cbn [gDisp]. rewrite IH. unfold gNx. destruct (Z.of_nat i <? Z.rem (dm_Nx d a) (dm_NG d a)) eqn:E; lia.
Qed.
Lemma gDisp_end : forall d a, 0 <= dm_Nx d a -> 0 < dm_NG d a ->
  gDisp d a (Z.to_nat (dm_NG d a)) = dm_Disp d a + dm_Nx d a.
Proof.
  intros d a N G. rewrite gDisp_eq by auto. rewrite Z2Nat.id by lia.
  assert (R := Z.rem_bound_pos (dm_Nx d a) (dm_NG d a) N G).
  assert (Q := Z.quot_rem' (dm_Nx d a) (dm_NG d a)). lia.
Qed.
Lemma gDisp_mono : forall d a, 0 <= dm_Nx d a -> 0 < dm_NG d a -> forall i j, (i <= j)%nat -> gDisp d a i <= gDisp d a j.
Proof.
  intros d a N G i j H. induction H; [lia|]. cbn [gDisp]. assert (X := gNx_nonneg d a m N G). lia.
Qed.
Lemma step_find : forall f (n : nat) c, (forall i, f i <= f (S i)) -> f O <= c < f n ->
  exists i, (i < n)%nat /\ f i <= c < f (S i).
Proof.
  intros f n c M. induction n as [|n IH]; intros H; [lia|].
  destruct (Z_lt_le_dec c (f n)) as [L|L].
  - destruct IH as (i & I & F); [lia|]. exists i. split; [lia|auto].
  - exists n. split; [lia|lia].
Qed.
Lemma axis_tiles : forall d a c, 0 <= dm_Nx d a -> 0 < dm_NG d a ->
  (dm_Disp d a <= c < dm_Disp d a + dm_Nx d a <->
   exists i, Z.of_nat i < dm_NG d a /\ gDisp d a i <= c < gDisp d a i + gNx d a i).
Proof.
  intros d a c N G. split.
  - intros H. destruct (step_find (gDisp d a) (Z.to_nat (dm_NG d a)) c) as (i & I & F).
    + intros i. apply gDisp_mono; auto.
    + rewrite gDisp_end by auto. exact H.
    + exists i. cbn [gDisp] in F. split; [lia|lia].
  - intros (i & I & F). assert (A := gDisp_mono d a N G 0 i ltac:(lia)). cbn [gDisp] in A.
    assert (B := gDisp_mono d a N G (S i) (Z.to_nat (dm_NG d a)) ltac:(lia)). rewrite gDisp_end in B by auto. cbn [gDisp] in B. lia.
Qed.
Lemma axis_unique : forall d a c i j, 0 <= dm_Nx d a -> 0 < dm_NG d a ->
  gDisp d a i <= c < gDisp d a i + gNx d a i -> gDisp d a j <= c < gDisp d a j + gNx d a j -> i = j.
Proof.
  intros d a c i j N G I J.
  destruct (Nat.lt_trichotomy i j) as [L|[L|L]]; auto.
  - assert (X := gDisp_mono d a N G (S i) j ltac:(lia)). cbn [gDisp] in X. lia.
  - assert (X := gDisp_mono d a N G (S j) i ltac:(lia)). cbn [gDisp] in X. lia.
Qed.

(** ** Automatic decomposition *)
Definition fits2 (Nx Ny Np x y : Z) : Prop := x * y = Np /\ 1 <= x <= Nx /\ 1 <= y <= Ny.
Definition fits3 (Nx Ny Nz Np x y z : Z) : Prop := x * y * z = Np /\ 1 <= x <= Nx /\ 1 <= y <= Ny /\ 1 <= z <= Nz.

Lemma down_some : forall Np n rx r, down Np rx n = Some r -> rx - Z.of_nat n < r <= rx /\ Z.rem Np r = 0.
Proof.
  intros Np. induction n as [|n IH]; intros rx r H; [discriminate|]. cbn [down] in H.
  destruct (Z.eqb_spec (Z.rem Np rx) 0) as [E|E]; [injection H as <-; lia|]. apply IH in H. lia.
Qed.
Lemma down_none : forall Np n rx, down Np rx n = None -> forall r, rx - Z.of_nat n < r <= rx -> Z.rem Np r <> 0.
Proof.
  intros Np. induction n as [|n IH]; intros rx H r R; [lia|]. cbn [down] in H.
  destruct (Z.eqb_spec (Z.rem Np rx) 0) as [E|E]; [discriminate|]. destruct (Z.eq_dec r rx) as [->|D]; auto. apply (IH _ H). lia.
Qed.
Lemma up_some : forall Np n rx r, up Np rx n = Some r -> rx <= r < rx + Z.of_nat n /\ Z.rem Np r = 0.
Proof.
  intros Np. induction n as [|n IH]; intros rx r H; [discriminate|]. cbn [up] in H.
  destruct (Z.eqb_spec (Z.rem Np rx) 0) as [E|E]; [injection H as <-; lia|]. apply IH in H. lia.
Qed.
Lemma up_none : forall Np n rx, up Np rx n = None -> forall r, rx <= r < rx + Z.of_nat n -> Z.rem Np r <> 0.
Proof.
  intros Np. induction n as [|n IH]; intros rx H r R; [lia|]. cbn [up] in H.
  destruct (Z.eqb_spec (Z.rem Np rx) 0) as [E|E]; [discriminate|]. destruct (Z.eq_dec r rx) as [->|D]; auto. apply (IH _ H). lia.
Qed.
Lemma rx_lower_spec : forall Np t r, 0 < t -> 0 < Np -> 0 < r -> (rx_lower Np t <= r <-> Np <= r * t).
Proof.
  intros Np t r T P R. unfold rx_lower. assert (Q := Z.quot_rem' Np t). assert (B := Z.rem_bound_pos Np t ltac:(lia) T).
  set (q := Z.quot Np t) in *. set (m := Z.rem Np t) in *.
  destruct (Z.ltb_spec t Np); [|nia].
  destruct (Z.gtb_spec m 0); split; intros; nia.
Qed.
Lemma rx_lower_pos : forall Np t, 0 < t -> 0 < Np -> 1 <= rx_lower Np t.
Proof.
  intros Np t T P. unfold rx_lower. destruct (Z.ltb_spec t Np); [|lia].
  assert (Z.quot Np t >= 1) by (apply Z.le_ge; apply Z.quot_le_lower_bound; lia). destruct (_ >? _); lia.
Qed.
Lemma factor : forall Np r, 0 < r -> 0 < Np -> Z.rem Np r = 0 -> r * Z.quot Np r = Np /\ 1 <= Z.quot Np r.
Proof. intros Np r R P E. assert (Q := Z.quot_rem' Np r). rewrite E in Q. split; nia. Qed.
Lemma factor_fits : forall Nx Ny Np r, 0 < Ny -> 0 < Np -> rx_lower Np Ny <= r <= (if Nx <? Np then Nx else Np) ->
  Z.rem Np r = 0 -> fits2 Nx Ny Np r (Z.quot Np r).
Proof.
  intros Nx Ny Np r Y P R E. assert (L := rx_lower_pos Np Ny Y P).
  destruct (factor Np r ltac:(lia) P E) as [F Q].
  assert (S := proj1 (rx_lower_spec Np Ny r Y P ltac:(lia)) (proj1 R)).
  unfold fits2. split; auto. destruct (Z.ltb_spec Nx Np); split; try lia; nia.
Qed.
Lemma fits_factor : forall Nx Ny Np x y, 0 < Np -> fits2 Nx Ny Np x y ->
  rx_lower Np Ny <= x <= (if Nx <? Np then Nx else Np) /\ Z.rem Np x = 0.
Proof.
  intros Nx Ny Np x y P (E & X & Y). split.
  - split; [apply rx_lower_spec; nia|]. destruct (Z.ltb_spec Nx Np); [lia|nia].
  - rewrite <- E, Z.mul_comm. apply Z.rem_mul. lia.
Qed.
Lemma decomp_2d : forall ng rxs0 Nx Ny Np r, 0 < Nx -> 0 < Ny -> 0 < Np -> dom_decomp_2d ng rxs0 Nx Ny Np = Ok r ->
  match r with
  | Some (x, y) => fits2 Nx Ny Np x y
  | None => forall x y, ~ fits2 Nx Ny Np x y
  end.
Proof.
  intros ng rxs0 Nx Ny Np r HX HY HP H. unfold dom_decomp_2d in H. cbv zeta in H.
  set (mx := if Nx <? Np then Nx else Np) in *. set (mn := rx_lower Np Ny) in *.
  set (s0 := if rxs0 >? mn then rxs0 else mn) in *. set (s := if s0 <? mx then s0 else mx) in *.
  assert (S0 : mn <= s0) by (unfold s0; destruct (Z.gtb_spec rxs0 mn); lia).
  assert (S1 : s <= mx) by (unfold s; destruct (Z.ltb_spec s0 mx); lia).
  assert (S2 : mn <= s \/ s = mx /\ mx < mn) by (unfold s; destruct (Z.ltb_spec s0 mx); lia).
  apply bind_ok in H. destruct H as (s1 & E1 & H). apply bind_ok in H. destruct H as (s2 & E2 & H). injection H as <-.
  assert (D1 : match s1 with Some (x, y, _) => fits2 Nx Ny Np x y | None => forall q, mn <= q <= s -> Z.rem Np q <> 0 end).
  { destruct (down Np s (Z.to_nat (s - mn + 1))) as [rx|] eqn:D.
    - apply bind_ok in E1. destruct E1 as (I & _ & E1). injection E1 as <-. apply down_some in D.
      apply factor_fits; auto; [fold mn mx; lia|tauto].
    - injection E1 as <-. intros q Q. apply (down_none _ _ _ D). lia. }
  assert (D2 : match s2 with Some (x, y, _) => fits2 Nx Ny Np x y | None => s1 = None /\ forall q, s < q <= mx -> Z.rem Np q <> 0 end).
  { destruct (up Np (s + 1) (Z.to_nat (mx - s))) as [rx|] eqn:U.
    - apply bind_ok in E2. destruct E2 as (I & _ & E2). apply up_some in U.
      assert (F : fits2 Nx Ny Np rx (Z.quot Np rx)) by (apply factor_fits; auto; [fold mn mx; lia|tauto]).
      destruct s1 as [[[x y] I0]|]; [destruct (I <? I0); injection E2 as <-; auto|injection E2 as <-; auto].
    - injection E2 as <-. destruct s1 as [[[x y] I0]|]; [auto|]. split; auto. intros q Q. apply (up_none _ _ _ U). lia. }
  destruct s2 as [[[x y] I]|]; auto. destruct D2 as [-> D2]. intros x y F. apply fits_factor in F; auto.
  destruct F as [F1 F2]. fold mn mx in F1. destruct (Z_le_gt_dec x s); [apply (D1 x); auto; lia|apply (D2 x); auto; lia].
Qed.
Lemma chk_ok : forall x y, chk x = Ok y -> x = y /\ INT_MIN <= x <= INT_MAX.
Proof.
  intros x y H. unfold chk in H. destruct (_ && _) eqn:E; [|discriminate]. injection H as <-.
  apply andb_true_iff in E. destruct E as [E1 E2]. apply Z.leb_le in E1, E2. auto.
Qed.
Lemma cost3_nonneg : forall ng Nx Ny Nz rx ry rz, 0 <= ng -> 1 <= rx -> 1 <= ry -> 1 <= rz -> 0 <= Nx -> 0 <= Ny -> 0 <= Nz ->
  0 <= cost3 ng Nx Ny Nz rx ry rz.
Proof.
  intros. unfold cost3.
  assert (0 <= (rx - 1) * Ny * Nz) by (repeat apply Z.mul_nonneg_nonneg; lia).
  assert (0 <= (ry - 1) * (Nx + 2 * ng * rx) * Nz) by (repeat apply Z.mul_nonneg_nonneg; nia).
  assert (0 <= (rz - 1) * (Nx + 2 * ng * rx) * (Ny + 2 * ng * ry)) by (repeat apply Z.mul_nonneg_nonneg; nia).
  lia.
Qed.
Lemma loop3_spec : forall ng ideal Nx Ny Nz Np, 0 <= ng -> 0 < Nx -> 0 < Ny -> 0 < Nz -> 0 < Np ->
  forall n rx best r, 1 <= rx -> rx + Z.of_nat n - 1 <= (if Nx <? Np then Nx else Np) \/ n = O ->
  decomp3_loop ng ideal Nx Ny Nz Np rx n best = Ok r ->
  (match best with Some (x, y, z, _) => fits3 Nx Ny Nz Np x y z | None => True end) ->
  match r with
  | Some (x, y, z, _) => fits3 Nx Ny Nz Np x y z
  | None => best = None /\ forall x y z, rx <= x < rx + Z.of_nat n -> ~ fits3 Nx Ny Nz Np x y z
  end.
Proof.
  intros ng ideal Nx Ny Nz Np HG HX HY HZ HP. induction n as [|n IH]; intros rx best r RX B H HB.
  - cbn [decomp3_loop] in H. injection H as <-. destruct best as [[[[x y] z] I]|]; [auto|split; auto; intros; lia].
  - cbn [decomp3_loop] in H. apply bind_ok in H. destruct H as (best' & E & H).
    assert (BB : rx + Z.of_nat (S n) - 1 <= (if Nx <? Np then Nx else Np)) by (destruct B; [auto|discriminate]).
    assert (RXN : rx <= Nx /\ rx <= Np) by (destruct (Z.ltb_spec Nx Np); lia).
    assert (K : match best' with Some (x, y, z, _) => fits3 Nx Ny Nz Np x y z | None => best = None /\ forall y z, ~ fits3 Nx Ny Nz Np rx y z end).
    { destruct (Z.eqb_spec (Z.rem Np rx) 0) as [D|D].
      - destruct (factor Np rx ltac:(lia) HP D) as [F Q]. apply bind_ok in E. destruct E as (q & E2 & E).
        apply decomp_2d in E2; try lia. destruct q as [[ry rz]|].
        + apply bind_ok in E. destruct E as (I & C & E). apply chk_ok in C. destruct C as [<- _].
          destruct E2 as (P2 & Y2 & Z2).
          assert (N3 := cost3_nonneg ng Nx Ny Nz rx ry rz HG ltac:(lia) ltac:(lia) ltac:(lia) ltac:(lia) ltac:(lia) ltac:(lia)).
          destruct (Z.ltb_spec (cost3 ng Nx Ny Nz rx ry rz) 0); [lia|].
          assert (G : fits3 Nx Ny Nz Np rx ry rz) by (unfold fits3; rewrite <- Z.mul_assoc, P2; repeat split; auto; lia).
          destruct best as [[[[x y] z] I0]|]; [destruct (_ <? I0); injection E as <-; auto|injection E as <-; auto].
        + injection E as <-. destruct best as [[[[x y] z] I0]|]; [auto|]. split; auto.
          intros y z (P3 & _ & Y3 & Z3). apply (E2 y z). split; [|auto]. nia.
      - injection E as <-. destruct best as [[[[x y] z] I0]|]; [auto|]. split; auto.
        intros y z (P3 & _ & _ & _). apply D. rewrite <- P3, <- Z.mul_assoc, Z.mul_comm. apply Z.rem_mul. lia. }
    assert (K2 : match best' with Some (x, y, z, _) => fits3 Nx Ny Nz Np x y z | None => True end) by (destruct best' as [[[[? ?] ?] ?]|]; auto).
    specialize (IH (rx + 1) best' r ltac:(lia) ltac:(lia) H K2).
    destruct r as [[[[x y] z] I]|]; [auto|]. destruct IH as [-> IH]. destruct K as [K0 K]. split; auto.
    intros x y z R. destruct (Z.eq_dec x rx) as [->|N]; [apply K|apply IH; lia].
Qed.
(** When it succeeds the result uses exactly the requested number of processes with at
    least one cell per Grid; it fails only if that is impossible. *)
Theorem C24_decomposition : forall ng ideal Nx Ny Nz Np r, 0 <= ng -> 1 <= Nx -> 1 <= Ny -> 1 <= Nz -> 1 <= Np ->
  (Ny = 1 -> Nz = 1) -> 1 < Nx ->
  dom_decomp ng ideal Nx Ny Nz Np = Ok r ->
  match r with
  | Some (x, y, z) => x * y * z = Np /\ 1 <= x <= Nx /\ 1 <= y <= Ny /\ 1 <= z <= Nz
  | None => forall x y z, ~ (x * y * z = Np /\ 1 <= x <= Nx /\ 1 <= y <= Ny /\ 1 <= z <= Nz)
  end.
Proof.
  intros ng ideal Nx Ny Nz Np r G HX HY HZ HP D1 D2 H. unfold dom_decomp in H.
  destruct (Z.gtb_spec Nx 1); [|lia]. cbn [andb] in H.
  destruct (Z.eqb_spec Ny 1) as [EY|EY].
  - rewrite (D1 EY) in *. subst Ny. cbn [andb Z.eqb Pos.eqb] in H. destruct (Z.gtb_spec Np Nx); injection H as <-; [|lia]. intros x y z (F1 & F2 & F3 & F4).
    assert (y = 1) by lia. assert (z = 1) by lia. subst. lia.
  - destruct (Z.gtb_spec Ny 1); [|lia]. cbn [andb] in H. destruct (Z.eqb_spec Nz 1) as [EZ|EZ]; cbn [andb] in H.
    + subst Nz. apply bind_ok in H. destruct H as (q & E & H). injection H as <-. apply decomp_2d in E; try lia.
      destruct q as [[x y]|]; [destruct E as (? & ? & ?); lia|]. intros x y z (A & B & C & D). apply (E x y). unfold fits2. split; [nia|lia].
    + destruct (Z.gtb_spec Nz 1); [|lia]. unfold dom_decomp_3d in H. cbv zeta in H.
      apply bind_ok in H. destruct H as (t & C & H). apply chk_ok in C. destruct C as [<- _].
      set (ty := if Ny <? Np then Ny else Np) in *. set (tz := if Nz <? Np then Nz else Np) in *.
      assert (TY : 1 <= ty <= Ny) by (unfold ty; destruct (Z.ltb_spec Ny Np); lia).
      assert (TZ : 1 <= tz <= Nz) by (unfold tz; destruct (Z.ltb_spec Nz Np); lia).
      assert (TP : 0 < ty * tz) by nia.
      set (mn := rx_lower Np (ty * tz)) in *. assert (MN := rx_lower_pos Np (ty * tz) TP ltac:(lia)). fold mn in MN.
      apply bind_ok in H. destruct H as (q & E & H). injection H as <-.
      apply loop3_spec in E; try lia.
      destruct q as [[[[x y] z] I]|]; [exact E|]. destruct E as [_ E]. intros x y z (A & B & C & D).
      apply (E x y z); [|unfold fits3; auto].
      assert (L : mn <= x).
      { apply rx_lower_spec; try lia.
        assert (YP : y <= Np) by (assert (1 <= x * z) by nia; nia).
        assert (ZP : z <= Np) by (assert (1 <= x * y) by nia; nia).
        assert (y <= ty) by (unfold ty; destruct (Z.ltb_spec Ny Np); lia).
        assert (z <= tz) by (unfold tz; destruct (Z.ltb_spec Nz Np); lia).
        assert (y * z <= ty * tz) by nia. nia. }
      assert (XP : x <= Np) by (assert (1 <= y * z) by nia; nia).
      assert (U : x <= (if Nx <? Np then Nx else Np)) by (destruct (Z.ltb_spec Nx Np); lia).
      lia.
Qed.
Print Assumptions C24_decomposition.
Example C24_example : exists r, dom_decomp 4 (fun _ _ _ => 3) 64 64 32 24 = Ok (Some r) /\ r <> (24, 1, 1).
Proof. eexists. split; [vm_compute; reflexivity|discriminate]. Qed.

(** ** What an accepted mesh satisfies *)
Definition wf_dom (root : vec) (nDim : nat) (d : domain) : Prop :=
  (forall a, 1 <= dm_Nx d a) /\
  (forall a, In a (axes nDim) <-> 1 < dm_Nx d a) /\
  (forall a, In a (axes nDim) <-> 1 < root a) /\
  (forall a, 1 <= root a) /\
  (forall a, ~ In a (axes nDim) -> dm_Disp d a = 0) /\
  (forall a, In a (axes nDim) -> Z.rem (dm_Nx d a) (irefine (dm_level d)) = 0 /\ Z.rem (dm_Disp d a) (irefine (dm_level d)) = 0) /\
  (dm_level d = O -> forall a, dm_Disp d a = 0).
Lemma dims_shape : forall nDim v, count_dims v = nDim -> dims_ok nDim v = true -> (nDim <> 0)%nat ->
  (forall a, 1 <= v a) /\ (forall a, In a (axes nDim) <-> 1 < v a) /\ (v X2 = 1 -> v X3 = 1) /\ 1 < v X1.
Proof.
  intros nDim v C D N. unfold dims_ok in D. apply andb_true_iff in D. destruct D as [D D3]. apply andb_true_iff in D. destruct D as [D1 D2].
  rewrite all3_iff in D1. assert (P : forall a, 1 <= v a) by (intros a; specialize (D1 a); apply negb_true_iff, Z.ltb_ge in D1; auto).
  assert (P1 := P X1). assert (P2 := P X2). assert (P3 := P X3).
  unfold count_dims in C. cbn [filter] in C.
  destruct (Z.ltb_spec 1 (v X1)), (Z.ltb_spec 1 (v X2)), (Z.ltb_spec 1 (v X3)); cbn [length] in C; subst nDim; cbn in D2, D3;
    repeat match type of D2 with negb (?x =? ?y) = true => destruct (Z.eqb_spec x y); [discriminate D2|] end;
    repeat match type of D3 with negb (?x <? ?y) = true => destruct (Z.ltb_spec x y); [discriminate D3|] end;
    try congruence; try lia;
    (split; [auto|]; split; [|split; lia]);
    intros []; unfold axes; cbn [firstn In]; split; intros; try lia; try tauto;
    repeat match goal with H : _ \/ _ |- _ => destruct H | H : False |- _ => contradiction end; try discriminate; auto.
Qed.
Lemma make_domain_wf : forall root nDim nb b d, make_domain root nDim nb b = Ok d ->
  count_dims root = nDim -> dims_ok nDim root = true -> (nDim <> 0)%nat ->
  wf_dom root nDim d /\ dm_level d = Z.to_nat (b_level b) /\ 0 <= b_level b /\ dm_Nx d = b_Nx b /\ dm_NG d = b_NGrid b /\ dm_block d = nb /\ dm_ids d = [].
Proof.
  intros root nDim nb b d H CR DR NZ. unfold make_domain in H.
  destruct (Z.ltb_spec (b_level b) 0); [discriminate|]. cbv zeta in H.
  destruct (Nat.eqb_spec (count_dims (b_Nx b)) nDim) as [C|]; [|discriminate]. cbn [negb] in H.
  destruct (dims_ok nDim (b_Nx b)) eqn:D; [|discriminate]. cbn [negb] in H.
  destruct (forallb _ (axes nDim)) eqn:F1 in H; [|discriminate]. cbn [negb] in H.
  destruct (forallb _ (axes nDim)) eqn:F2 in H; [|discriminate]. cbn [negb] in H.
  injection H as <-. cbn [dm_level dm_Nx dm_Disp dm_NG dm_block dm_ids].
  destruct (dims_shape nDim (b_Nx b) C D NZ) as (S1 & S2 & S3 & S4).
  destruct (dims_shape nDim root CR DR NZ) as (R1 & R2 & R3 & R4).
  rewrite forallb_forall in F1, F2.
  split; [|repeat split; auto]. unfold wf_dom. cbn [dm_level dm_Nx dm_Disp].
  repeat split; auto; try apply S2; try apply R2; auto.
  - intros a NA. destruct (_ =? 0)%nat; auto. destruct a.
    + exfalso. apply NA. apply R2. auto.
    + destruct (Z.ltb_spec 1 (root X2)); auto. exfalso. apply NA, R2. auto.
    + destruct (Z.ltb_spec 1 (root X3)); auto. exfalso. apply NA, R2. auto.
  - specialize (F1 a H). apply Z.eqb_eq in F1. auto.
  - specialize (F2 a H). apply Z.eqb_eq in F2. auto.
  - intros E a. rewrite E. reflexivity.
Qed.
Lemma make_domains_wf : forall root nDim, count_dims root = nDim -> dims_ok nDim root = true -> (nDim <> 0)%nat ->
  forall bs nb ds, make_domains root nDim nb bs = Ok ds -> forall d, In d ds ->
  wf_dom root nDim d /\ dm_ids d = [].
Proof.
  intros root nDim C D N. induction bs as [|b bs IH]; intros nb ds H d I.
  - injection H as <-. contradiction.
  - cbn [make_domains] in H. apply bind_ok in H. destruct H as (d0 & E & H). apply bind_ok in H. destruct H as (ds0 & E2 & H). injection H as <-.
    destruct I as [<-|I]; [|eapply IH; eauto]. apply make_domain_wf in E; auto. tauto.
Qed.

Lemma layout_pos : forall ng ideal au d v, 0 <= ng -> layout ng ideal au d = Ok v ->
  (forall a, 1 <= dm_Nx d a) -> (dm_Nx d X2 = 1 -> dm_Nx d X3 = 1) -> 1 < dm_Nx d X1 ->
  (forall a, 0 < v a) /\ (0 < au -> forall a, v a <= dm_Nx d a).
Proof.
  intros ng ideal au d v G H N N23 N1. unfold layout in H. destruct (Z.eqb_spec au 0) as [->|NZ].
  - destruct (negb _) eqn:E in H; [discriminate|]. destruct (all3 (fun a => 0 <? dm_NG d a)) eqn:E2; [|discriminate]. injection H as <-.
    split; [|lia]. rewrite all3_iff in E2. intros a. specialize (E2 a). apply Z.ltb_lt in E2. auto.
  - destruct (Z.gtb_spec au 0); [|discriminate]. apply bind_ok in H. destruct H as (r & E & H).
    apply C24_decomposition in E; auto; try lia. destruct r as [[[x y] z]|]; [|discriminate]. injection H as <-.
    destruct E as (_ & E1 & E2 & E3). split; [|intros _]; intros []; cbn; lia.
Qed.
Lemma assign_length : forall P n next, length (fst (assign P next n)) = n.
Proof. intros P. induction n as [|n IH]; intros next; cbn; auto. specialize (IH (if next + 1 >? P - 1 then 0 else next + 1)). destruct (assign P _ n). cbn in *. auto. Qed.
Lemma assign_spec : forall P n next, 0 < P -> 0 <= next < P ->
  fst (assign P next n) = map (fun k => (next + Z.of_nat k) mod P) (seq 0 n) /\ snd (assign P next n) = (next + Z.of_nat n) mod P.
Proof.
  intros P n. induction n as [|n IH]; intros next HP HN.
  - cbn. split; auto. rewrite Z.add_0_r, Z.mod_small; auto.
  - cbn [assign]. set (nx := if next + 1 >? P - 1 then 0 else next + 1).
    assert (E : nx = (next + 1) mod P).
    { unfold nx. destruct (Z.gtb_spec (next + 1) (P - 1)).
      - replace (next + 1) with P by lia. rewrite Z.mod_same; lia.
      - rewrite Z.mod_small; lia. }
    assert (HX : 0 <= nx < P) by (rewrite E; apply Z.mod_pos_bound; auto).
    destruct (IH nx HP HX) as [I1 I2]. destruct (assign P nx n) as [l e]. cbn [fst snd] in *. split.
    + cbn [seq map]. f_equal; [rewrite Z.add_0_r, Z.mod_small; auto|]. rewrite I1, <- seq_shift, map_map.
      apply map_ext. intros k. rewrite E, Z.add_mod_idemp_l by lia. f_equal. lia.
    + rewrite I2, E, Z.add_mod_idemp_l by lia. f_equal. lia.
Qed.
(** What splitting does to one Domain. *)
Definition split_of (P next : Z) (d d' : domain) (au : Z) : Prop :=
  dm_block d' = dm_block d /\ dm_level d' = dm_level d /\ dm_Nx d' = dm_Nx d /\ dm_Disp d' = dm_Disp d /\
  (forall a, 0 < dm_NG d' a) /\ (0 < au -> forall a, dm_NG d' a <= dm_Nx d' a) /\
  (forall a, 1 < dm_NG d' a -> 1 < dm_Nx d' a) /\ ngrids d' <= P /\
  dm_ids d' = map (fun k => (next + Z.of_nat k) mod P) (seq 0 (Z.to_nat (ngrids d'))).
Definition wf_shape (d : domain) : Prop :=
  (forall a, 1 <= dm_Nx d a) /\ (dm_Nx d X2 = 1 -> dm_Nx d X3 = 1) /\ 1 < dm_Nx d X1.
Lemma split_domain_spec : forall ng ideal P next autos d d' next', 0 <= ng -> 0 < P -> 0 <= next < P -> wf_shape d ->
  split_domain ng ideal P next autos d = Ok (d', next') ->
  split_of P next d d' (autos (dm_block d)) /\ next' = (next + Z.of_nat (length (dm_ids d'))) mod P /\ 0 < ngrids d'.
Proof.
  intros ng ideal P next autos d d' next' G HP HN (W1 & W2 & W3) H. unfold split_domain in H.
  apply bind_ok in H. destruct H as (v & L & H). apply layout_pos in L; auto. destruct L as [L1 L2]. cbv zeta in H.
  destruct (all3 _) eqn:A in H; [|discriminate]. cbn [negb] in H.
  set (d1 := Dom (dm_block d) (dm_level d) (dm_Nx d) (dm_Disp d) v (dm_ids d)) in *.
  destruct (Z.gtb_spec (ngrids d1) P); [discriminate|].
  destruct (assign_spec P (Z.to_nat (ngrids d1)) next HP HN) as [A1 A2].
  destruct (assign P next (Z.to_nat (ngrids d1))) as [ids nx]. cbn [fst snd] in *. injection H as <- <-.
  assert (NG : 0 < ngrids d1).
  { unfold ngrids, d1. cbn [dm_NG]. assert (Y1 := L1 X1). assert (Y2 := L1 X2). assert (Y3 := L1 X3). nia. }
  split; [|split].
  - unfold split_of. cbn [dm_block dm_level dm_Nx dm_Disp dm_NG dm_ids]. repeat split; auto.
    intros a X. rewrite all3_iff in A. specialize (A a). apply negb_true_iff, andb_false_iff in A.
    destruct A as [A|A]; [apply Z.ltb_ge in A; lia|apply Z.leb_gt in A; auto].
  - cbn [dm_ids]. rewrite A1, map_length, seq_length, A2. reflexivity.
  - exact NG.
Qed.
(** The Grids of a list of Domains, one Domain after the other, get consecutive IDs. *)
Fixpoint ids_from (P next : Z) (ds : list domain) : Prop :=
  match ds with
  | [] => True
  | d :: ds' => dm_ids d = map (fun k => (next + Z.of_nat k) mod P) (seq 0 (length (dm_ids d))) /\
                ids_from P ((next + Z.of_nat (length (dm_ids d))) mod P) ds'
  end.
Definition total (ds : list domain) : nat := length (concat (map dm_ids ds)).
Lemma ids_concat : forall P, 0 < P -> forall ds next, 0 <= next < P -> ids_from P next ds ->
  concat (map dm_ids ds) = map (fun k => (next + Z.of_nat k) mod P) (seq 0 (total ds)).
Proof.
  intros P HP. unfold total. induction ds as [|d ds IH]; intros next N H; [reflexivity|].
  destruct H as [H1 H2]. cbn [map concat]. rewrite app_length, seq_app, map_app. f_equal; [exact H1|].
  rewrite (IH _ (Z.mod_pos_bound _ _ HP) H2) at 1. cbn [plus].
  set (m := length (concat (map dm_ids ds))). set (n := length (dm_ids d)).
  replace (seq n m) with (map (fun k => n + k)%nat (seq 0 m)).
  - rewrite map_map. apply map_ext. intros k. rewrite Z.add_mod_idemp_l by lia. f_equal. lia.
  - assert (Q : forall m s, map (fun k => n + k)%nat (seq s m) = seq (n + s) m).
    { induction m0 as [|m0 IHm]; intros s; cbn; auto. rewrite IHm. do 2 f_equal. lia. }
    rewrite Q. f_equal. lia.
Qed.
Lemma ids_app : forall P ds1 next ds2, ids_from P next ds1 -> ids_from P ((next + Z.of_nat (total ds1)) mod P) ds2 ->
  0 < P -> ids_from P next (ds1 ++ ds2) .
Proof.
  intros P. unfold total. induction ds1 as [|d ds IH]; intros next ds2 H1 H2 HP; cbn [app map concat] in *.
  - cbn in H2. rewrite Z.add_0_r in H2. destruct ds2 as [|e ds2]; auto. cbn [ids_from] in *. destruct H2 as [A B].
    rewrite Z.add_mod_idemp_l in B by lia. split; auto. rewrite A at 1. apply map_ext. intros k. apply Z.add_mod_idemp_l. lia.
  - destruct H1 as [A B]. split; auto. apply IH; auto. rewrite app_length in H2.
    rewrite Z.add_mod_idemp_l by lia. replace (next + Z.of_nat (length (dm_ids d)) + Z.of_nat (length (concat (map dm_ids ds))))
      with (next + Z.of_nat (length (dm_ids d) + length (concat (map dm_ids ds)))) by lia. auto.
Qed.
Lemma total_app : forall a b, total (a ++ b) = (total a + total b)%nat.
Proof. intros. unfold total. rewrite map_app, concat_app, app_length. reflexivity. Qed.

Definition good_dom (P : Z) (autos : nat -> Z) (d : domain) : Prop :=
  (forall a, 1 <= dm_Nx d a) /\ (forall a, 0 < dm_NG d a) /\ (0 < autos (dm_block d) -> forall a, dm_NG d a <= dm_Nx d a) /\
  (forall a, 1 < dm_NG d a -> 1 < dm_Nx d a) /\ ngrids d <= P /\ length (dm_ids d) = Z.to_nat (ngrids d).
Definition same_geo (d d' : domain) : Prop :=
  dm_block d' = dm_block d /\ dm_level d' = dm_level d /\ dm_Nx d' = dm_Nx d /\ dm_Disp d' = dm_Disp d.
Lemma split_list_spec : forall ng ideal P autos, 0 <= ng -> 0 < P -> forall ds next ds' next', 0 <= next < P ->
  Forall wf_shape ds -> split_list ng ideal P next autos ds = Ok (ds', next') ->
  Forall2 same_geo ds ds' /\ Forall (good_dom P autos) ds' /\ ids_from P next ds' /\
  next' = (next + Z.of_nat (total ds')) mod P.
Proof.
  intros ng ideal P autos G HP. induction ds as [|d ds IH]; intros next ds' next' N W H.
  - injection H as <- <-. repeat split; auto; constructor || (cbn; rewrite Z.add_0_r, Z.mod_small; auto).
  - cbn [split_list] in H. apply bind_ok in H. destruct H as ([d1 n1] & E1 & H). apply bind_ok in H. destruct H as ([r n2] & E2 & H).
    injection H as <- <-. inversion W; subst. assert (W1 := H1). apply split_domain_spec in E1; auto. destruct E1 as (S & -> & NG).
    apply IH in E2; auto; [|apply Z.mod_pos_bound; auto]. destruct E2 as (F1 & F2 & F3 & ->).
    destruct S as (S1 & S2 & S3 & S4 & S5 & S6 & S7 & S8 & S9).
    assert (L : length (dm_ids d1) = Z.to_nat (ngrids d1)) by (rewrite S9, map_length, seq_length; reflexivity).
    split; [constructor; auto; split; auto|]. split.
    { constructor; auto. split; [rewrite S3; apply W1|]. repeat split; auto. rewrite S1. auto. }
    split.
    { cbn [ids_from]. split; auto. rewrite L. exact S9. }
    unfold total. cbn [map concat]. rewrite app_length, Z.add_mod_idemp_l by lia. f_equal. unfold total. lia.
Qed.
Lemma split_levels_spec : forall ng ideal P autos, 0 <= ng -> 0 < P -> forall ls next ls' next', 0 <= next < P ->
  Forall (Forall wf_shape) ls -> split_levels ng ideal P next autos ls = Ok (ls', next') ->
  Forall2 (Forall2 same_geo) ls ls' /\ Forall (Forall (good_dom P autos)) ls' /\ ids_from P next (concat ls') /\
  next' = (next + Z.of_nat (total (concat ls'))) mod P.
Proof.
  intros ng ideal P autos G HP. induction ls as [|l ls IH]; intros next ls' next' N W H.
  - injection H as <- <-. repeat split; auto; constructor || (cbn; rewrite Z.add_0_r, Z.mod_small; auto).
  - cbn [split_levels] in H. apply bind_ok in H. destruct H as ([l1 n1] & E1 & H). apply bind_ok in H. destruct H as ([r n2] & E2 & H).
    injection H as <- <-. inversion W; subst. apply split_list_spec in E1; auto. destruct E1 as (F1 & F2 & F3 & ->).
    apply IH in E2; auto; [|apply Z.mod_pos_bound; auto]. destruct E2 as (K1 & K2 & K3 & ->).
    split; [constructor; auto|]. split; [constructor; auto|]. cbn [concat]. split; [apply ids_app; auto|].
    rewrite total_app, Z.add_mod_idemp_l by lia. f_equal. lia.
Qed.
(** The checks passed by an accepted mesh. *)
Definition accepted_facts (ng P : Z) (bs : list blk) (M : mesh) : Prop :=
  exists levels0 : list (list domain),
    (ms_nDim M <> 0)%nat /\
    (forall nl l d, nth_error levels0 nl = Some l -> In d l -> wf_dom (ms_Nx M) (ms_nDim M) d /\ dm_level d = nl) /\
    Forall (fun l => same_level_ok l = true) (tl levels0) /\
    nested_ok ng (ms_Nx M) (ms_nDim M) 0 levels0 = true /\
    Forall2 (Forall2 same_geo) levels0 (ms_levels M) /\
    Forall (Forall (good_dom P (block_auto bs))) (ms_levels M) /\
    ids_from P 0 (domains M) /\ Z.of_nat (total (domains M)) mod P = 0 /\
    (exists r, nth_error levels0 0 = Some [r] /\ forall a, dm_Nx r a = ms_Nx M a).
Lemma wf_to_shape : forall root nDim d, (nDim <> 0)%nat -> wf_dom root nDim d -> wf_shape d.
Proof.
  intros root nDim d N (W1 & W2 & _). split; auto. split.
  - intros E. destruct (Z.eq_dec (dm_Nx d X3) 1); auto. assert (X := W1 X3).
    assert (I3 : In X3 (axes nDim)) by (apply W2; lia). exfalso. assert (I2 : In X2 (axes nDim)); [|apply W2 in I2; lia].
    unfold axes in *. destruct nDim as [|[|[|nD]]]; cbn in *; intuition discriminate.
  - apply W2. unfold axes. destruct nDim; [congruence|]. cbn. auto.
Qed.
Lemma make_domains_level : forall root nDim, count_dims root = nDim -> dims_ok nDim root = true -> (nDim <> 0)%nat ->
  forall bs nb ds, make_domains root nDim nb bs = Ok ds ->
  map dm_level ds = map (fun b => Z.to_nat (b_level b)) bs /\ (forall b, In b bs -> 0 <= b_level b) /\ map dm_Nx ds = map b_Nx bs.
Proof.
  intros root nDim C D N. induction bs as [|b bs IH]; intros nb ds H.
  - injection H as <-. repeat split; auto. intros b [].
  - cbn [make_domains] in H. apply bind_ok in H. destruct H as (d0 & E & H). apply bind_ok in H. destruct H as (ds0 & E2 & H). injection H as <-.
    apply make_domain_wf in E; auto. destruct E as (_ & E1 & E3 & E4 & _). apply IH in E2. destruct E2 as (A & B & Q). cbn. rewrite E1, E4, A, Q.
    repeat split; auto. intros b0 [<-|I]; auto.
Qed.
Lemma level_filter : forall (bs : list blk) ds n, map dm_level ds = map (fun b => Z.to_nat (b_level b)) bs -> map dm_Nx ds = map b_Nx bs ->
  (forall b, In b bs -> 0 <= b_level b) ->
  map dm_Nx (on_level n ds) = map b_Nx (filter (fun b => b_level b =? Z.of_nat n) bs).
Proof.
  induction bs as [|b bs IH]; intros [|d ds] n H1 H2 H3; try discriminate; auto.
  injection H1 as H1 H1'. injection H2 as H2 H2'. cbn. rewrite H1.
  assert (B := H3 b (or_introl eq_refl)).
  destruct (Nat.eqb_spec (Z.to_nat (b_level b)) n), (Z.eqb_spec (b_level b) (Z.of_nat n)); try lia; cbn [map].
  - rewrite H2. f_equal. apply IH; auto. intros. apply H3. right. auto.
  - apply IH; auto. intros. apply H3. right. auto.
Qed.
Lemma init_mesh_facts : forall ng ideal P bs M, 0 <= ng -> 0 < P -> init_mesh ng ideal P bs = Ok M -> accepted_facts ng P bs M.
Proof.
  intros ng ideal P bs M G HP H. unfold init_mesh in H. cbv zeta in H.
  destruct (negb _) eqn:LV in H; [discriminate|].
  destruct (filter _ bs) as [|root [|]] eqn:ER in H; try discriminate.
  set (nDim := count_dims (b_Nx root)) in *. destruct (Nat.eqb_spec nDim 0) as [|NZ]; [discriminate|].
  destruct (dims_ok nDim (b_Nx root)) eqn:DO; [|discriminate]. cbn [negb] in H.
  apply bind_ok in H. destruct H as (ds & MD & H).
  set (lv := map (fun n => on_level n ds) (seq 0 (S (Z.to_nat (max_level bs))))) in *.
  destruct (forallb same_level_ok (tl lv)) eqn:SL; [|discriminate]. cbn [negb] in H.
  destruct (nested_ok ng (b_Nx root) nDim 0 lv) eqn:NO; [|discriminate]. cbn [negb] in H.
  apply bind_ok in H. destruct H as ([lv' nx] & SP & H). destruct (Z.eqb_spec nx 0) as [->|]; [|discriminate]. cbn [negb] in H. injection H as <-.
  assert (W := make_domains_wf _ _ eq_refl DO NZ _ _ _ MD).
  assert (WL : forall nl l d, nth_error lv nl = Some l -> In d l -> wf_dom (b_Nx root) nDim d /\ dm_level d = nl).
  { intros nl l d E I. unfold lv in E. rewrite nth_error_map in E. destruct (nth_error (seq 0 _) nl) as [k|] eqn:K; [|discriminate].
    injection E as <-. assert (KN : k = nl).
    { assert (L : (nl < length (seq 0 (S (Z.to_nat (max_level bs)))))%nat) by (apply nth_error_Some; congruence).
      rewrite seq_length in L. rewrite nth_error_nth' with (d := O) in K by (rewrite seq_length; auto). rewrite seq_nth in K by auto. injection K as <-. reflexivity. }
    subst k. unfold on_level in I. apply filter_In in I. destruct I as [I E]. apply Nat.eqb_eq in E. destruct (W d I). auto. }
  assert (FW : Forall (Forall wf_shape) lv).
  { apply Forall_forall. intros l I. apply Forall_forall. intros d J. apply In_nth_error in I. destruct I as [nl I].
    destruct (WL nl l d I J). apply wf_to_shape with (b_Nx root) nDim; auto. }
  apply split_levels_spec in SP; auto; [|lia]. destruct SP as (S1 & S2 & S3 & S4).
  exists lv. cbn [ms_nDim ms_Nx ms_levels]. unfold domains. cbn [ms_levels].
  split; [auto|]. split; [auto|]. split; [apply Forall_forall; intros l I; rewrite forallb_forall in SL; auto|].
  split; [auto|]. split; [auto|]. split; [auto|]. split; [auto|]. split; [symmetry; exact S4|].
  destruct (make_domains_level _ _ eq_refl DO NZ _ _ _ MD) as (L1 & L2 & L3).
  assert (LF := level_filter bs ds 0 L1 L3 L2). rewrite ER in LF. cbn [map] in LF.
  unfold lv. cbn [seq map]. destruct (on_level 0 ds) as [|r [|]]; try discriminate. exists r. split; [reflexivity|]. injection LF as ->. reflexivity.
Qed.

Lemma accepted_good : forall ng P bs M, accepted_facts ng P bs M -> forall d, In d (domains M) -> good_dom P (block_auto bs) d.
Proof.
  intros ng P bs M (lv & _ & _ & _ & _ & _ & F & _) d I. unfold domains in I. apply in_concat in I. destruct I as (l & L & I).
  rewrite Forall_forall in F. specialize (F l L). rewrite Forall_forall in F. auto.
Qed.

(** ** C23 *)
Theorem C23_grids_tile_domain : forall ng ideal P bs M d, 0 <= ng -> 0 < P ->
  init_mesh ng ideal P bs = Ok M -> In d (domains M) ->
  (forall c, in_domain d c <-> exists g, valid_grid d g /\ in_grid d g c) /\
  (forall c g h, in_grid d g c -> in_grid d h c -> g = h).
Proof.
  intros ng ideal P bs M d G HP H I. apply init_mesh_facts in H; auto. destruct (accepted_good _ _ _ _ H d I) as (N & K & _).
  assert (N0 : forall a, 0 <= dm_Nx d a) by (intros a; specialize (N a); lia). split.
  - intros c. split.
    + intros D. destruct (proj1 (axis_tiles d X1 (c X1) (N0 X1) (K X1)) (D X1)) as (i & I1 & I2).
      destruct (proj1 (axis_tiles d X2 (c X2) (N0 X2) (K X2)) (D X2)) as (j & J1 & J2).
      destruct (proj1 (axis_tiles d X3 (c X3) (N0 X3) (K X3)) (D X3)) as (k & K1 & K2).
      exists (Gi i j k). split; intros []; cbn [gi_ax gl gm gn]; auto.
    + intros (g & V & E) a. apply axis_tiles; auto. exists (gi_ax g a). auto.
  - intros c g h A B. destruct g as [g1 g2 g3], h as [h1 h2 h3]. f_equal.
    + apply (axis_unique d X1 (c X1)); auto; [apply (A X1)|apply (B X1)].
    + apply (axis_unique d X2 (c X2)); auto; [apply (A X2)|apply (B X2)].
    + apply (axis_unique d X3 (c X3)); auto; [apply (A X3)|apply (B X3)].
Qed.
Print Assumptions C23_grids_tile_domain.
Definition sumZ (l : list Z) : Z := fold_right Z.add 0 l.
Lemma gDisp_sum : forall d a n, gDisp d a n = dm_Disp d a + sumZ (map (gNx d a) (seq 0 n)).
Proof.
  intros d a. induction n as [|n IH]; [cbn; lia|]. cbn [gDisp]. rewrite seq_S, map_app. unfold sumZ in *. rewrite fold_right_app.
  rewrite IH. cbn. assert (Q : forall l z, fold_right Z.add z l = fold_right Z.add 0 l + z) by (induction l; intros; cbn; [lia|rewrite IHl; lia]).
  rewrite (Q _ (gNx d a n + 0)). lia.
Qed.
(** Along each axis: sizes add up, consecutive Grids abut, sizes differ by at most one and
    the larger ones come first. *)
Theorem C23_sizes : forall ng ideal P bs M d a, 0 <= ng -> 0 < P ->
  init_mesh ng ideal P bs = Ok M -> In d (domains M) ->
  let n := Z.to_nat (dm_NG d a) in
  gDisp d a 0 = dm_Disp d a /\
  (forall i, gDisp d a (S i) = gDisp d a i + gNx d a i) /\
  sumZ (map (gNx d a) (seq 0 n)) = dm_Nx d a /\
  (forall i j, (i <= j < n)%nat -> gNx d a j <= gNx d a i <= gNx d a j + 1).
Proof.
  intros ng ideal P bs M d a G HP H I n. apply init_mesh_facts in H; auto. destruct (accepted_good _ _ _ _ H d I) as (N & K & _).
  assert (N0 : 0 <= dm_Nx d a) by (specialize (N a); lia).
  split; [reflexivity|]. split; [reflexivity|]. split.
  - assert (E := gDisp_end d a N0 (K a)). rewrite gDisp_sum in E. fold n in E. lia.
  - intros i j L. unfold gNx. destruct (Z.ltb_spec (Z.of_nat i) (Z.rem (dm_Nx d a) (dm_NG d a))), (Z.ltb_spec (Z.of_nat j) (Z.rem (dm_Nx d a) (dm_NG d a))); lia.
Qed.
Print Assumptions C23_sizes.

Definition dom1 := Blk 0 (mk_vec 10 6 1) (mk_vec 0 0 0) (mk_vec 3 2 1) 0.
Example C23_example : exists M d, init_mesh 4 (fun _ _ _ => 1) 6 [dom1] = Ok M /\ In d (domains M) /\
  map (gNx d X1) [0;1;2]%nat = [4;3;3] /\ map (gDisp d X1) [0;1;2]%nat = [0;4;7].
Proof. eexists. eexists. split; [vm_compute; reflexivity|]. split; [left; reflexivity|]. split; reflexivity. Qed.

(** ** C52: cells and ghost zones of each Grid *)
Definition has_ghost (nghost nx : Z) : Prop := (if nx >? 1 then nghost else 0) = nghost. (* src/init_grid.c:84-89: is *)
Theorem C52_every_grid_has_cells : forall ng ideal P bs M d a i, 0 <= ng -> 0 < P ->
  init_mesh ng ideal P bs = Ok M -> In d (domains M) ->
  (0 < block_auto bs (dm_block d) \/ dm_NG d a <= dm_Nx d a) -> 1 <= gNx d a i.
Proof.
  intros ng ideal P bs M d a i G HP H I B. apply init_mesh_facts in H; auto. destruct (accepted_good _ _ _ _ H d I) as (N & K & A & _).
  assert (L : dm_NG d a <= dm_Nx d a) by (destruct B; auto).
  unfold gNx. assert (1 <= Z.quot (dm_Nx d a) (dm_NG d a)) by (apply Z.quot_le_lower_bound; [apply K|lia]). destruct (_ <? _); lia.
Qed.
Print Assumptions C52_every_grid_has_cells.
Theorem C52_ghost_zones_partial : forall ng ideal P bs M d a i, 0 <= ng -> 0 < P ->
  init_mesh ng ideal P bs = Ok M -> In d (domains M) -> 2 * dm_NG d a <= dm_Nx d a -> has_ghost ng (gNx d a i).
Proof.
  intros ng ideal P bs M d a i G HP H I B. apply init_mesh_facts in H; auto. destruct (accepted_good _ _ _ _ H d I) as (N & K & A & _).
  assert (2 <= Z.quot (dm_Nx d a) (dm_NG d a)) by (apply Z.quot_le_lower_bound; [apply K|lia]).
  unfold has_ghost, gNx. destruct (_ <? _); match goal with |- context [?x >? 1] => destruct (Z.gtb_spec x 1) end; lia.
Qed.
(** A Domain cut so finely that each Grid has one cell is accepted, and its Grids have no
    ghost zones although they have neighbours; even empty Grids are accepted. *)
Theorem C52_ghost_zones_refuted : exists bs M d, init_mesh 4 (fun _ _ _ => 1) 8 bs = Ok M /\ In d (domains M) /\
  1 < dm_Nx d X1 /\ right_id d (Gi 0 0 0) X1 <> -1 /\ ~ has_ghost 4 (gNx d X1 0).
Proof.
  exists [Blk 0 (mk_vec 8 1 1) (mk_vec 0 0 0) (mk_vec 8 1 1) 0]. eexists. eexists. split; [vm_compute; reflexivity|]. split; [left; reflexivity|].
  split; [reflexivity|]. split; [vm_compute; discriminate|]. vm_compute. discriminate.
Qed.
Theorem C52_empty_grid_refuted : exists bs M d, init_mesh 4 (fun _ _ _ => 1) 10 bs = Ok M /\ In d (domains M) /\ valid_grid d (Gi 9 0 0) /\ gNx d X1 9 = 0.
Proof.
  exists [Blk 0 (mk_vec 8 1 1) (mk_vec 0 0 0) (mk_vec 10 1 1) 0]. eexists. eexists. split; [vm_compute; reflexivity|]. split; [left; reflexivity|].
  split; [intros []; reflexivity|reflexivity].
Qed.
Print Assumptions C52_empty_grid_refuted.

(** ** C25 *)
(** Two cells are adjacent (or equal) if no coordinate differs by more than one. *)
Definition near (c c' : vec) : Prop := forall a, Z.abs (c a - c' a) <= 1.
Lemma disjoint_spec : forall d e, (forall a, 1 <= dm_Nx d a) -> (forall a, 1 <= dm_Nx e a) ->
  meet_or_touch (sides d) (sides e) = false -> forall c c', in_domain d c -> in_domain e c' -> ~ near c c'.
Proof.
  intros d e ND NE H c c' C C' N. unfold meet_or_touch in H. apply all3_false in H. destruct H as [a H]. cbn [bl br sides] in H.
  specialize (N a). specialize (C a). specialize (C' a).
  destruct (Z.leb_spec (dm_Disp d a) (dm_Disp e a + dm_Nx e a)), (Z.geb_spec (dm_Disp d a + dm_Nx d a) (dm_Disp e a)); cbn in H; try discriminate; lia.
Qed.
Lemma same_level_pair : forall l i j d e, same_level_ok l = true -> nth_error l i = Some d -> nth_error l j = Some e -> (i < j)%nat ->
  meet_or_touch (sides d) (sides e) = false.
Proof.
  induction l as [|x l IH]; intros i j d e H I J L; [destruct i; discriminate|].
  cbn [same_level_ok] in H. apply andb_true_iff in H. destruct H as [H1 H2]. destruct j as [|j]; [lia|]. destruct i as [|i].
  - injection I as <-. rewrite forallb_forall in H1. cbn [nth_error] in J. apply nth_error_In in J. specialize (H1 e J). apply negb_true_iff in H1. auto.
  - apply (IH i j d e); auto. lia.
Qed.
Lemma geo_in : forall l l' i d', Forall2 same_geo l l' -> nth_error l' i = Some d' -> exists d, nth_error l i = Some d /\ same_geo d d'.
Proof. intros l l' i d' F. revert i. induction F; intros [|i] HH; try discriminate; cbn in *; [injection HH as <-; eauto|auto]. Qed.
Lemma geo_lev : forall ls ls' n l', Forall2 (Forall2 same_geo) ls ls' -> nth_error ls' n = Some l' -> exists l, nth_error ls n = Some l /\ Forall2 same_geo l l'.
Proof. intros ls ls' n l' F. revert n. induction F; intros [|i] HH; try discriminate; cbn in *; [injection HH as <-; eauto|auto]. Qed.
Theorem C25_same_level_apart : forall ng ideal P bs M nl l i j d e c c', 0 <= ng -> 0 < P ->
  init_mesh ng ideal P bs = Ok M -> nth_error (ms_levels M) nl = Some l ->
  nth_error l i = Some d -> nth_error l j = Some e -> i <> j ->
  in_domain d c -> in_domain e c' -> ~ near c c'.
Proof.
  intros ng ideal P bs M nl l i j d e c c' G HP H L I J D C C'. apply init_mesh_facts in H; auto.
  destruct H as (lv & NZ & W & SL & _ & F & _ & _ & _ & (r & R & _)).
  destruct (geo_lev _ _ _ _ F L) as (l0 & L0 & FL).
  destruct (geo_in _ _ _ _ FL I) as (d0 & I0 & (_ & _ & GN & GD)). destruct (geo_in _ _ _ _ FL J) as (e0 & J0 & (_ & _ & HN & HD)).
  destruct (W nl l0 d0 L0 (nth_error_In _ _ I0)) as ((N1 & _) & _). destruct (W nl l0 e0 L0 (nth_error_In _ _ J0)) as ((N2 & _) & _).
  assert (C0 : in_domain d0 c) by (intros a; specialize (C a); rewrite GN, GD in C; auto).
  assert (C0' : in_domain e0 c') by (intros a; specialize (C' a); rewrite HN, HD in C'; auto).
  assert (OK : same_level_ok l0 = true).
  { destruct nl as [|nl].
    - rewrite R in L0. injection L0 as <-. destruct i as [|i], j as [|j]; try congruence; try (destruct i; discriminate); destruct j; discriminate.
    - rewrite Forall_forall in SL. apply SL. destruct lv as [|x lv]; [discriminate|]. cbn in *. eapply nth_error_In; eauto. }
  destruct (Nat.lt_total i j) as [K|[K|K]]; [|congruence|].
  - apply (disjoint_spec d0 e0); auto. apply (same_level_pair l0 i j); auto.
  - intros N. apply (disjoint_spec e0 d0 N2 N1 (same_level_pair l0 j i e0 d0 OK J0 I0 K) c' c C0' C0). intros a. specialize (N a). lia.
Qed.
Print Assumptions C25_same_level_apart.

(** A cell of the fine level lies over the coarse cell with half its coordinates (only
    along axes in which the mesh has more than one cell). *)
Definition over (nDim : nat) (f c : vec) : Prop := forall a, (In a (axes nDim) -> c a = f a / 2) /\ (~ In a (axes nDim) -> c a = f a).
Lemma nested_ok_pair : forall ng root nDim levels nl k p c ps cs, nested_ok ng root nDim nl levels = true ->
  nth_error levels k = Some ps -> nth_error levels (S k) = Some cs -> In p ps -> In c cs ->
  nested_pair ng root nDim (nl + k) p c = true.
Proof.
  intros ng root nDim. induction levels as [|x levels IH]; intros nl k p c ps cs H P C IP IC; [destruct k; discriminate|].
  destruct levels as [|y levels]; [destruct k as [|[|]]; discriminate|].
  cbn [nested_ok] in H. apply andb_true_iff in H. destruct H as [H1 H2]. destruct k as [|k].
  - injection P as <-. injection C as <-. rewrite Nat.add_0_r. rewrite forallb_forall in H1. specialize (H1 p IP). rewrite forallb_forall in H1. auto.
  - replace (nl + S k)%nat with (S nl + k)%nat by lia. apply (IH (S nl) k p c ps cs); auto.
Qed.
Lemma irefine_pos : forall n, 0 < irefine n.
Proof. intros. unfold irefine. apply Z.pow_pos_nonneg; lia. Qed.
Lemma irefine_S : forall n, irefine (S n) = 2 * irefine n.
Proof. intros. unfold irefine. rewrite Nat2Z.inj_succ, Z.pow_succ_r by lia. reflexivity. Qed.
Lemma rem0_mult : forall x y, y <> 0 -> Z.rem x y = 0 -> exists k, x = k * y.
Proof. intros x y Y H. exists (Z.quot x y). assert (Q := Z.quot_rem' x y). lia. Qed.
(** Edges of a refined Domain [c] against a Domain [p] one level coarser sharing a cell
    with it: inside, and at least nghost/2 coarse cells away from each edge of [p] unless
    both lie on the edge of the root Domain.  [root_edge]: size of the root Domain in
    units of level [nl]. *)
Theorem C25_children_nested : forall ng ideal P bs M nl ps cs p c f q, 0 <= ng -> 0 < P ->
  init_mesh ng ideal P bs = Ok M ->
  nth_error (ms_levels M) nl = Some ps -> nth_error (ms_levels M) (S nl) = Some cs -> In p ps -> In c cs ->
  in_domain c f -> over (ms_nDim M) f q -> in_domain p q ->
  forall a, In a (axes (ms_nDim M)) ->
  let left_gap := dm_Disp c a - 2 * dm_Disp p a in
  let right_gap := 2 * (dm_Disp p a + dm_Nx p a) - (dm_Disp c a + dm_Nx c a) in
  (left_gap = 0 /\ dm_Disp p a = 0 \/ 0 < left_gap /\ ng <= left_gap) /\
  (right_gap = 0 /\ dm_Disp p a + dm_Nx p a = ms_Nx M a * 2 ^ Z.of_nat nl \/ 0 < right_gap /\ ng <= right_gap).
Proof.
  intros ng ideal P bs M nl ps cs p c f q G HP H LP LC IP IC FC OV FP a IA left_gap right_gap.
  apply init_mesh_facts in H; auto. destruct H as (lv & NZ & W & _ & NO & F & _).
  destruct (geo_lev _ _ _ _ F LP) as (ps0 & LP0 & F1). destruct (geo_lev _ _ _ _ F LC) as (cs0 & LC0 & F2).
  apply In_nth_error in IP. destruct IP as [i IP]. apply In_nth_error in IC. destruct IC as [j IC].
  destruct (geo_in _ _ _ _ F1 IP) as (p0 & I0 & (_ & _ & PN & PD)). destruct (geo_in _ _ _ _ F2 IC) as (c0 & J0 & (_ & _ & CN & CD)).
  apply nth_error_In in I0, J0.
  assert (NP := nested_ok_pair _ _ _ _ _ _ _ _ _ _ NO LP0 LC0 I0 J0). cbn [plus] in NP.
  destruct (W nl ps0 p0 LP0 I0) as (WP & EP). destruct (W (S nl) cs0 c0 LC0 J0) as (WC & EC).
  subst left_gap right_gap. rewrite PN, PD, CN, CD.
  assert (FC0 : in_domain c0 f) by (intros b; specialize (FC b); rewrite CN, CD in FC; auto).
  assert (FP0 : in_domain p0 q) by (intros b; specialize (FP b); rewrite PN, PD in FP; auto).
  clear - NP WP WC EP EC FC0 FP0 OV IA G.
  destruct WP as (P1 & P2 & P3 & P4 & P5 & P6 & P7), WC as (C1 & C2 & _ & _ & C5 & C6 & _).
  rewrite EC in C6. rewrite EP in P6.
  (* along an active axis the child edges are even *)
  assert (EV : forall b, In b (axes (ms_nDim M)) -> exists u w, dm_Disp c0 b = 2 * (u * irefine nl) /\ dm_Disp c0 b + dm_Nx c0 b = 2 * (w * irefine nl)).
  { intros b B. destruct (C6 b B) as [Q1 Q2]. rewrite irefine_S in Q1, Q2. assert (IP := irefine_pos nl).
    apply rem0_mult in Q1; [|lia]. apply rem0_mult in Q2; [|lia]. destruct Q1 as [k1 Q1], Q2 as [k2 Q2].
    exists k2, (k1 + k2). rewrite Q1, Q2. split; ring. }
  assert (CS : forall b, In b (axes (ms_nDim M)) -> 2 * bl (child_sides c0) b = dm_Disp c0 b /\ 2 * br (child_sides c0) b = dm_Disp c0 b + dm_Nx c0 b).
  { intros b B. destruct (EV b B) as (u & w & U & V). assert (N := proj1 (C2 b) B). cbn [bl br child_sides].
    destruct (Z.ltb_spec 1 (dm_Nx c0 b)); [|lia]. rewrite V, U. rewrite !(Z.mul_comm 2), !Z.quot_mul by lia. lia. }
  assert (MT : meet_or_touch (sides p0) (child_sides c0) = true).
  { unfold meet_or_touch. apply all3_iff. intros b. cbn [bl br sides].
    assert (FCb := FC0 b). assert (FPb := FP0 b). destruct (OV b) as [O1 O2].
    destruct (in_dec (fun x y : axis => ltac:(decide equality)) b (axes (ms_nDim M))) as [B|B].
    - specialize (O1 B). destruct (CS b B) as [S1 S2]. assert (D := Z.div_mod (f b) 2 ltac:(lia)). assert (DB := Z.mod_pos_bound (f b) 2 ltac:(lia)).
      apply andb_true_iff. split; [apply Z.leb_le|apply Z.geb_le]; lia.
    - specialize (O2 B). assert (N := C2 b). assert (X1 := C1 b). assert (N1 : dm_Nx c0 b = 1) by (destruct (Z_lt_le_dec 1 (dm_Nx c0 b)); [tauto|lia]).
      assert (D1 := C5 b B). assert (D2 := P5 b B). cbn [child_sides bl br]. rewrite N1. cbn [Z.ltb Z.compare]. rewrite D1, D2 in *. rewrite N1 in FCb.
      cbn. apply Z.geb_le. assert (Q := P1 b). lia. }
  unfold nested_pair in NP. rewrite MT in NP. rewrite forallb_forall in NP. specialize (NP a IA).
  destruct (CS a IA) as [S1 S2]. destruct (EV a IA) as (u & w & U & V). unfold nested_axis in NP. cbv zeta in NP.
  cbn [bl br sides] in NP. set (L2 := bl (child_sides c0) a) in *. set (R2 := br (child_sides c0) a) in *.
  apply andb_true_iff in NP. destruct NP as [NP NP3]. apply andb_true_iff in NP. destruct NP as [NP1 NP2].
  apply negb_true_iff, orb_false_iff in NP1. apply negb_true_iff, orb_false_iff in NP2. apply negb_true_iff, orb_false_iff in NP3.
  destruct NP1 as [A1 A2], NP2 as [B1 B2], NP3 as [D1 D2].
  apply Z.ltb_ge in B1. rewrite Z.gtb_ltb in B2. apply Z.ltb_ge in B2.
  assert (IR := irefine_pos nl).
  assert (RO : Z.quot (dm_Disp c0 a + dm_Nx c0 a) (2 * irefine nl) = w).
  { rewrite V. replace (2 * (w * irefine nl)) with (w * (2 * irefine nl)) by ring. apply Z.quot_mul. lia. }
  rewrite RO in A2. fold (irefine nl).
  split.
  - destruct (Z.eqb_spec L2 (dm_Disp p0 a)) as [E|E].
    + left. cbn in A1. apply negb_false_iff, Z.eqb_eq in A1. lia.
    + right. destruct (Z.ltb_spec (2 * (L2 - dm_Disp p0 a)) ng); [|lia]. cbn [andb] in D1. rewrite Z.gtb_ltb in D1. apply Z.ltb_ge in D1. lia.
  - destruct (Z.eqb_spec R2 (dm_Disp p0 a + dm_Nx p0 a)) as [E|E].
    + left. cbn in A2. apply negb_false_iff, Z.eqb_eq in A2. split; [lia|]. nia.
    + right. destruct (Z.ltb_spec (2 * (dm_Disp p0 a + dm_Nx p0 a - R2)) ng); [|lia]. cbn [andb] in D2. rewrite Z.gtb_ltb in D2. apply Z.ltb_ge in D2. lia.
Qed.
Print Assumptions C25_children_nested.
Definition lvl1 := Blk 1 (mk_vec 16 16 1) (mk_vec 8 8 0) (mk_vec 1 1 1) 0.
Definition lvl2 := Blk 2 (mk_vec 16 16 1) (mk_vec 24 24 0) (mk_vec 1 1 1) 0.
Definition root32 := Blk 0 (mk_vec 32 32 1) (mk_vec 0 0 0) (mk_vec 1 1 1) 0.
Example C25_example : exists M p c, init_mesh 4 (fun _ _ _ => 1) 1 [root32; lvl1; lvl2] = Ok M /\
  nth_error (ms_levels M) 1 = Some [p] /\ nth_error (ms_levels M) 2 = Some [c] /\ in_domain c (mk_vec 30 30 0) /\ in_domain p (mk_vec 15 15 0) /\
  over (ms_nDim M) (mk_vec 30 30 0) (mk_vec 15 15 0).
Proof.
  eexists. eexists. eexists. split; [vm_compute; reflexivity|]. split; [reflexivity|]. split; [reflexivity|].
  split; [intros []; cbn; lia|]. split; [intros []; cbn; lia|]. intros []; cbn; (split; [intros _|intros X; try (exfalso; apply X; tauto)]); try reflexivity.
Qed.
(** A refined Domain that lies in no Domain of the coarser level is accepted. *)
Theorem C25_child_without_parent_refuted : exists bs M p c f, init_mesh 4 (fun _ _ _ => 1) 1 bs = Ok M /\
  nth_error (ms_levels M) 1 = Some [p] /\ nth_error (ms_levels M) 2 = Some [c] /\ in_domain c f /\
  forall g q, in_domain c g -> over (ms_nDim M) g q -> ~ in_domain p q.
Proof.
  exists [root32; lvl1; Blk 2 (mk_vec 16 16 1) (mk_vec 72 72 0) (mk_vec 1 1 1) 0]. eexists. eexists. eexists. exists (mk_vec 80 80 0).
  split; [vm_compute; reflexivity|]. split; [reflexivity|]. split; [reflexivity|]. split; [intros []; cbn; lia|].
  intros g q G O D. specialize (G X1). specialize (D X1). destruct (O X1) as [O1 _]. cbn in *. rewrite O1 in D by auto.
  assert (X := Z.div_mod (g X1) 2 ltac:(lia)). assert (Y := Z.mod_pos_bound (g X1) 2 ltac:(lia)). lia.
Qed.
Print Assumptions C25_child_without_parent_refuted.

(** ** C26 *)
Lemma ids_from_in : forall P, 0 < P -> forall ds next d, 0 <= next < P -> ids_from P next ds -> In d ds ->
  exists s, 0 <= s < P /\ dm_ids d = map (fun k => (s + Z.of_nat k) mod P) (seq 0 (length (dm_ids d))).
Proof.
  intros P HP. induction ds as [|e ds IH]; intros next d N H I; [contradiction|]. destruct H as [H1 H2]. destruct I as [<-|I]; [eauto|].
  eapply (IH _ d); [|exact H2|auto]. apply Z.mod_pos_bound. auto.
Qed.
Lemma round_nodup : forall P s n, 0 < P -> Z.of_nat n <= P -> NoDup (map (fun k => (s + Z.of_nat k) mod P) (seq 0 n)).
Proof.
  intros P s n HP HN. assert (J : forall k j, (k < n)%nat -> (j < n)%nat -> (s + Z.of_nat k) mod P = (s + Z.of_nat j) mod P -> k = j).
  { intros k j K L E. assert (A := Z.div_mod (s + Z.of_nat k) P ltac:(lia)). assert (B := Z.div_mod (s + Z.of_nat j) P ltac:(lia)).
    rewrite E in A. set (qa := (s + Z.of_nat k) / P) in *. set (qb := (s + Z.of_nat j) / P) in *. clearbody qa qb.
    assert (D : Z.of_nat k - Z.of_nat j = P * (qa - qb)) by lia. assert (qa = qb) by nia. subst. lia. }
  assert (G : forall l, NoDup l -> (forall k, In k l -> (k < n)%nat) -> NoDup (map (fun k => (s + Z.of_nat k) mod P) l)).
  { induction l as [|k l IH]; intros ND B; [constructor|]. inversion ND; subst. cbn. constructor.
    - intros I. apply in_map_iff in I. destruct I as (j & E & I). apply J in E; [subst; contradiction| |]; apply B; cbn; auto.
    - apply IH; auto. intros. apply B. right. auto. }
  apply G; [apply seq_NoDup|]. intros k I. apply in_seq in I. lia.
Qed.
Lemma count_round : forall P q p, 0 < P -> 0 <= p < P ->
  count_occ Z.eq_dec (map (fun k => (0 + Z.of_nat k) mod P) (seq 0 (q * Z.to_nat P))) p = q.
Proof.
  intros P q p HP Hp. induction q as [|q IH]; [reflexivity|].
  replace (S q * Z.to_nat P)%nat with (q * Z.to_nat P + Z.to_nat P)%nat by lia.
  rewrite seq_app, map_app, count_occ_app, IH. cbn [plus].
  assert (E : map (fun k => (0 + Z.of_nat k) mod P) (seq (q * Z.to_nat P) (Z.to_nat P)) = map (fun k => (0 + Z.of_nat k) mod P) (seq 0 (Z.to_nat P))).
  { assert (Q : forall m s, map (fun k => (0 + Z.of_nat k) mod P) (seq (q * Z.to_nat P + s) m) = map (fun k => (0 + Z.of_nat k) mod P) (seq s m)).
    { induction m as [|m IHm]; intros s; auto. cbn [seq map]. f_equal.
      - replace (0 + Z.of_nat (q * Z.to_nat P + s)) with (0 + Z.of_nat s + Z.of_nat q * P) by nia. apply Z.mod_add. lia.
      - replace (S (q * Z.to_nat P + s)) with (q * Z.to_nat P + S s)%nat by lia. apply IHm. }
    specialize (Q (Z.to_nat P) 0%nat). rewrite Nat.add_0_r in Q. exact Q. }
  rewrite E.
  assert (ND := round_nodup P 0 (Z.to_nat P) HP ltac:(lia)).
  assert (I : In p (map (fun k => (0 + Z.of_nat k) mod P) (seq 0 (Z.to_nat P)))).
  { apply in_map_iff. exists (Z.to_nat p). split; [rewrite Z2Nat.id, Z.add_0_l, Z.mod_small; lia|apply in_seq; lia]. }
  rewrite NoDup_count_occ' with (decA := Z.eq_dec) in ND. rewrite (ND p I). lia.
Qed.
(** Every process gets the same number of Grids. *)
Theorem C26_even_load : forall ng ideal P bs M p q, 0 <= ng -> 0 < P -> init_mesh ng ideal P bs = Ok M -> 0 <= p < P -> 0 <= q < P ->
  count_occ Z.eq_dec (concat (map dm_ids (domains M))) p = count_occ Z.eq_dec (concat (map dm_ids (domains M))) q.
Proof.
  intros ng ideal P bs M p q G HP H Hp Hq. apply init_mesh_facts in H; auto. destruct H as (lv & _ & _ & _ & _ & _ & _ & ID & T & _).
  assert (E := ids_concat P HP _ 0 ltac:(lia) ID). rewrite E.
  assert (K : exists k, total (domains M) = (k * Z.to_nat P)%nat).
  { exists (Z.to_nat (Z.of_nat (total (domains M)) / P)). assert (D := Z.div_mod (Z.of_nat (total (domains M))) P ltac:(lia)). rewrite T in D.
    assert (0 <= Z.of_nat (total (domains M)) / P) by (apply Z.div_pos; lia). nia. }
  destruct K as [k ->]. rewrite !count_round; auto.
Qed.
Print Assumptions C26_even_load.
Lemma pos_bound : forall a b c l m n, (l < a -> m < b -> n < c -> (n * b + m) * a + l < a * b * c)%nat.
Proof. intros. assert (n * b + m + 1 <= b * c)%nat by nia. assert ((n * b + m + 1) * a <= b * c * a)%nat by (apply Nat.mul_le_mono_r; auto). lia. Qed.
Lemma pos_inj : forall a b l m n l' m' n', (l < a -> m < b -> l' < a -> m' < b -> (n * b + m) * a + l = (n' * b + m') * a + l' -> l = l' /\ m = m' /\ n = n')%nat.
Proof.
  intros a b l m n l' m' n' L M L' M' E.
  assert (E1 : (n * b + m = n' * b + m')%nat).
  { assert (A : (((n * b + m) * a + l) / a = n * b + m)%nat) by (rewrite Nat.div_add_l by lia; rewrite Nat.div_small; lia).
    assert (B : (((n' * b + m') * a + l') / a = n' * b + m')%nat) by (rewrite Nat.div_add_l by lia; rewrite Nat.div_small; lia). congruence. }
  assert (E2 : n = n').
  { assert (A : ((n * b + m) / b = n)%nat) by (rewrite Nat.div_add_l by lia; rewrite Nat.div_small; lia).
    assert (B : ((n' * b + m') / b = n')%nat) by (rewrite Nat.div_add_l by lia; rewrite Nat.div_small; lia). congruence. }
  subst. lia.
Qed.
(** No process has two Grids of one Domain, and all IDs are valid. *)
Theorem C26_one_grid_per_domain : forall ng ideal P bs M d, 0 <= ng -> 0 < P -> init_mesh ng ideal P bs = Ok M -> In d (domains M) ->
  (forall g, valid_grid d g -> 0 <= gid d g < P) /\
  (forall g h, valid_grid d g -> valid_grid d h -> gid d g = gid d h -> g = h).
Proof.
  intros ng ideal P bs M d G HP H I. apply init_mesh_facts in H; auto. destruct (accepted_good _ _ _ _ H d I) as (N & K & _ & _ & NP & LN).
  destruct H as (lv & _ & _ & _ & _ & _ & _ & ID & T & _). destruct (ids_from_in P HP _ 0 d ltac:(lia) ID I) as (s & S & E).
  assert (K1 := K X1). assert (K2 := K X2). assert (K3 := K X3).
  assert (NG : 0 <= ngrids d) by (unfold ngrids; nia).
  assert (LP : Z.of_nat (length (dm_ids d)) <= P) by (rewrite LN; lia).
  assert (ND := round_nodup P s (length (dm_ids d)) HP LP). rewrite <- E in ND.
  assert (PB : forall g, valid_grid d g -> (gpos d g < length (dm_ids d))%nat).
  { intros g V. assert (V1 := V X1). assert (V2 := V X2). assert (V3 := V X3). cbn in V1, V2, V3. rewrite LN. unfold gpos, ngrids.
    set (n1 := dm_NG d X1) in *. set (n2 := dm_NG d X2) in *. set (n3 := dm_NG d X3) in *.
    rewrite <- (Z2Nat.id n1), <- (Z2Nat.id n2), <- (Z2Nat.id n3) by lia.
    rewrite <- !Nat2Z.inj_mul, Nat2Z.id. rewrite !Nat2Z.id.
    assert (gl g < Z.to_nat n1)%nat by lia. assert (gm g < Z.to_nat n2)%nat by lia. assert (gn g < Z.to_nat n3)%nat by lia.
    apply pos_bound; auto. }
  split.
  - intros g V. unfold gid. assert (J : In (nth (gpos d g) (dm_ids d) (-1)) (dm_ids d)) by (apply nth_In; auto).
    rewrite E in J at 2. apply in_map_iff in J. destruct J as (k & <- & _). apply Z.mod_pos_bound. auto.
  - intros g h V U F. unfold gid in F. assert (Q := proj1 (NoDup_nth (dm_ids d) (-1)) ND _ _ (PB g V) (PB h U) F).
    assert (V1 := V X1). assert (V2 := V X2). assert (U1 := U X1). assert (U2 := U X2). cbn in V1, V2, U1, U2. unfold gpos in Q.
    set (a := Z.to_nat (dm_NG d X1)) in *. set (b := Z.to_nat (dm_NG d X2)) in *.
    assert (gl g < a)%nat by lia. assert (gl h < a)%nat by lia. assert (gm g < b)%nat by lia. assert (gm h < b)%nat by lia.
    destruct g as [g1 g2 g3], h as [h1 h2 h3]. cbn [gl gm gn] in *.
    destruct (pos_inj a b g1 g2 g3 h1 h2 h3) as (-> & -> & ->); auto.
Qed.
Print Assumptions C26_one_grid_per_domain.
Lemma find_pos_spec : forall me l, match find_pos me l with
  | Ok p => nth_error l p = Some me /\ forall k, (k < p)%nat -> nth_error l k <> Some me
  | Fatal => ~ In me l | UB => False end.
Proof.
  intros me. induction l as [|x l IH]; cbn; [auto|]. destruct (Z.eqb_spec x me) as [->|N]; [split; auto; intros; lia|].
  destruct (find_pos me l) as [p| |]; cbn.
  - destruct IH as [A B]. split; auto. intros [|k] K; cbn; [congruence|apply B; lia].
  - intuition.
  - auto.
Qed.
Lemma idx_gpos : forall d p, 0 < dm_NG d X1 -> 0 < dm_NG d X2 -> 0 < dm_NG d X3 -> (p < Z.to_nat (ngrids d))%nat ->
  valid_grid d (idx_of_pos d p) /\ gpos d (idx_of_pos d p) = p.
Proof.
  intros d p H1 H2 H3 L. unfold idx_of_pos, gpos, valid_grid. cbn [gl gm gn].
  set (a := Z.to_nat (dm_NG d X1)). set (b := Z.to_nat (dm_NG d X2)).
  assert (A : (a <> 0)%nat) by lia. assert (B : (b <> 0)%nat) by lia.
  assert (M1 := Nat.mod_upper_bound p a A). assert (M2 := Nat.mod_upper_bound (p / a) b B).
  assert (D1 := Nat.div_mod p a A). assert (D2 := Nat.div_mod (p / a) b B).
  split.
  - intros []; cbn [gi_ax gl gm gn]; try lia.
    assert (LL : (p < a * (b * Z.to_nat (dm_NG d X3)))%nat).
    { unfold ngrids in L. unfold a, b. rewrite <- !Z2Nat.inj_mul by lia. rewrite Z.mul_assoc. auto. }
    assert (p / a < b * Z.to_nat (dm_NG d X3))%nat by (apply Nat.div_lt_upper_bound; auto).
    assert (p / a / b < Z.to_nat (dm_NG d X3))%nat by (apply Nat.div_lt_upper_bound; auto). lia.
  - rewrite (Nat.mul_comm (p / a / b) b), <- D2. rewrite Nat.mul_comm. rewrite <- D1. reflexivity.
Qed.
(** get_myGridIndex finds exactly the Grid of the calling process. *)
Theorem C26_my_grid_found : forall ng ideal P bs M d me, 0 <= ng -> 0 < P -> init_mesh ng ideal P bs = Ok M -> In d (domains M) ->
  match get_myGridIndex d me with
  | Ok g => valid_grid d g /\ gid d g = me
  | Fatal => forall g, valid_grid d g -> gid d g <> me
  | UB => False
  end.
Proof.
  intros ng ideal P bs M d me G HP H I. assert (H0 := H). apply init_mesh_facts in H; auto.
  destruct (accepted_good _ _ _ _ H d I) as (N & K & _ & _ & NP & LN).
  unfold get_myGridIndex. assert (F := find_pos_spec me (dm_ids d)). destruct (find_pos me (dm_ids d)) as [p| |]; cbn [bind]; [| |auto].
  - destruct F as [F _]. assert (L : (p < length (dm_ids d))%nat) by (apply nth_error_Some; congruence).
    destruct (idx_gpos d p (K X1) (K X2) (K X3)) as [V E]; [lia|]. split; auto. unfold gid. rewrite E. apply nth_error_nth. auto.
  - intros g V E. apply F. rewrite <- E. unfold gid.
    assert (K1 := K X1). assert (K2 := K X2). assert (K3 := K X3).
    apply nth_In. assert (V1 := V X1). assert (V2 := V X2). assert (V3 := V X3). cbn in V1, V2, V3. rewrite LN. unfold gpos, ngrids.
    set (n1 := dm_NG d X1) in *. set (n2 := dm_NG d X2) in *. set (n3 := dm_NG d X3) in *.
    rewrite <- (Z2Nat.id n1), <- (Z2Nat.id n2), <- (Z2Nat.id n3) by lia.
    rewrite <- !Nat2Z.inj_mul, Nat2Z.id. rewrite !Nat2Z.id.
    assert (gl g < Z.to_nat n1)%nat by lia. assert (gm g < Z.to_nat n2)%nat by lia. assert (gn g < Z.to_nat n3)%nat by lia.
    apply pos_bound; auto.
Qed.
Print Assumptions C26_my_grid_found.

(** ** C28 *)
Definition same_other_axes (g h : gidx) (a : axis) : Prop := forall b, b <> a -> gi_ax g b = gi_ax h b.
Lemma gpos_inj : forall d g h, (forall a, 0 < dm_NG d a) -> valid_grid d g -> valid_grid d h -> gpos d g = gpos d h -> g = h.
Proof.
  intros d g h K V U Q. assert (K1 := K X1). assert (K2 := K X2).
  assert (V1 := V X1). assert (V2 := V X2). assert (U1 := U X1). assert (U2 := U X2). cbn in V1, V2, U1, U2. unfold gpos in Q.
  set (a := Z.to_nat (dm_NG d X1)) in *. set (b := Z.to_nat (dm_NG d X2)) in *.
  assert (gl g < a)%nat by lia. assert (gl h < a)%nat by lia. assert (gm g < b)%nat by lia. assert (gm h < b)%nat by lia.
  destruct g as [g1 g2 g3], h as [h1 h2 h3]. cbn [gl gm gn] in *.
  destruct (pos_inj a b g1 g2 g3 h1 h2 h3) as (-> & -> & ->); auto.
Qed.
Lemma shift_valid : forall d g a, valid_grid d g -> Z.of_nat (gi_ax g a) < dm_NG d a - 1 -> valid_grid d (shift g a true).
Proof. intros d g a V L b. specialize (V b). destruct a, b; cbn in *; lia. Qed.
Lemma shift_valid_l : forall d g a, valid_grid d g -> valid_grid d (shift g a false).
Proof. intros d g a V b. specialize (V b). destruct a, b; cbn in *; lia. Qed.
Theorem C28_neighbours : forall ng ideal P bs M d a g h, 0 <= ng -> 0 < P -> init_mesh ng ideal P bs = Ok M -> In d (domains M) ->
  valid_grid d g -> valid_grid d h ->
  (right_id d g a = Z.of_nat (gpos d h) <-> left_id d h a = Z.of_nat (gpos d g)) /\
  (right_id d g a = Z.of_nat (gpos d h) ->
     gDisp d a (gi_ax h a) = gDisp d a (gi_ax g a) + gNx d a (gi_ax g a) /\ same_other_axes g h a).
Proof.
  intros ng ideal P bs M d a g h G HP H I V U. apply init_mesh_facts in H; auto. destruct (accepted_good _ _ _ _ H d I) as (N & K & _).
  assert (R : right_id d g a = Z.of_nat (gpos d h) <-> h = shift g a true).
  { unfold right_id. split.
    - destruct (Z.ltb_spec (Z.of_nat (gi_ax g a)) (dm_NG d a - 1)); [|lia]. intros E. symmetry. apply (gpos_inj d); auto; [apply shift_valid; auto|lia].
    - intros ->. destruct (Z.ltb_spec (Z.of_nat (gi_ax g a)) (dm_NG d a - 1)); [reflexivity|]. specialize (U a). destruct a; cbn in *; lia. }
  assert (L : left_id d h a = Z.of_nat (gpos d g) <-> (0 < gi_ax h a)%nat /\ g = shift h a false).
  { unfold left_id. split.
    - destruct (Nat.ltb_spec 0 (gi_ax h a)); [|lia]. intros E. split; auto. symmetry. apply (gpos_inj d); auto; [apply shift_valid_l; auto|lia].
    - intros [L ->]. destruct (Nat.ltb_spec 0 (gi_ax h a)); [reflexivity|lia]. }
  split.
  - rewrite R, L. destruct g as [g1 g2 g3], h as [h1 h2 h3]. split.
    + intros ->. destruct a; cbn; split; try lia; f_equal.
    + intros [P0 E]. destruct a; cbn in *; injection E as -> -> ->; f_equal; lia.
  - intros E. apply R in E. subst h. split; [destruct a; reflexivity|]. intros b B. destruct a, b; cbn; congruence.
Qed.
Print Assumptions C28_neighbours.
(** A missing neighbour is reported exactly at the edge of the Domain (Grids that are not
    empty along the axis). *)
Theorem C28_missing_at_edge : forall ng ideal P bs M d a g, 0 <= ng -> 0 < P -> init_mesh ng ideal P bs = Ok M -> In d (domains M) ->
  valid_grid d g -> dm_NG d a <= dm_Nx d a ->
  (left_id d g a = -1 <-> gDisp d a (gi_ax g a) = dm_Disp d a) /\
  (right_id d g a = -1 <-> gDisp d a (gi_ax g a) + gNx d a (gi_ax g a) = dm_Disp d a + dm_Nx d a).
Proof.
  intros ng ideal P bs M d a g G HP H I V L. apply init_mesh_facts in H; auto. destruct (accepted_good _ _ _ _ H d I) as (N & K & _).
  assert (N0 : 0 <= dm_Nx d a) by (specialize (N a); lia).
  assert (Q : 1 <= Z.quot (dm_Nx d a) (dm_NG d a)) by (apply Z.quot_le_lower_bound; [apply K|lia]).
  assert (P1 : forall i, 1 <= gNx d a i) by (intros; unfold gNx; destruct (_ <? _); lia).
  specialize (V a). split.
  - unfold left_id. destruct (Nat.ltb_spec 0 (gi_ax g a)).
    + split; [lia|]. intros E. assert (M1 := gDisp_mono d a N0 (K a) 1 (gi_ax g a) ltac:(lia)). cbn [gDisp] in M1. specialize (P1 0%nat). lia.
    + split; auto. intros _. replace (gi_ax g a) with 0%nat by lia. reflexivity.
  - unfold right_id. assert (EN := gDisp_end d a N0 (K a)).
    change (gDisp d a (gi_ax g a) + gNx d a (gi_ax g a)) with (gDisp d a (S (gi_ax g a))).
    destruct (Z.ltb_spec (Z.of_nat (gi_ax g a)) (dm_NG d a - 1)).
    + split; [lia|]. intros E. assert (M1 := gDisp_mono d a N0 (K a) (S (S (gi_ax g a))) (Z.to_nat (dm_NG d a)) ltac:(lia)).
      cbn [gDisp] in *. specialize (P1 (S (gi_ax g a))). cbn [gDisp] in *. lia.
    + split; auto. intros _. rewrite <- EN. f_equal. lia.
Qed.
Print Assumptions C28_missing_at_edge.
Example C28_example : exists M d, init_mesh 4 (fun _ _ _ => 1) 6 [dom1] = Ok M /\ In d (domains M) /\
  right_id d (Gi 0 1 0) X1 = 4 /\ left_id d (Gi 1 1 0) X1 = 3 /\ right_id d (Gi 2 1 0) X1 = -1.
Proof. eexists. eexists. split; [vm_compute; reflexivity|]. split; [left; reflexivity|]. repeat split. Qed.

(** ** C29 *)
Definition nonempty (b : box) : Prop := forall a, bl b a < br b a.
Theorem C29_checkOverlap : forall p q yes r, nonempty p -> nonempty q -> checkOverlap p q = (yes, r) ->
  (yes = true <-> exists c, in_box (bl p) (br p) c /\ in_box (bl q) (br q) c) /\
  (yes = true -> forall c, in_box (bl r) (br r) c <-> in_box (bl p) (br p) c /\ in_box (bl q) (br q) c).
Proof.
  intros p q yes r NP NQ H. unfold checkOverlap in H. cbv zeta in H. injection H as H1 H2.
  assert (B : yes = true <-> forall a, bl p a < br q a /\ bl q a < br p a).
  { rewrite <- H1. rewrite all3_iff. split; intros X a; specialize (X a).
    - apply andb_true_iff in X. destruct X as [X Y]. apply Z.ltb_lt in X. rewrite Z.gtb_ltb in Y. apply Z.ltb_lt in Y. auto.
    - apply andb_true_iff. rewrite Z.gtb_ltb, !Z.ltb_lt. auto. }
  split.
  - rewrite B. split.
    + intros X. exists (fun a => Z.max (bl p a) (bl q a)). split; intros a; specialize (X a); specialize (NP a); specialize (NQ a); lia.
    + intros (c & C1 & C2) a. specialize (C1 a). specialize (C2 a). lia.
  - intros Y c. rewrite H1, Y in H2. subst r. cbn [overlap_box bl br]. unfold in_box. split.
    + intros X. split; intros a; specialize (X a); lia.
    + intros [X Z] a. specialize (X a). specialize (Z a). lia.
Qed.
Print Assumptions C29_checkOverlap.
Theorem C29_checkOverlapTouch : forall p q yes r, nonempty p -> nonempty q -> checkOverlapTouch p q = (yes, r) ->
  (yes = true <-> exists c c', in_box (bl p) (br p) c /\ in_box (bl q) (br q) c' /\ near c c') /\
  (yes = true -> forall c, in_box (bl r) (br r) c <-> in_box (bl p) (br p) c /\ in_box (bl q) (br q) c).
Proof.
  intros p q yes r NP NQ H. unfold checkOverlapTouch in H. cbv zeta in H. injection H as H1 H2.
  assert (B : yes = true <-> forall a, bl p a <= br q a /\ bl q a <= br p a).
  { rewrite <- H1. rewrite all3_iff. split; intros X a; specialize (X a).
    - apply andb_true_iff in X. destruct X as [X Y]. apply Z.leb_le in X. apply Z.geb_le in Y. auto.
    - apply andb_true_iff. rewrite Z.geb_le, Z.leb_le. auto. }
  split.
  - rewrite B. split.
    + intros X. exists (fun a => if bl p a <? bl q a then Z.min (bl q a) (br p a - 1) else bl p a),
                       (fun a => if bl p a <? bl q a then bl q a else Z.min (bl p a) (br q a - 1)).
      split; [|split]; intros a; specialize (X a); specialize (NP a); specialize (NQ a); destruct (Z.ltb_spec (bl p a) (bl q a)); lia.
    + intros (c & c' & C1 & C2 & C3) a. specialize (C1 a). specialize (C2 a). specialize (C3 a). lia.
  - intros Y c. rewrite H1, Y in H2. subst r. cbn [overlap_box bl br]. unfold in_box. split.
    + intros X. split; intros a; specialize (X a); lia.
    + intros [X Z] a. specialize (X a). specialize (Z a). lia.
Qed.
Print Assumptions C29_checkOverlapTouch.
Example C29_example : exists r, checkOverlap (Box (mk_vec 0 0 0) (mk_vec 4 4 4)) (Box (mk_vec 2 3 1) (mk_vec 8 8 2)) = (true, r) /\ bl r X2 = 3 /\ br r X1 = 4.
Proof. eexists. split; [reflexivity|]. split; reflexivity. Qed.
(** An empty box strictly inside another is reported as overlapping. *)
Theorem C29_empty_box_refuted : exists p q, fst (checkOverlap p q) = true /\ ~ exists c, in_box (bl p) (br p) c /\ in_box (bl q) (br q) c.
Proof.
  exists (Box (mk_vec 2 0 0) (mk_vec 2 4 4)), (Box (mk_vec 0 0 0) (mk_vec 4 4 4)). split; [reflexivity|].
  intros (c & C & _). specialize (C X1). cbn in C. lia.
Qed.

(** ** C27 *)
Lemma find_last_spec : forall x l, match find_last x l with
  | Some i => nth_error l i = Some x
  | None => ~ In x l end.
Proof.
  intros x. induction l as [|y l IH]; cbn; [auto|]. destruct (find_last x l) as [i|]; [auto|].
  destruct (Z.eqb_spec y x) as [->|N]; cbn; [auto|]. intuition.
Qed.
Lemma range_length : forall P l, 0 < P -> NoDup l -> (forall x, In x l -> 0 <= x < P) -> Z.of_nat (length l) <= P.
Proof.
  intros P l HP ND R. assert (I : incl l (map Z.of_nat (seq 0 (Z.to_nat P)))).
  { intros x X. apply in_map_iff. exists (Z.to_nat x). specialize (R x X). split; [lia|apply in_seq; lia]. }
  apply NoDup_incl_length in I; auto. rewrite map_length, seq_length in I. lia.
Qed.
Definition ranks_ok (P : Z) (l : list Z) : Prop := NoDup l /\ forall x, In x l -> 0 <= x < P.
Lemma ranks_snoc : forall P l x, ranks_ok P l -> ~ In x l -> 0 <= x < P -> ranks_ok P (l ++ [x]).
Proof.
  intros P l x [A B] N R. split.
  - apply (proj2 (NoDup_Add (Add_app x l []))). rewrite app_nil_r. auto.
  - intros y I. apply in_app_iff in I. cbn in I. destruct I as [I|[<-|[]]]; auto.
Qed.
Lemma snoc_room : forall P l x, 0 < P -> ranks_ok P l -> ~ In x l -> 0 <= x < P -> Z.of_nat (length l) < P.
Proof.
  intros P l x HP A N R. destruct (ranks_snoc _ _ _ A N R) as [B C]. assert (L := range_length P _ HP B C). rewrite app_length in L. cbn in L. lia.
Qed.
Lemma add_child_ok : forall P ids ranks, 0 < P -> ranks_ok P ranks -> (forall x, In x ids -> 0 <= x < P) ->
  exists r q, add_child P ranks ids = Ok (r, q) /\ ranks_ok P r /\ length q = length ids /\ incl ranks r /\ incl ids r.
Proof.
  intros P. induction ids as [|x ids IH]; intros ranks HP R I; cbn [add_child].
  - exists ranks, []. split; [reflexivity|]. split; [auto|]. split; [reflexivity|]. split; [intros y Y; auto|intros y []].
  - assert (F := find_last_spec x ranks). destruct (find_last x ranks) as [i|].
    + destruct (IH ranks HP R) as (r & q & E & A & B & C & D); [intros; apply I; right; auto|]. rewrite E. cbn [bind]. do 2 eexists. split; [reflexivity|].
      split; auto. split; [cbn; congruence|]. split; auto. intros y [<-|Y]; auto. apply C. eapply nth_error_In; eauto.
    + assert (X : 0 <= x < P) by (apply I; left; auto).
      assert (L := snoc_room P ranks x HP R F X). destruct (Z.ltb_spec (Z.of_nat (length ranks)) P); [|lia].
      destruct (IH (ranks ++ [x]) HP (ranks_snoc _ _ _ R F X)) as (r & q & E & A & B & C & D); [intros; apply I; right; auto|]. rewrite E. cbn [bind]. do 2 eexists. split; [reflexivity|].
      split; auto. split; [cbn; congruence|]. split; [intros y Y; apply C, in_app_iff; auto|]. intros y [<-|Y]; auto. apply C, in_app_iff. cbn. auto.
Qed.
Lemma add_children_ok : forall P p cs ranks, 0 < P -> ranks_ok P ranks -> (forall c x, In c cs -> In x (dm_ids c) -> 0 <= x < P) ->
  exists r qs, add_children P p ranks cs = Ok (r, qs) /\ ranks_ok P r /\ length qs = length cs.
Proof.
  intros P p. induction cs as [|c cs IH]; intros ranks HP R I; cbn [add_children].
  - exists ranks, []. auto.
  - destruct (overlap _ _).
    + destruct (add_child_ok P (dm_ids c) ranks HP R) as (r & q & E & A & _); [intros; eapply I; eauto; left; auto|]. rewrite E. cbn [bind].
      destruct (IH r HP A) as (r' & qs & E' & A' & B'); [intros; eapply I; eauto; right; auto|]. rewrite E'. cbn [bind]. do 2 eexists. split; [reflexivity|]. split; auto. cbn; congruence.
    + destruct (IH ranks HP R) as (r' & qs & E' & A' & B'); [intros; eapply I; eauto; right; auto|]. rewrite E'. cbn [bind]. do 2 eexists. split; [reflexivity|]. split; auto. cbn; congruence.
Qed.
Lemma accepted_ids : forall ng P bs M d, 0 < P -> accepted_facts ng P bs M -> In d (domains M) -> ranks_ok P (dm_ids d).
Proof.
  intros ng P bs M d HP H I. destruct (accepted_good _ _ _ _ H d I) as (N & K & _ & _ & NP & LN).
  destruct H as (lv & _ & _ & _ & _ & _ & _ & ID & T & _). destruct (ids_from_in P HP _ 0 d ltac:(lia) ID I) as (s & S & E).
  assert (K1 := K X1). assert (K2 := K X2). assert (K3 := K X3).
  assert (NG : 0 <= ngrids d) by (unfold ngrids; nia).
  split.
  - rewrite E. apply round_nodup; auto. rewrite LN. lia.
  - intros x X. rewrite E in X. apply in_map_iff in X. destruct X as (k & <- & _). apply Z.mod_pos_bound. auto.
Qed.
Lemma level_dom : forall M nl l d, nth_error (ms_levels M) nl = Some l -> In d l -> In d (domains M).
Proof. intros M nl l d L I. unfold domains. apply in_concat. exists l. split; auto. eapply nth_error_In; eauto. Qed.
(** Building the communicator of a parent and its children never runs past the array of
    ranks; its members are distinct valid processes. *)
Theorem C27_no_overflow : forall ng ideal P bs M nl ps cs p, 0 <= ng -> 0 < P -> init_mesh ng ideal P bs = Ok M ->
  nth_error (ms_levels M) nl = Some ps -> nth_error (ms_levels M) (S nl) = Some cs -> In p ps ->
  exists ranks qs, comm_children P p cs = Ok (ranks, qs) /\ NoDup ranks /\ (forall x, In x ranks -> 0 <= x < P).
Proof.
  intros ng ideal P bs M nl ps cs p G HP H LP LC IP. apply init_mesh_facts in H; auto.
  assert (A := accepted_ids _ _ _ _ p HP H (level_dom _ _ _ _ LP IP)).
  unfold comm_children. destruct (Z.leb_spec (Z.of_nat (length (dm_ids p))) P) as [_|L].
  - destruct (add_children_ok P p cs (dm_ids p) HP A) as (r & qs & E & B & _).
    + intros c x C X. apply (accepted_ids _ _ _ _ c HP H (level_dom _ _ _ _ LC C)). auto.
    + exists r, qs. split; auto.
  - destruct A as [A1 A2]. assert (Q := range_length P _ HP A1 A2). lia.
Qed.
Print Assumptions C27_no_overflow.

(** For the root Domain, ranks[i] = i throughout. *)
Definition upto (n : nat) : list Z := map Z.of_nat (seq 0 n).
Lemma upto_nth : forall n i, (i < n)%nat -> nth_error (upto n) i = Some (Z.of_nat i).
Proof. intros n i L. unfold upto. rewrite nth_error_map. rewrite (nth_error_nth' _ O) by (rewrite seq_length; auto). rewrite seq_nth by auto. reflexivity. Qed.
Lemma upto_in : forall n x, In x (upto n) -> 0 <= x < Z.of_nat n.
Proof. intros n x I. apply in_map_iff in I. destruct I as (k & <- & I). apply in_seq in I. lia. Qed.
Lemma upto_len : forall n, length (upto n) = n.
Proof. intros. unfold upto. rewrite map_length, seq_length. auto. Qed.
Lemma upto_S : forall n, upto n ++ [Z.of_nat n] = upto (S n).
Proof. intros. unfold upto. rewrite seq_S, map_app. reflexivity. Qed.
Definition ranked (ranks : list Z) (ids q : list Z) : Prop := Forall2 (fun x r => 0 <= r /\ nth_error ranks (Z.to_nat r) = Some x) ids q.
Definition run (P : Z) (t m : nat) : list Z := map (fun k => Z.of_nat k mod P) (seq t m).
Lemma add_child_id : forall P, 0 < P -> forall m t, exists q, let n := Nat.min t (Z.to_nat P) in let n' := Nat.min (t + m) (Z.to_nat P) in
  add_child P (upto n) (run P t m) = Ok (upto n', q) /\ q = run P t m.
Proof.
  intros P HP. induction m as [|m IH]; intros t.
  - exists []. cbn. rewrite Nat.add_0_r. auto.
  - cbn [run seq map add_child]. set (n := Nat.min t (Z.to_nat P)). fold (run P (S t) m).
    assert (X := Z.mod_pos_bound (Z.of_nat t) P HP). assert (F := find_last_spec (Z.of_nat t mod P) (upto n)).
    destruct (IH (S t)) as (q & E & Q). cbv zeta in E.
    destruct (le_lt_dec (Z.to_nat P) t) as [L|L].
    + assert (EN : n = Z.to_nat P) by (unfold n; lia).
      destruct (find_last _ (upto n)) as [i|].
      * assert (I : (i < n)%nat) by (rewrite <- (upto_len n); apply nth_error_Some; congruence).
        rewrite upto_nth in F by auto. injection F as F.
        rewrite EN. rewrite Nat.min_r in E by lia. rewrite E. cbn [bind]. eexists. split; [rewrite Nat.min_r by lia; rewrite Nat.min_r by lia; reflexivity|].
        f_equal; [|auto]. rewrite <- EN. erewrite nth_error_nth by (apply upto_nth; auto). auto.
      * exfalso. apply F. unfold upto. apply in_map_iff. exists (Z.to_nat (Z.of_nat t mod P)). split; [lia|apply in_seq; lia].
    + assert (EN : n = t) by (unfold n; lia). assert (EM : Z.of_nat t mod P = Z.of_nat t) by (apply Z.mod_small; lia).
      rewrite EM in *. destruct (find_last _ (upto n)) as [i|].
      * exfalso. apply nth_error_In in F. apply upto_in in F. lia.
      * rewrite upto_len, EN, upto_S. destruct (Z.ltb_spec (Z.of_nat t) P); [|lia].
        rewrite (Nat.min_l (S t)) in E by lia. rewrite E. cbn [bind]. eexists. split; [replace (t + S m)%nat with (S t + m)%nat by lia; reflexivity|].
        f_equal. auto.
Qed.
Lemma ids_run : forall P t d, 0 < P -> dm_ids d = map (fun k => ((Z.of_nat t mod P) + Z.of_nat k) mod P) (seq 0 (length (dm_ids d))) ->
  dm_ids d = run P t (length (dm_ids d)).
Proof.
  intros P t d HP E. rewrite E at 1. unfold run. generalize (length (dm_ids d)). intros n.
  assert (Q : forall n s, map (fun k => (Z.of_nat t mod P + Z.of_nat k) mod P) (seq s n) = map (fun k => Z.of_nat k mod P) (seq (t + s) n)).
  { induction n0 as [|n0 IH]; intros s; auto. cbn [seq map]. rewrite IH. f_equal; [|do 2 f_equal; lia].
    rewrite Z.add_mod_idemp_l by lia. f_equal. lia. }
  rewrite Q. do 2 f_equal. lia.
Qed.
Lemma add_children_id : forall P p, 0 < P -> forall cs t, ids_from P (Z.of_nat t mod P) cs ->
  (forall c, In c cs -> overlap (sides p) (child_sides c) = true) ->
  exists r qs, add_children P p (upto (Nat.min t (Z.to_nat P))) cs = Ok (r, qs) /\ incl (upto (Nat.min t (Z.to_nat P))) r /\ r = upto (length r) /\
    Forall2 (fun c q => exists q', q = Some q' /\ q' = dm_ids c /\ incl (dm_ids c) r) cs qs.
Proof.
  intros P p HP. induction cs as [|c cs IH]; intros t H O; cbn [add_children].
  - do 2 eexists. split; [reflexivity|]. split; [intros x; auto|]. split; [rewrite upto_len; auto|constructor].
  - destruct H as [H1 H2]. rewrite (O c) by (left; auto). assert (E := ids_run P t c HP H1).
    destruct (add_child_id P HP (length (dm_ids c)) t) as (q & A & Q). cbv zeta in A. rewrite <- E in A. rewrite A. cbn [bind].
    destruct (add_child_ok P (dm_ids c) (upto (Nat.min t (Z.to_nat P))) HP) as (r1 & q1 & A1 & R1 & R2 & R3 & R4).
    { split; [unfold upto; apply FinFun.Injective_map_NoDup; [intros x y; lia|apply seq_NoDup]|]. intros x X. apply upto_in in X. lia. }
    { intros x X. rewrite E in X. apply in_map_iff in X. destruct X as (k & <- & _). apply Z.mod_pos_bound. auto. }
    rewrite A in A1. injection A1 as A1 A2.
    destruct (IH (t + length (dm_ids c))%nat) as (r & qs & B & B1 & B2 & B3).
    { rewrite Z.add_mod_idemp_l in H2 by lia. rewrite Nat2Z.inj_add. exact H2. }
    { intros. apply O. right. auto. }
    rewrite B. cbn [bind]. do 2 eexists. split; [reflexivity|]. rewrite A1 in B1. split; [intros x X; apply B1, R3; auto|]. split; auto.
    constructor; auto. exists q. split; auto. split; [congruence|]. intros x X. apply B1, R4. auto.
Qed.
Lemma ids_from_app : forall P, 0 < P -> forall ds es next, ids_from P next (ds ++ es) -> ids_from P next ds /\ ids_from P ((next + Z.of_nat (total ds)) mod P) es.
Proof.
  intros P HP. induction ds as [|d ds IH]; intros es next H.
  - cbn in *. split; auto. destruct es as [|e es]; [cbn; auto|]. cbn in *. rewrite Z.add_0_r.
    destruct H as [A B]. split.
    + rewrite A at 1. apply map_ext. intros k. rewrite Z.add_mod_idemp_l by lia. reflexivity.
    + rewrite Z.add_mod_idemp_l by lia. auto.
  - cbn [app ids_from] in H. destruct H as [A B]. apply IH in B. destruct B as [B C]. split; [split; auto|].
    cbn [total map concat fold_right] in *. rewrite Z.add_mod_idemp_l in C by lia. replace (next + Z.of_nat (total (d :: ds))) with (next + Z.of_nat (length (dm_ids d)) + Z.of_nat (total ds)); auto.
    unfold total. cbn [map concat]. rewrite app_length. lia.
Qed.
Lemma overlap_shared : forall root nDim p c f q, wf_dom root nDim p -> wf_dom root nDim c -> dm_level c <> O ->
  in_domain c f -> over nDim f q -> in_domain p q -> overlap (sides p) (child_sides c) = true.
Proof.
  intros root nDim p c f q (P1 & P2 & P3 & P4 & P5 & P6 & P7) (C1 & C2 & _ & _ & C5 & C6 & _) LV FC OV FP.
  unfold overlap. apply all3_iff. intros b. cbn [bl br sides]. rewrite Z.gtb_ltb.
  assert (FCb := FC b). assert (FPb := FP b). destruct (OV b) as [O1 O2].
  destruct (in_dec (fun x y : axis => ltac:(decide equality)) b (axes nDim)) as [B|B].
  - specialize (O1 B). destruct (C6 b B) as [Q1 Q2]. destruct (dm_level c) as [|nl]; [congruence|]. rewrite irefine_S in Q1, Q2. assert (IP := irefine_pos nl).
    apply rem0_mult in Q1; [|lia]. apply rem0_mult in Q2; [|lia]. destruct Q1 as [k1 Q1], Q2 as [k2 Q2].
    assert (N := proj1 (C2 b) B). cbn [child_sides bl br]. destruct (Z.ltb_spec 1 (dm_Nx c b)); [|lia].
    assert (U : dm_Disp c b = k2 * irefine nl * 2) by lia. assert (V : dm_Disp c b + dm_Nx c b = (k1 + k2) * irefine nl * 2) by lia.
    rewrite V, U, !Z.quot_mul by lia.
    assert (D := Z.div_mod (f b) 2 ltac:(lia)). assert (DB := Z.mod_pos_bound (f b) 2 ltac:(lia)).
    apply andb_true_iff. split; apply Z.ltb_lt; lia.
  - specialize (O2 B). assert (N := C2 b). assert (Y := C1 b). assert (N1 : dm_Nx c b = 1) by (destruct (Z_lt_le_dec 1 (dm_Nx c b)); [tauto|lia]).
    assert (D1 := C5 b B). assert (D2 := P5 b B). cbn [child_sides bl br]. rewrite N1, D1, D2.
    change (Z.quot 0 2) with 0. change (1 <? 1) with false. cbn iota. assert (Q := P1 b). apply andb_true_iff. split; apply Z.ltb_lt; lia.
Qed.
(** Communicators between the root Domain and the Domains of level 1: the rank stored for
    a child Grid is the rank of its process. *)
Theorem C27_two_levels_partial : forall ng ideal P bs M p cs, 0 <= ng -> 0 < P -> init_mesh ng ideal P bs = Ok M ->
  nth_error (ms_levels M) 0 = Some [p] -> nth_error (ms_levels M) 1 = Some cs ->
  (forall c, In c cs -> exists f q, in_domain c f /\ over (ms_nDim M) f q /\ in_domain p q) ->
  exists ranks qs, comm_children P p cs = Ok (ranks, qs) /\
    (forall i x, nth_error (dm_ids p) i = Some x -> nth_error ranks i = Some x) /\
    Forall2 (fun c q => exists q', q = Some q' /\ ranked ranks (dm_ids c) q') cs qs.
Proof.
  intros ng ideal P bs M p cs G HP H LP LC OV. apply init_mesh_facts in H; auto.
  assert (A := accepted_ids _ _ _ _ p HP H (level_dom _ _ _ _ LP (or_introl eq_refl))).
  destruct H as (lv & NZ & W & _ & _ & F & _ & ID & _). unfold domains in ID.
  destruct (ms_levels M) as [|l0 [|l1 ls]] eqn:EM; try discriminate. injection LP as ->. injection LC as ->.
  cbn [concat app] in ID. destruct ID as [I0 I1]. apply ids_from_app in I1; auto. destruct I1 as [I1 _].
  unfold comm_children. destruct A as [A1 A2]. assert (LN := range_length P _ HP A1 A2).
  destruct (Z.leb_spec (Z.of_nat (length (dm_ids p))) P) as [_|]; [|lia].
  assert (E0 : dm_ids p = upto (length (dm_ids p))).
  { rewrite I0 at 1. apply map_ext_in. intros k K. apply in_seq in K. rewrite Z.add_0_l. apply Z.mod_small. lia. }
  destruct (add_children_id P p HP cs (length (dm_ids p))) as (r & qs & B & B1 & B2 & B3).
  { rewrite Z.add_0_l in I1. auto. }
  { inversion F as [|a b c d F1 F2]; subst. inversion F2 as [|a' b' c' d' F3 F4]; subst.
    intros c C. destruct (OV c C) as (f & q & C1 & C2 & C3). destruct (In_nth_error _ _ C) as [j J].
    destruct (geo_in _ _ _ _ F3 J) as (c0 & J0 & G0).
    destruct (geo_in _ [p] 0 p F1 eq_refl) as (p0 & K0 & H0). apply nth_error_In in J0, K0.
    destruct (W 0%nat a p0 eq_refl K0) as [WP EP]. destruct (W 1%nat a' c0 eq_refl J0) as [WC EC].
    destruct G0 as (_ & _ & CN & CD), H0 as (_ & _ & PN & PD).
    assert (OO : overlap (sides p0) (child_sides c0) = true).
    { apply (overlap_shared (ms_Nx M) (ms_nDim M) p0 c0 f q); auto; [congruence| |]; intros bb; [specialize (C1 bb); rewrite CN, CD in C1|specialize (C3 bb); rewrite PN, PD in C3]; auto. }
    unfold sides, child_sides in *. rewrite CN, CD, PN, PD. exact OO. }
  rewrite Nat.min_l in B, B1 by lia. rewrite <- E0 in B, B1. exists r, qs. split; auto.
  assert (RI : forall x, In x r -> 0 <= x /\ nth_error r (Z.to_nat x) = Some x).
  { intros x X. rewrite B2 in X. apply upto_in in X. split; [lia|]. rewrite B2. rewrite upto_nth by lia. f_equal. lia. }
  split.
  - intros i x E. assert (X : In x r) by (apply B1; eapply nth_error_In; eauto). apply RI in X. destruct X as [X1 X2].
    assert (L : (i < length (dm_ids p))%nat) by (apply nth_error_Some; congruence). rewrite E0 in E. rewrite upto_nth in E by auto. injection E as <-.
    rewrite Nat2Z.id in X2. auto.
  - clear - B3 RI. induction B3 as [|c q cs qs (q' & Q1 & Q2 & Q3) B3 IH]; constructor; auto. exists q'. split; auto. subst q'.
    clear - Q3 RI. unfold ranked. induction (dm_ids c) as [|x l IH]; constructor; auto.
    + apply RI, Q3. left. auto.
    + apply IH. intros y Y. apply Q3. right. auto.
Qed.
Print Assumptions C27_two_levels_partial.
Example C27_example : exists M p cs, init_mesh 4 (fun _ _ _ => 1) 2 [Blk 0 (mk_vec 32 32 1) (mk_vec 0 0 0) (mk_vec 2 1 1) 0; Blk 1 (mk_vec 16 16 1) (mk_vec 8 8 0) (mk_vec 2 1 1) 0] = Ok M /\
  nth_error (ms_levels M) 0 = Some [p] /\ nth_error (ms_levels M) 1 = Some cs /\ cs <> [] /\
  (forall c, In c cs -> exists f q, in_domain c f /\ over (ms_nDim M) f q /\ in_domain p q).
Proof.
  eexists. eexists. eexists. split; [vm_compute; reflexivity|]. split; [reflexivity|]. split; [reflexivity|]. split; [discriminate|].
  intros c [<-|[]]. exists (mk_vec 8 8 0), (mk_vec 4 4 0). split; [intros []; cbn; lia|]. split; [|intros []; cbn; lia].
  intros []; cbn; (split; [intros _|intros X; try (exfalso; apply X; tauto)]); try reflexivity.
Qed.
(** With three levels the stored rank can be the rank of another process
    (src/init_mesh.c:797 stores ranks[irank], a world ID, where irank is meant). *)
Theorem C27_refuted : exists bs M p c ranks q, init_mesh 4 (fun _ _ _ => 1) 2 bs = Ok M /\
  nth_error (ms_levels M) 1 = Some [p] /\ nth_error (ms_levels M) 2 = Some [c] /\
  comm_children 2 p [c] = Ok (ranks, [Some q]) /\
  exists i x r, nth_error (dm_ids c) i = Some x /\ nth_error q i = Some r /\ 0 <= r /\ nth_error ranks (Z.to_nat r) <> Some x.
Proof.
  exists [root32; lvl1; Blk 2 (mk_vec 16 16 1) (mk_vec 24 24 0) (mk_vec 2 1 1) 0]. do 5 eexists.
  split; [vm_compute; reflexivity|]. split; [reflexivity|]. split; [reflexivity|]. split; [vm_compute; reflexivity|].
  exists 1%nat, 1, 1. repeat split; try lia; discriminate.
Qed.
Print Assumptions C27_refuted.
