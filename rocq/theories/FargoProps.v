(** * C91: orbital advection *)
From Coq Require Import Reals ZArith Bool Lia Lra Psatz List.
From Verif Require Import CStr PosModel GasModel ReconModel IntegModel IntegSpec IntegFacts SumFacts MeshModel ShearModel ShearSpec ShearFacts ShearProps ShearFlux FargoModel.
Import ListNotations.
Open Scope R_scope.

(** ** One column *)
Lemma fold_plus : forall (f : Z -> R) l a, fold_left (fun a jj => a + f jj) l a = a + fold_right (fun jj s => f jj + s) 0 l.
Proof. intros f l. induction l as [|x l IH]; intros a; cbn; [ring|]. rewrite IH. ring. Qed.
Lemma fold_minus : forall (f : Z -> R) l a, fold_left (fun a jj => a - f jj) l a = a - fold_right (fun jj s => f jj + s) 0 l.
Proof. intros f l. induction l as [|x l IH]; intros a; cbn; [ring|]. rewrite IH. ring. Qed.
Lemma fold_from_to : forall f l u, fold_right (fun jj s => f jj + s) 0 (from_to l u) = sumZ l u f.
Proof. intros f l u. unfold from_to, sumZ. induction (seq 0 (Z.to_nat (u - l + 1))) as [|x s IH]; [reflexivity|]. cbn. rewrite IH. reflexivity. Qed.
Lemma fargo_flux_eq : forall third U m eps j, fargo_flux third U m eps j =
  RemapFlux third U eps (j - m) + sumZ 1 m (fun jj => U (j - jj)%Z) - sumZ (m + 1) 0 (fun jj => U (j - jj)%Z).
Proof. intros. unfold fargo_flux. cbv zeta. rewrite (fold_plus (fun jj => U (j - jj)%Z)), (fold_minus (fun jj => U (j - jj)%Z)), !fold_from_to. reflexivity. Qed.
Lemma sum_back : forall U j l u, (l <= u + 1)%Z ->
  sumZ l u (fun jj => U (j + 1 - jj)%Z) - sumZ l u (fun jj => U (j - jj)%Z) = U (j + 1 - l)%Z - U (j - u)%Z.
Proof.
  intros U j l u H. rewrite <- sumZ_minus.
  rewrite (sumZ_ext l u _ (fun jj => - U (j + 1 - (jj + 1))%Z - - U (j + 1 - jj)%Z)).
  - rewrite (sumZ_tele l u (fun jj => - U (j + 1 - jj)%Z)) by exact H. replace (j + 1 - (u + 1))%Z with (j - u)%Z by lia. ring.
  - intros i _. replace (j + 1 - (i + 1))%Z with (j - i)%Z by lia. ring.
Qed.
(** The update of one column is the remap displaced by whole cells. *)
Lemma column : forall third U m eps j, U j - (fargo_flux third U m eps (j + 1) - fargo_flux third U m eps j) = remap third eps U (j - m).
Proof.
  intros third U m eps j. rewrite !fargo_flux_eq. unfold remap.
  replace (j - m + 1)%Z with (j + 1 - m)%Z by lia.
  destruct (Z.le_gt_cases 0 m) as [Hm|Hm].
  - rewrite !(sumZ_empty (m + 1) 0) by lia. pose proof (sum_back U j 1 m ltac:(lia)) as S. replace (j + 1 - 1)%Z with j in S by lia. lra.
  - rewrite !(sumZ_empty 1 m) by lia. pose proof (sum_back U j (m + 1) 0 ltac:(lia)) as S. replace (j + 1 - (m + 1))%Z with (j - m)%Z in S by lia.
    replace (j - 0)%Z with j in S by lia. lra.
Qed.
Lemma flux_local : forall third U U' m eps j j' L, (Z.abs m <= L)%Z ->
  (forall d, (- L - 3 <= d <= L + 3)%Z -> U (j + d)%Z = U' (j' + d)%Z) ->
  RemapFlux third U eps (j - m) = RemapFlux third U' eps (j' - m) -> fargo_flux third U m eps j = fargo_flux third U' m eps j'.
Proof.
  intros third U U' m eps j j' L HL H E. rewrite !fargo_flux_eq, E. f_equal; [f_equal|].
  - apply sumZ_ext. intros i Hi. replace (j - i)%Z with (j + - i)%Z by lia. replace (j' - i)%Z with (j' + - i)%Z by lia. apply H. lia.
  - apply sumZ_ext. intros i Hi. replace (j - i)%Z with (j + - i)%Z by lia. replace (j' - i)%Z with (j' + - i)%Z by lia. apply H. lia.
Qed.
Lemma RemapFlux_local : forall third U U' eps f f', (forall d, (-3 <= d <= 2)%Z -> U (f + d)%Z = U' (f' + d)%Z) ->
  RemapFlux third U eps f = RemapFlux third U' eps f'.
Proof.
  intros third U U' eps f f' H.
  assert (S2 : forall d, (-1 <= d <= 0)%Z -> rf_slope U (f + d) = rf_slope U' (f' + d)).
  { intros d Hd. unfold rf_slope. cbv zeta. replace (f + d + 1)%Z with (f + (d + 1))%Z by lia. replace (f + d - 1)%Z with (f + (d - 1))%Z by lia.
    replace (f' + d + 1)%Z with (f' + (d + 1))%Z by lia. replace (f' + d - 1)%Z with (f' + (d - 1))%Z by lia. rewrite !H by lia. reflexivity. }
  assert (S3 : forall d, (-1 <= d <= 0)%Z -> rf_ends U (f + d) = rf_ends U' (f' + d)).
  { intros d Hd. unfold rf_ends. cbv zeta.
    assert (PH : forall e, (-1 <= e <= 1)%Z -> prim3_half (fun i _ => U i) (f + e) 0 = prim3_half (fun i _ => U' i) (f' + e) 0).
    { intros e He. unfold prim3_half. cbv zeta.
      replace (f + e - 1)%Z with (f + (e - 1))%Z by lia. replace (f + e - 2)%Z with (f + (e - 2))%Z by lia. replace (f + e + 1)%Z with (f + (e + 1))%Z by lia.
      replace (f' + e - 1)%Z with (f' + (e - 1))%Z by lia. replace (f' + e - 2)%Z with (f' + (e - 2))%Z by lia. replace (f' + e + 1)%Z with (f' + (e + 1))%Z by lia.
      rewrite !H by lia. reflexivity. }
    rewrite (PH d) by lia. replace (f + d + 1)%Z with (f + (d + 1))%Z by lia. replace (f' + d + 1)%Z with (f' + (d + 1))%Z by lia. rewrite (PH (d + 1)%Z) by lia.
    set (l := prim3_half _ (f' + d)%Z _). set (r := prim3_half _ _ _). clearbody l r.
    assert (PE : prim3_extremum (fun i _ => U i) (f + d) 0 l r = prim3_extremum (fun i _ => U' i) (f' + d) 0 l r).
    { unfold prim3_extremum. cbv zeta.
      replace (f + d - 1)%Z with (f + (d - 1))%Z by lia. replace (f + d - 2)%Z with (f + (d - 2))%Z by lia. replace (f + d + 1)%Z with (f + (d + 1))%Z by lia. replace (f + d + 2)%Z with (f + (d + 2))%Z by lia.
      replace (f' + d - 1)%Z with (f' + (d - 1))%Z by lia. replace (f' + d - 2)%Z with (f' + (d - 2))%Z by lia. replace (f' + d + 1)%Z with (f' + (d + 1))%Z by lia. replace (f' + d + 2)%Z with (f' + (d + 2))%Z by lia.
      rewrite !H by lia. reflexivity. }
    rewrite PE, H by lia. reflexivity. }
  pose proof (S2 0%Z ltac:(lia)) as S20. pose proof (S2 (-1)%Z ltac:(lia)) as S21. pose proof (S3 0%Z ltac:(lia)) as S30. pose proof (S3 (-1)%Z ltac:(lia)) as S31.
  pose proof (H 0%Z ltac:(lia)) as H0. pose proof (H (-1)%Z ltac:(lia)) as H1. rewrite !Z.add_0_r in *.
  unfold RemapFlux, RemapFlux2, RemapFlux3. cbv zeta. replace (f - 1)%Z with (f + -1)%Z by lia. replace (f' - 1)%Z with (f' + -1)%Z by lia.
  rewrite S20, S21, S30, S31, H0, H1. reflexivity.
Qed.

(** ** The displacement of a column *)
(** [trunc_to]: y = (m + e)*dx2 with e of the sign of y and |e| < 1. *)
Definition split_shift (y dx2 : R) (m : Z) (e : R) : Prop := y = (IZR m + e) * dx2 /\ Rabs e < 1 /\ 0 <= e * y /\ 0 <= IZR m * y.
Lemma c_int_out : forall a, (Rabs a < IZR (2 ^ 31)) -> exists z, c_int a = Ok z /\ z = (if Rle_dec 0 a then Int_part a else - Int_part (- a))%Z.
Proof.
  intros a H. unfold c_int. cbv zeta. eexists. split; [|reflexivity].
  match goal with |- (if ?b then _ else _) = _ => assert (E : b = true) end.
  2:{ rewrite E. reflexivity. }
  apply andb_true_iff. unfold INT_MIN, INT_MAX. apply Rabs_def2 in H. destruct H as [H1 H2].
  destruct (Rle_dec 0 a) as [Ha|Ha].
  - pose proof (Int_part_bound a) as B. pose proof (Int_part_nonneg a Ha) as N. assert (Int_part a < 2 ^ 31)%Z by (apply lt_IZR; lra). split; apply Z.leb_le; lia.
  - pose proof (Int_part_bound (- a)) as B. pose proof (Int_part_nonneg (- a) ltac:(lra)) as N. assert (Int_part (- a) < 2 ^ 31)%Z by (apply lt_IZR; lra). split; apply Z.leb_le; lia.
Qed.
Lemma fargo_shift_ok : forall y dx2 lim, 0 < dx2 -> Rabs (y / dx2) < IZR (2 ^ 31) ->
  exists m e, split_shift y dx2 m e /\
    fargo_shift y dx2 lim = if (lim <? Z.abs m)%Z then Fatal else Ok (m, e).
Proof.
  intros y dx2 lim Hd Hr. destruct (c_int_out (y / dx2) Hr) as [z [Ez Hz]].
  exists z, (fmod y dx2 / dx2). split.
  - unfold split_shift. set (q := y / dx2) in *. assert (Y : y = q * dx2) by (unfold q; field; lra).
    assert (FM : fmod y dx2 / dx2 = q - IZR z).
    { unfold fmod. fold q. rewrite <- Hz. rewrite Y. field. lra. }
    rewrite FM. clearbody q. split; [rewrite Y; ring|].
    destruct (Rle_dec 0 q) as [P|P].
    + pose proof (Int_part_bound q) as B. pose proof (Int_part_nonneg q P) as N. rewrite <- Hz in B, N. apply IZR_le in N. split; [apply Rabs_def1; lra|]. split; [|rewrite Y; assert (0 <= q * dx2) by nra; nra].
      rewrite Y. assert (0 <= q * dx2) by nra. nra.
    + pose proof (Int_part_bound (- q)) as B. pose proof (Int_part_nonneg (- q) ltac:(lra)) as N. replace (Int_part (- q)) with (- z)%Z in B, N by lia. rewrite opp_IZR in B.
      apply IZR_le in N. rewrite opp_IZR in N. assert (q * dx2 <= 0) by nra. split; [apply Rabs_def1; lra|]. rewrite Y. split; nra.
  - unfold fargo_shift. rewrite Ez. cbn [bind]. destruct (lim <? Z.abs z)%Z; reflexivity.
Qed.

Section Line.
Variables (third three : bool) (ns : nat) (qshear Omega_0 dt dx1 dx2 dx3 : R) (xc : Z -> R).
Variables (jfs : Z) (NG js n : Z) (D : Z -> Z -> Z -> zone) (G : Z -> Z -> Z -> Z -> zone).
Hypothesis HN : (0 < NG)%Z.
Hypothesis Hjs : (3 <= js)%Z.
Hypothesis Hjf : (js <= jfs <= n)%Z.
Hypothesis HD : forall k i, periodic (NG * n) (fun J => D k J i).
Hypothesis HG : holds 0 NG js n D G.
Let q := qshear * Omega_0 * dt.
(** A variable along the whole line. *)
Definition along (k i : Z) (v : rvar) (J : Z) : R := fargo_var (qshear * Omega_0 * dt) (D k J i) v.
Lemma along_periodic : forall k i v, periodic (NG * n) (along k i v).
Proof. intros k i v J. unfold along. pose proof (HD k i J) as P. cbn beta in P. rewrite P. reflexivity. Qed.
Lemma vars_ok : forall p k i v j, (0 <= p < NG)%Z -> (jfs - jfs <= j <= n + jfs - 1 + jfs)%Z ->
  fargo_vars qshear Omega_0 dt jfs NG js n G p k i v j = along k i v (row_of jfs n p j).
Proof.
  intros p k i v j Hp Hj. unfold fargo_vars. cbv zeta.
  assert (K : forall r j' c, (0 <= r < NG)%Z -> (jfs <= j' <= jfs + n - 1)%Z -> row_of jfs n p j = (row_of jfs n r j' + c * (NG * n))%Z ->
    fargo_var (qshear * Omega_0 * dt) (G r k (j' - (jfs - js))%Z i) v = along k i v (row_of jfs n p j)).
  { intros r j' c Hr Hj' E. rewrite E. rewrite (periodic_mult (along k i v) _ (along_periodic k i v)).
    rewrite HG by (try assumption; lia). unfold along. do 2 f_equal. unfold row_of. lia. }
  destruct (j <? jfs)%Z eqn:E1; [apply Z.ltb_lt in E1|apply Z.ltb_ge in E1].
  - destruct (NG =? 1)%Z eqn:E2; [apply Z.eqb_eq in E2|apply Z.eqb_neq in E2].
    + apply (K p (j + n)%Z (-1)%Z); try lia; unfold row_of; nia.
    + destruct (down_ring NG p 1 Hp ltac:(lia)) as [D1 [D2|D2]].
      * apply (K _ (j + n)%Z 0%Z); try lia; unfold row_of; rewrite D2; nia.
      * apply (K _ (j + n)%Z (-1)%Z); try lia; unfold row_of; rewrite D2; nia.
  - destruct (n + jfs - 1 <? j)%Z eqn:E3; [apply Z.ltb_lt in E3|apply Z.ltb_ge in E3].
    + destruct (NG =? 1)%Z eqn:E2; [apply Z.eqb_eq in E2|apply Z.eqb_neq in E2].
      * apply (K p (j - n)%Z 1%Z); try lia; unfold row_of; nia.
      * destruct (up_ring NG p 1 Hp ltac:(lia)) as [D1 [D2|D2]].
        -- apply (K _ (j - n)%Z 0%Z); try lia; unfold row_of; rewrite D2; nia.
        -- apply (K _ (j - n)%Z 1%Z); try lia; unfold row_of; rewrite D2; nia.
    + apply (K p j 0%Z); try lia.
Qed.
(** The flux of Grid p is the flux of the line. *)
Lemma flux_ok : forall p k i v m e j, (0 <= p < NG)%Z -> (Z.abs m <= jfs - js)%Z -> (jfs <= j <= n + jfs)%Z ->
  fargo_flux third (fargo_vars qshear Omega_0 dt jfs NG js n G p k i v) m e j = fargo_flux third (along k i v) m e (row_of jfs n p j).
Proof.
  intros p k i v m e j Hp Hm Hj.
  assert (V : forall d, (- (jfs - js) - 3 <= d <= jfs - js + 2)%Z -> fargo_vars qshear Omega_0 dt jfs NG js n G p k i v (j + d)%Z = along k i v (row_of jfs n p j + d)%Z).
  { intros d Hd. rewrite vars_ok by lia. f_equal. unfold row_of. lia. }
  rewrite !fargo_flux_eq. f_equal; [f_equal|].
  - apply RemapFlux_local. intros d Hd. replace (j - m + d)%Z with (j + (d - m))%Z by lia. rewrite V by lia. f_equal. lia.
  - apply sumZ_ext. intros x Hx. replace (j - x)%Z with (j + - x)%Z by lia. rewrite V by lia. reflexivity.
  - apply sumZ_ext. intros x Hx. replace (j - x)%Z with (j + - x)%Z by lia. rewrite V by lia. reflexivity.
Qed.
Lemma row_shift : forall p j, row_of jfs n p (j - js + jfs) = row_of js n p j. Proof. intros. unfold row_of. lia. Qed.

(** The displacement in the form of the specification. *)
Lemma split_carried : forall y m e U J, 0 < dx2 -> split_shift y dx2 m e ->
  remap third e U (J - m) = carried (if Rle_dec 0 y then true else false) third (Z.abs m) (Rabs e) U J /\
  Rabs y = (IZR (Z.abs m) + Rabs e) * dx2 /\ 0 <= Rabs e < 1.
Proof.
  intros y m e U J Hd [Ey [He [Se Sm]]]. split; [|split; [|split; [apply Rabs_pos|exact He]]].
  - destruct (Req_EM_T y 0) as [Y0|Y0].
    + (* no displacement *)
      assert (Z0 : IZR m + e = 0) by (apply (Rmult_eq_reg_r dx2); lra). apply Rabs_def2 in He.
      assert (m = 0)%Z. { assert (-1 < m)%Z by (apply lt_IZR; lra). assert (m < 1)%Z by (apply lt_IZR; lra). lia. }
      subst m. assert (e = 0) by lra. subst e. unfold carried. rewrite Rabs_R0, Ropp_0. cbn [Z.abs]. destruct (Rle_dec 0 y); rewrite ?Z.sub_0_r, ?Z.add_0_r; reflexivity.
    + destruct (Rle_dec 0 y) as [Hy|Hy].
      * assert (0 <= e) by nra. assert (Hm : 0 <= IZR m) by nra. apply le_IZR in Hm. unfold carried. rewrite Z.abs_eq by lia. rewrite Rabs_right by lra. reflexivity.
      * assert (e <= 0) by nra. assert (Hm : IZR m <= 0) by nra. apply le_IZR in Hm. unfold carried. rewrite Z.abs_neq by lia.
        rewrite (Rabs_left1 e) by assumption. rewrite Ropp_involutive. replace (J + - m)%Z with (J - m)%Z by lia. reflexivity.
  - rewrite abs_IZR. rewrite Ey, Rabs_mult, (Rabs_right dx2) by lra. f_equal.
    destruct (Req_EM_T y 0) as [Y0|Y0].
    + assert (Z0 : IZR m + e = 0) by (apply (Rmult_eq_reg_r dx2); lra). pose proof (Rabs_def2 _ _ He).
      assert (m = 0)%Z. { assert (-1 < m)%Z by (apply lt_IZR; lra). assert (m < 1)%Z by (apply lt_IZR; lra). lia. }
      subst m. assert (e = 0) by lra. subst e. rewrite Rplus_0_r, Rabs_R0. ring.
    + destruct (Rle_dec 0 y) as [Hy|Hy].
      * assert (0 <= e) by nra. assert (0 <= IZR m) by nra. rewrite !Rabs_right by lra. ring.
      * assert (e <= 0) by nra. assert (IZR m <= 0) by nra. rewrite !Rabs_left1 by lra. ring.
Qed.
End Line.

(** ** Specification *)
(** The profile [U] along the orbit becomes [U'] when it moves by [y]: the remap of C89 (conservative,
    exact for whole cells and for linear profiles, without new extrema at second order). *)
Definition slid (third : bool) (y dx2 : R) (U U' : Z -> R) : Prop :=
  exists m e, (0 <= m)%Z /\ 0 <= e < 1 /\ Rabs y = (IZR m + e) * dx2 /\
    forall J, U' J = carried (if Rle_dec 0 y then true else false) third m e U J.
(** The state with the work of the background shear q = qshear*Omega_0*dt on the gas and the field added to the energy. *)
Definition sheared_value (q : R) (z : zone) (v : rvar) : R :=
  match v with
  | VE => let u := zU z in cE u + q * (cM1 u * cM2 u / cd u - cB1 u * cB2 u) + q * q * (cB1 u * cB1 u) / 2
  | _ => value z v
  end.
Definition centred (ns : nat) (v : rvar) : Prop :=
  match v with Vd | VM1 | VM2 | VM3 | VE => True | Vs m => (m < ns)%nat | _ => False end.
(** [D'] is periodic and on the line of Grids [G' p k j i]. *)
Definition new_state (NG js n : Z) (G' : Z -> Z -> Z -> Z -> res zone) (D' : Z -> Z -> Z -> zone) (is_ ie : Z) : Prop :=
  (forall p k j i, (0 <= p < NG)%Z -> (js <= j <= js + n - 1)%Z -> (is_ <= i <= ie)%Z -> G' p k j i = Ok (D' k (row_of js n p j) i)) /\
  (forall k i, periodic (NG * n) (fun J => D' k J i)).

Lemma var_sheared : forall q z v, v <> VB1c -> v <> VB2i -> fargo_var q z v = sheared_value q z v.
Proof. intros q z v H1 H2. destruct v; try reflexivity; try contradiction. cbn. unfold fargo_E. unfold Rdiv. ring. Qed.
Lemma go_ok : forall (f : rvar -> res R) (g : nat -> R) l, (forall m, f (Vs m) = Ok (g m)) ->
  (fix go (l : list nat) : res (list R) := match l with [] => Ok [] | m :: l' => a <- f (Vs m);; r <- go l';; Ok (a :: r) end) l = Ok (map g l).
Proof. intros f g l H. induction l as [|m l IH]; [reflexivity|]. rewrite H. cbn [bind]. rewrite IH. reflexivity. Qed.

Section Result.
Variables (third three : bool) (ns : nat) (qshear Omega_0 dt dx1 dx2 dx3 : R) (xc : Z -> R).
Variables (jfs : Z) (NG js n is_ ie : Z) (D : Z -> Z -> Z -> zone) (G : Z -> Z -> Z -> Z -> zone).
Hypothesis Hdx : 0 < dx2.
Hypothesis HN : (0 < NG)%Z.
Hypothesis Hjs : (3 <= js)%Z.
Hypothesis Hjf : (js <= jfs <= n)%Z.
Hypothesis Hint : (jfs - js < 2 ^ 31 - 1)%Z.
Hypothesis HD : forall k i, periodic (NG * n) (fun J => D k J i).
Hypothesis HG : holds 0 NG js n D G.
Definition yc (i : Z) : R := - qshear * Omega_0 * xc i * dt.
Definition yf (i : Z) : R := - qshear * Omega_0 * (xc i - half * dx1) * dt.
Hypothesis Hc : forall i, (is_ <= i <= ie)%Z -> Rabs (yc i) < (IZR (jfs - js) + 1) * dx2.
Hypothesis Hf : forall i, (is_ <= i <= ie + 1)%Z -> Rabs (yf i) < (IZR (jfs - js) + 1) * dx2.

Lemma within_limit : forall y lim, (0 <= lim < 2 ^ 31 - 1)%Z -> Rabs y < (IZR lim + 1) * dx2 ->
  exists m e, split_shift y dx2 m e /\ (Z.abs m <= lim)%Z /\ fargo_shift y dx2 lim = Ok (m, e).
Proof.
  intros y lim Hl Hy. destruct (fargo_shift_ok y dx2 lim Hdx) as [m [e [S E]]].
  { unfold Rdiv. rewrite Rabs_mult, Rabs_inv, (Rabs_right dx2) by lra. apply (Rmult_lt_reg_r dx2); [exact Hdx|]. rewrite Rmult_assoc, Rinv_l, Rmult_1_r by lra.
    assert (IZR lim + 1 <= IZR (2 ^ 31)) by (rewrite <- (plus_IZR lim 1); apply IZR_le; lia). nra. }
  exists m, e. split; [exact S|]. destruct (split_carried true dx2 y m e (fun _ => 0) 0 Hdx S) as [_ [A [B1 B2]]].
  assert (L : (Z.abs m <= lim)%Z).
  { assert (Z.abs m < lim + 1)%Z; [|lia]. apply lt_IZR. rewrite plus_IZR. nra. }
  split; [exact L|]. rewrite E. replace (lim <? Z.abs m)%Z with false by (symmetry; apply Z.ltb_ge; lia). reflexivity.
Qed.
(** The displacements of the columns, total. *)
Definition sc (i : Z) : Z * R := match shift_c qshear Omega_0 dt dx2 xc jfs js i with Ok s => s | _ => (0%Z, 0) end.
Definition sf (i : Z) : Z * R := match shift_f qshear Omega_0 dt dx1 dx2 xc jfs js i with Ok s => s | _ => (0%Z, 0) end.
Lemma sc_ok : forall i, (is_ <= i <= ie)%Z -> shift_c qshear Omega_0 dt dx2 xc jfs js i = Ok (sc i) /\ (Z.abs (fst (sc i)) <= jfs - js)%Z /\ split_shift (yc i) dx2 (fst (sc i)) (snd (sc i)).
Proof. intros i Hi. unfold sc. destruct (within_limit (yc i) (jfs - js) ltac:(lia) (Hc i Hi)) as [m [e [S [L E]]]]. unfold shift_c. fold (yc i). rewrite E. cbn [fst snd]. repeat split; try assumption; apply S. Qed.
Lemma sf_ok : forall i, (is_ <= i <= ie + 1)%Z -> shift_f qshear Omega_0 dt dx1 dx2 xc jfs js i = Ok (sf i) /\ (Z.abs (fst (sf i)) <= jfs - js)%Z /\ split_shift (yf i) dx2 (fst (sf i)) (snd (sf i)).
Proof. intros i Hi. unfold sf. destruct (within_limit (yf i) (jfs - js) ltac:(lia) (Hf i Hi)) as [m [e [S [L E]]]]. unfold shift_f. fold (yf i). rewrite E. cbn [fst snd]. repeat split; try assumption; apply S. Qed.
Let al := along qshear Omega_0 dt D.
(** Fluxes and fields along the whole line. *)
Definition gF (k i : Z) (v : rvar) (J : Z) : R := fargo_flux third (along qshear Omega_0 dt D k i v) (fst (sc i)) (snd (sc i)) J.
Definition gZ (k i J : Z) : R := fargo_flux third (along qshear Omega_0 dt D k i VB1i) (fst (sf i)) (snd (sf i)) J.
Definition gB1 (k J i : Z) : R := zB1i (D k J i) - (gZ k i (J + 1) - gZ k i J).
Definition gB3 (k J i : Z) : R := zB3i (D k J i) + (- gF k i VB3i (J + 1) - - gF k i VB3i J).
Definition gB2 (k J i : Z) : R :=
  let b := zB2i (D k J i) + dx2 / dx1 * (gZ k (i + 1) J - gZ k i J) in
  if three then b - dx2 / dx3 * (- gF (k + 1) i VB3i J - - gF k i VB3i J) else b.
Definition gU (k J i : Z) (v : rvar) : R := fargo_var (qshear * Omega_0 * dt) (D k J i) v - (gF k i v (J + 1) - gF k i v J).
Definition gD (k J i : Z) : zone :=
  Zone (Cons (gU k J i Vd) (gU k J i VM1) (gU k J i VM2) (gU k J i VM3) (gU k J i VE)
         (half * (gB1 k J i + gB1 k J (i + 1))) (half * (gB2 k J i + gB2 k (J + 1) i))
         (if three then half * (gB3 k J i + gB3 (k + 1) J i) else cB3 (zU (D k J i)))
         (map (fun m => gU k J i (Vs m)) (seq 0 ns))) (gB1 k J i) (gB2 k J i) (gB3 k J i).

Lemma flx_ok : forall p k i v j, (0 <= p < NG)%Z -> (is_ <= i <= ie)%Z -> (jfs <= j <= n + jfs)%Z ->
  flx third qshear Omega_0 dt dx2 xc jfs NG js n G p k i v j = Ok (gF k i v (row_of jfs n p j)).
Proof.
  intros p k i v j Hp Hi Hj. unfold flx. destruct (sc_ok i Hi) as [E [L _]]. rewrite E. cbn [bind]. do 1 f_equal.
  apply (flux_ok third qshear Omega_0 dt jfs NG js n D G); assumption.
Qed.
Lemma emfz_ok : forall p k i j, (0 <= p < NG)%Z -> (is_ <= i <= ie + 1)%Z -> (jfs <= j <= n + jfs)%Z ->
  emfz third qshear Omega_0 dt dx1 dx2 xc jfs NG js n G p k i j = Ok (gZ k i (row_of jfs n p j)).
Proof.
  intros p k i j Hp Hi Hj. unfold emfz. destruct (sf_ok i Hi) as [E [L _]]. rewrite E. cbn [bind]. do 1 f_equal.
  apply (flux_ok third qshear Omega_0 dt jfs NG js n D G); assumption.
Qed.
Lemma row_next : forall s p j, row_of s n p (j + 1) = (row_of s n p j + 1)%Z. Proof. intros. unfold row_of. lia. Qed.
Lemma B1_ok : forall p k j i, (0 <= p < NG)%Z -> (js <= j <= js + n - 1)%Z -> (is_ <= i <= ie + 1)%Z ->
  fargo_B1 third qshear Omega_0 dt dx1 dx2 xc jfs NG js n G p k j i = Ok (gB1 k (row_of js n p j) i).
Proof.
  intros p k j i Hp Hj Hi. unfold fargo_B1. cbv zeta. rewrite !emfz_ok by (try assumption; lia). cbn [bind].
  rewrite row_next, row_shift. rewrite HG by (try assumption; lia). reflexivity.
Qed.
(** At je+1 this is the face of the next Grid; B2i there is set by the boundary values. *)
Hypothesis HG2 : forall p k i, (0 <= p < NG)%Z -> zB2i (G p k (js + n)%Z i) = zB2i (D k (row_of js n p (js + n)) i).
Lemma B2_ok : forall p k j i, (0 <= p < NG)%Z -> (js <= j <= js + n)%Z -> (is_ <= i <= ie)%Z ->
  fargo_B2 third three qshear Omega_0 dt dx1 dx2 dx3 xc jfs NG js n G p k j i = Ok (gB2 k (row_of js n p j) i).
Proof.
  intros p k j i Hp Hj Hi. unfold fargo_B2. cbv zeta. rewrite !emfz_ok by (try assumption; lia). cbn [bind]. rewrite row_shift.
  assert (B : zB2i (G p k j i) = zB2i (D k (row_of js n p j) i)).
  { destruct (Z.eq_dec j (js + n)) as [->|Hn]; [apply HG2; exact Hp|]. rewrite HG by (try assumption; lia). reflexivity. }
  rewrite B. unfold gB2. destruct three; [|reflexivity].
  unfold emfx. rewrite !flx_ok by (try assumption; lia). cbn [bind]. rewrite row_shift. reflexivity.
Qed.
Lemma B3_ok : forall p k j i, (0 <= p < NG)%Z -> (js <= j <= js + n - 1)%Z -> (is_ <= i <= ie)%Z ->
  fargo_B3 third qshear Omega_0 dt dx2 xc jfs NG js n G p k j i = Ok (gB3 k (row_of js n p j) i).
Proof.
  intros p k j i Hp Hj Hi. unfold fargo_B3, emfx. cbv zeta. rewrite !flx_ok by (try assumption; lia). cbn [bind].
  rewrite row_next, row_shift. rewrite HG by (try assumption; lia). reflexivity.
Qed.
Lemma cell_ok : forall p k j i v, (0 <= p < NG)%Z -> (js <= j <= js + n - 1)%Z -> (is_ <= i <= ie)%Z ->
  fargo_cell third qshear Omega_0 dt dx2 xc jfs NG js n G p k j i v = Ok (gU k (row_of js n p j) i v).
Proof.
  intros p k j i v Hp Hj Hi. unfold fargo_cell. cbv zeta. rewrite !flx_ok by (try assumption; lia). cbn [bind].
  rewrite row_next, row_shift. rewrite HG by (try assumption; lia). reflexivity.
Qed.
Lemma fargo_ok : forall p k j i, (0 <= p < NG)%Z -> (js <= j <= js + n - 1)%Z -> (is_ <= i <= ie)%Z ->
  fargo third three ns qshear Omega_0 dt dx1 dx2 dx3 xc jfs NG js n G p k j i = Ok (gD k (row_of js n p j) i).
Proof.
  intros p k j i Hp Hj Hi. unfold fargo. rewrite !cell_ok by assumption. cbn [bind].
  rewrite (go_ok (fargo_cell third qshear Omega_0 dt dx2 xc jfs NG js n G p k j i) (fun m => gU k (row_of js n p j) i (Vs m)))
    by (intros m; apply cell_ok; assumption).
  cbn [bind]. unfold fargo_Bc. rewrite !B1_ok, !B2_ok by (try assumption; lia). cbn [bind]. rewrite !B3_ok by (try assumption; lia).
  unfold gD. destruct three; cbn [bind fst snd]; rewrite row_next; [reflexivity|]. rewrite HG by (try assumption; lia). reflexivity.
Qed.
Lemma flux_per : forall U m e N, periodic N U -> periodic N (fargo_flux third U m e).
Proof.
  intros U m e N H J. rewrite !fargo_flux_eq. replace (J + N - m)%Z with (J - m + N)%Z by lia. rewrite (flux_periodic third e U N (J - m) H).
  f_equal; [f_equal|]; apply sumZ_ext; intros x _; replace (J + N - x)%Z with (J - x + N)%Z by lia; apply H.
Qed.
Lemma gD_periodic : forall k i, periodic (NG * n) (fun J => gD k J i).
Proof.
  assert (PA : forall k i v, periodic (NG * n) (along qshear Omega_0 dt D k i v)) by (intros; apply along_periodic; assumption).
  assert (PF : forall k i v J, gF k i v (J + NG * n) = gF k i v J) by (intros; unfold gF; apply flux_per; apply PA).
  assert (PZ : forall k i J, gZ k i (J + NG * n) = gZ k i J) by (intros; unfold gZ; apply flux_per; apply PA).
  assert (PD : forall k i J, D k (J + NG * n)%Z i = D k J i) by (intros k i J; apply (HD k i J)).
  assert (S1 : forall J, (J + NG * n + 1)%Z = (J + 1 + NG * n)%Z) by (intros; lia).
  assert (P1 : forall k i J, gB1 k (J + NG * n) i = gB1 k J i) by (intros; unfold gB1; rewrite PD, S1, !PZ; reflexivity).
  assert (P2 : forall k i J, gB2 k (J + NG * n) i = gB2 k J i) by (intros; unfold gB2; rewrite PD, !PZ; destruct three; [rewrite !PF|]; reflexivity).
  assert (P3 : forall k i J, gB3 k (J + NG * n) i = gB3 k J i) by (intros; unfold gB3; rewrite PD, S1, !PF; reflexivity).
  assert (PU : forall k i v J, gU k (J + NG * n) i v = gU k J i v) by (intros; unfold gU; rewrite PD, S1, !PF; reflexivity).
  intros k i J. cbn beta. unfold gD. rewrite !PU, S1, !P1, !P2, !P3, PD. do 2 f_equal. apply map_ext. intros m. apply PU.
Qed.
Lemma slid_c : forall k i v, (is_ <= i <= ie)%Z -> slid third (yc i) dx2 (along qshear Omega_0 dt D k i v) (fun J => gU k J i v).
Proof.
  intros k i v Hi. destruct (sc_ok i Hi) as [_ [_ S]]. destruct (split_carried third dx2 (yc i) _ _ (fun _ => 0) 0 Hdx S) as [_ [A B]].
  exists (Z.abs (fst (sc i))), (Rabs (snd (sc i))). split; [lia|]. split; [exact B|]. split; [exact A|]. intros J.
  rewrite <- (proj1 (split_carried third dx2 (yc i) _ _ (along qshear Omega_0 dt D k i v) J Hdx S)).
  rewrite <- column. reflexivity.
Qed.
Lemma slid_f : forall k i, (is_ <= i <= ie + 1)%Z -> slid third (yf i) dx2 (fun J => zB1i (D k J i)) (fun J => gB1 k J i).
Proof.
  intros k i Hi. destruct (sf_ok i Hi) as [_ [_ S]]. destruct (split_carried third dx2 (yf i) _ _ (fun _ => 0) 0 Hdx S) as [_ [A B]].
  exists (Z.abs (fst (sf i))), (Rabs (snd (sf i))). split; [lia|]. split; [exact B|]. split; [exact A|]. intros J.
  rewrite <- (proj1 (split_carried third dx2 (yf i) _ _ (fun J => zB1i (D k J i)) J Hdx S)).
  rewrite <- column. reflexivity.
Qed.
End Result.

(** ** Theorems *)
(** Every Grid stores its part of one new state of the line, whatever the decomposition: along every orbit the
    cell centred variables and the fields across the other two directions have moved with the background
    flow, -qshear*Omega_0*x1*dt, evaluated at the place where the variable lives. *)
Theorem C91_carried : forall (third three : bool) ns qshear Omega_0 dt dx1 dx2 dx3 xc jfs NG js n is_ ie D G,
  0 < dx2 -> (0 < NG)%Z -> (3 <= js)%Z -> (js <= jfs <= n)%Z -> (jfs - js < 2 ^ 31 - 1)%Z ->
  (forall k i, periodic (NG * n) (fun J => D k J i)) -> holds 0 NG js n D G ->
  (forall p k i, (0 <= p < NG)%Z -> zB2i (G p k (js + n)%Z i) = zB2i (D k (row_of js n p (js + n)) i)) ->
  let y x := - qshear * Omega_0 * x * dt in
  (forall i, (is_ <= i <= ie)%Z -> Rabs (y (xc i)) < (IZR (jfs - js) + 1) * dx2) ->
  (forall i, (is_ <= i <= ie + 1)%Z -> Rabs (y (xc i - half * dx1)) < (IZR (jfs - js) + 1) * dx2) ->
  exists D', new_state NG js n (fargo third three ns qshear Omega_0 dt dx1 dx2 dx3 xc jfs NG js n G) D' is_ ie /\
    (forall k i v, (is_ <= i <= ie)%Z -> centred ns v ->
       slid third (y (xc i)) dx2 (fun J => sheared_value (qshear * Omega_0 * dt) (D k J i) v) (fun J => value (D' k J i) v)) /\
    (forall k i, (is_ <= i <= ie)%Z -> slid third (y (xc i)) dx2 (fun J => zB3i (D k J i)) (fun J => zB3i (D' k J i))) /\
    (forall k i, (is_ <= i <= ie + 1)%Z -> slid third (y (xc i - half * dx1)) dx2 (fun J => zB1i (D k J i)) (fun J => zB1i (D' k J i))) /\
    (forall k J i, (is_ <= i <= ie)%Z -> cB1 (zU (D' k J i)) = half * (zB1i (D' k J i) + zB1i (D' k J (i + 1)%Z))) /\
    (forall k J i, cB2 (zU (D' k J i)) = half * (zB2i (D' k J i) + zB2i (D' k (J + 1)%Z i))) /\
    (forall k J i, three = true -> cB3 (zU (D' k J i)) = half * (zB3i (D' k J i) + zB3i (D' (k + 1)%Z J i))).
Proof.
  intros third three ns qshear Omega_0 dt dx1 dx2 dx3 xc jfs NG js n is_ ie D G Hdx HN Hjs Hjf Hint HD HG HG2 y Hc Hf.
  exists (gD third three ns qshear Omega_0 dt dx1 dx2 dx3 xc jfs js D).
  assert (SC : forall k i v, (is_ <= i <= ie)%Z -> slid third (y (xc i)) dx2 (along qshear Omega_0 dt D k i v) (fun J => gU third qshear Omega_0 dt dx2 xc jfs js D k J i v)).
  { intros k i v Hi. apply (slid_c third qshear Omega_0 dt dx2 xc jfs js n is_ ie D); assumption. }
  assert (EXT : forall y0 U V U' V', slid third y0 dx2 U U' -> (forall J, U J = V J) -> (forall J, U' J = V' J) -> slid third y0 dx2 V V').
  { intros y0 U V U' V' [m [e [A [B [C E]]]]] HU HV. exists m, e. split; [exact A|]. split; [exact B|]. split; [exact C|]. intros J. rewrite <- HV, E.
    unfold carried. destruct (if Rle_dec 0 y0 then true else false); apply remap_local; intros d _; apply HU. }
  split; [|split; [|split; [|split; [|split; [|split]]]]].
  - split.
    + intros p k j i Hp Hj Hi. apply (fargo_ok third three ns qshear Omega_0 dt dx1 dx2 dx3 xc jfs NG js n is_ ie D G); assumption.
    + apply gD_periodic; assumption.
  - intros k i v Hi Hv. apply (EXT _ _ _ _ _ (SC k i v Hi)).
    + intros J. unfold along. apply var_sheared; intros ->; exact Hv.
    + intros J. destruct v; try contradiction; try reflexivity. unfold gD, value. cbn [zU cs].
      cbn in Hv. rewrite (nth_indep _ 0 (gU third qshear Omega_0 dt dx2 xc jfs js D k J i (Vs 0%nat))) by (rewrite map_length, seq_length; exact Hv).
      rewrite (map_nth (fun m0 => gU third qshear Omega_0 dt dx2 xc jfs js D k J i (Vs m0))), seq_nth by exact Hv. reflexivity.
  - intros k i Hi. apply (EXT _ _ _ _ _ (SC k i VB3i Hi)).
    + intros J. reflexivity.
    + intros J. unfold gU, gD, gB3. cbn [zB3i fargo_var]. ring.
  - intros k i Hi. apply (slid_f third qshear Omega_0 dt dx1 dx2 xc jfs js n is_ ie D); assumption.
  - reflexivity.
  - reflexivity.
  - intros k J i ->. reflexivity.
Qed.
Print Assumptions C91_carried.

(** Nothing is gained or lost along an orbit. *)
Theorem C91_conserves : forall third y dx2 U U' N, (0 < N)%Z -> periodic N U -> slid third y dx2 U U' ->
  sumZ 0 (N - 1) U' = sumZ 0 (N - 1) U.
Proof.
  intros third y dx2 U U' N HN HU [m [e [_ [_ [_ E]]]]]. rewrite <- (C89_conserves (if Rle_dec 0 y then true else false) third m e U N HN HU).
  apply sumZ_ext. intros J _. apply E.
Qed.
Print Assumptions C91_conserves.
(** A displacement by whole cells is exact, and so is any displacement where the profile is linear. *)
Theorem C91_exact : forall third y dx2 U U' J a b, 0 < dx2 -> slid third y dx2 U U' ->
  (forall m, Rabs y = IZR m * dx2 -> (0 <= m)%Z -> U' J = U (if Rle_dec 0 y then J - m else J + m)%Z) /\
  ((forall J, U J = a + b * IZR J) -> U' J = a + b * (IZR J - y / dx2)).
Proof.
  intros third y dx2 U U' J a b Hd [m [e [Hm [He [Ey E]]]]]. split.
  - intros m' Ey' Hm'. rewrite E. assert (X : IZR m + e = IZR m') by (apply (Rmult_eq_reg_r dx2); lra).
    assert (m = m'). { assert (m' < m + 1)%Z by (apply lt_IZR; rewrite plus_IZR; lra). assert (m < m' + 1)%Z by (apply lt_IZR; rewrite plus_IZR; lra). lia. }
    subst m'. assert (e = 0) by lra. subst e. rewrite C89_whole. destruct (Rle_dec 0 y); reflexivity.
  - intros HU. rewrite E. rewrite (C89_linear _ third m e U J a b) by (intros d _; apply HU).
    destruct (Rle_dec 0 y) as [Hy|Hy].
    + rewrite Rabs_right in Ey by lra. rewrite Ey. field. lra.
    + rewrite Rabs_left in Ey by lra. replace y with (- ((IZR m + e) * dx2)) by lra. field. lra.
Qed.
Print Assumptions C91_exact.

(** The run stops exactly when an orbit moves by more whole cells than there are extra ghost zones. *)
Theorem C91_stops : forall y dx2 lim, 0 < dx2 -> (0 <= lim < 2 ^ 31 - 1)%Z -> Rabs (y / dx2) < IZR (2 ^ 31) ->
  (fargo_shift y dx2 lim = Fatal <-> (IZR lim + 1) * dx2 <= Rabs y) /\
  (forall m e, fargo_shift y dx2 lim = Ok (m, e) -> y = (IZR m + e) * dx2 /\ (Z.abs m <= lim)%Z /\ Rabs e < 1).
Proof.
  intros y dx2 lim Hd Hl Hr. destruct (fargo_shift_ok y dx2 lim Hd Hr) as [m [e [S E]]].
  destruct (split_carried true dx2 y m e (fun _ => 0) 0 Hd S) as [_ [A [B1 B2]]]. rewrite E.
  destruct (lim <? Z.abs m)%Z eqn:C; [apply Z.ltb_lt in C|apply Z.ltb_ge in C].
  - split; [|discriminate]. split; [intros _|reflexivity]. assert (X : (lim + 1 <= Z.abs m)%Z) by lia. apply IZR_le in X. rewrite plus_IZR in X. rewrite A. nra.
  - split.
    + split; [discriminate|]. intros H. exfalso. apply IZR_le in C. rewrite A in H. nra.
    + intros m' e' H. injection H as <- <-. destruct S as [S1 [S2 _]]. split; [exact S1|]. split; [exact C|exact S2].
Qed.
Print Assumptions C91_stops.

(** The magnetic field stays free of divergence: the finite difference of the three face fields of every cell is
    unchanged, whatever the fields are. *)
Theorem C91_divergence : forall (third three : bool) qshear Omega_0 dt dx1 dx2 dx3 xc jfs NG js n G p k j i a a' b b' c c',
  dx1 <> 0 -> dx2 <> 0 -> dx3 <> 0 ->
  fargo_B1 third qshear Omega_0 dt dx1 dx2 xc jfs NG js n G p k j i = Ok a ->
  fargo_B1 third qshear Omega_0 dt dx1 dx2 xc jfs NG js n G p k j (i + 1) = Ok a' ->
  fargo_B2 third three qshear Omega_0 dt dx1 dx2 dx3 xc jfs NG js n G p k j i = Ok b ->
  fargo_B2 third three qshear Omega_0 dt dx1 dx2 dx3 xc jfs NG js n G p k (j + 1) i = Ok b' ->
  fargo_B3 third qshear Omega_0 dt dx2 xc jfs NG js n G p k j i = Ok c ->
  fargo_B3 third qshear Omega_0 dt dx2 xc jfs NG js n G p (k + 1) j i = Ok c' ->
  (a' - a) / dx1 + (b' - b) / dx2 + (if three then (c' - c) / dx3 else 0) =
  (zB1i (G p k j (i + 1)%Z) - zB1i (G p k j i)) / dx1 + (zB2i (G p k (j + 1)%Z i) - zB2i (G p k j i)) / dx2 +
  (if three then (zB3i (G p (k + 1)%Z j i) - zB3i (G p k j i)) / dx3 else 0).
Proof.
  intros third three qshear Omega_0 dt dx1 dx2 dx3 xc jfs NG js n G p k j i a a' b b' c c' H1 H2 H3.
  unfold fargo_B1, fargo_B2, fargo_B3. cbv zeta. replace (j + 1 - js + jfs)%Z with (j - js + jfs + 1)%Z by lia. set (jj := (j - js + jfs)%Z). clearbody jj.
  set (Z_ := emfz third qshear Omega_0 dt dx1 dx2 xc jfs NG js n G p). set (X := emfx third qshear Omega_0 dt dx2 xc jfs NG js n G p). clearbody Z_ X.
  destruct (Z_ k i (jj + 1)%Z) as [z01| |]; try discriminate. destruct (Z_ k i jj) as [z00| |]; try discriminate.
  destruct (Z_ k (i + 1)%Z (jj + 1)%Z) as [z11| |]; try discriminate. destruct (Z_ k (i + 1)%Z jj) as [z10| |]; try discriminate.
  destruct (X k i (jj + 1)%Z) as [x01| |]; [|destruct three; discriminate|destruct three; discriminate].
  destruct (X k i jj) as [x00| |]; [|destruct three; discriminate|destruct three; discriminate].
  destruct (X (k + 1)%Z i (jj + 1)%Z) as [x11| |]; [|destruct three; discriminate|destruct three; discriminate].
  destruct (X (k + 1)%Z i jj) as [x10| |]; [|destruct three; discriminate|destruct three; discriminate].
  cbn [bind]. intros A A' B B' C C'. injection A as <-. injection A' as <-. injection C as <-. injection C' as <-.
  destruct three; injection B as <-; injection B' as <-; field; auto.
Qed.
Print Assumptions C91_divergence.

(** A uniform state stays uniform: the shear turns B1 into B2 at the rate -qshear*Omega_0*B1, and the energy without
    that of the field changes by the work qshear*Omega_0*dt*d*v1*v2 of the shear on the gas only. *)
Lemma flux_const : forall third c e f, RemapFlux third (fun _ => c) e f = e * c.
Proof.
  intros third c e f.
  transitivity (RemapFlux third (fun J => c + 0 * IZR J) e f).
  { apply RemapFlux_local. intros. ring. }
  unfold RemapFlux, RemapFlux2, RemapFlux3. cbv zeta. rewrite !slope_linear, !ends_linear. unfold half.
  destruct third; destruct (Rlt_dec 0 e); cbv iota beta; field.
Qed.
Lemma sum_const : forall c l u, (l <= u + 1)%Z -> sumZ l u (fun _ => c) = IZR (u - l + 1) * c.
Proof.
  intros c l u H. rewrite (sumZ_ext l u (fun _ => c) (fun i => c * IZR (i + 1) - c * IZR i)).
  - rewrite (sumZ_tele l u (fun i => c * IZR i)) by exact H. rewrite !plus_IZR, !minus_IZR. ring.
  - intros i _. rewrite plus_IZR. ring.
Qed.
Lemma fargo_flux_const : forall third c m e j, fargo_flux third (fun _ => c) m e j = (IZR m + e) * c.
Proof.
  intros third c m e j. rewrite fargo_flux_eq, flux_const.
  destruct (Z.le_gt_cases 0 m) as [Hm|Hm].
  - rewrite (sumZ_empty (m + 1) 0) by lia. rewrite sum_const by lia. replace (m - 1 + 1)%Z with m by lia. ring.
  - rewrite (sumZ_empty 1 m) by lia. rewrite sum_const by lia. replace (0 - (m + 1) + 1)%Z with (- m)%Z by lia. rewrite opp_IZR. ring.
Qed.
Theorem C91_uniform : forall (third three : bool) ns qshear Omega_0 dt dx1 dx2 dx3 xc jfs NG js n G i u b1 b2 b3,
  0 < dx1 -> 0 < dx2 -> (0 < NG)%Z -> (3 <= js)%Z -> (js <= jfs <= n)%Z -> (jfs - js < 2 ^ 31 - 1)%Z ->
  xc (i + 1)%Z = xc i + dx1 ->
  let y x := - qshear * Omega_0 * x * dt in
  (forall x, (x = xc i \/ x = xc i - half * dx1 \/ x = xc i + half * dx1) -> Rabs (y x) < (IZR (jfs - js) + 1) * dx2) ->
  cB1 u = b1 -> cB2 u = b2 -> cB3 u = b3 -> length (cs u) = ns ->
  (forall p k j i, G p k j i = Zone u b1 b2 b3) ->
  forall p k j, (0 <= p < NG)%Z -> (js <= j <= js + n - 1)%Z ->
  let q := qshear * Omega_0 * dt in
  let field2 (w : cons) := cB1 w * cB1 w + cB2 w * cB2 w + cB3 w * cB3 w in
  exists u', fargo third three ns qshear Omega_0 dt dx1 dx2 dx3 xc jfs NG js n G p k j i = Ok (Zone u' b1 (b2 - q * b1) b3) /\
    cd u' = cd u /\ cM1 u' = cM1 u /\ cM2 u' = cM2 u /\ cM3 u' = cM3 u /\ cs u' = cs u /\
    cB1 u' = b1 /\ cB2 u' = b2 - q * b1 /\ cB3 u' = b3 /\
    cE u' - field2 u' / 2 = cE u - field2 u / 2 + q * (cM1 u * cM2 u / cd u).
Proof.
  intros third three ns qshear Omega_0 dt dx1 dx2 dx3 xc jfs NG js n G i u b1 b2 b3 Hd1 Hd2 HN Hjs Hjf Hint Hxc y Hy E1 E2 E3 Els HG p k j Hp Hj q field2.
  set (D := fun (_ _ _ : Z) => Zone u b1 b2 b3).
  assert (Hc : forall i', (i <= i' <= i)%Z -> Rabs (yc qshear Omega_0 dt xc i') < (IZR (jfs - js) + 1) * dx2).
  { intros i' Hi'. replace i' with i by lia. apply Hy. now left. }
  assert (Hf : forall i', (i <= i' <= i + 1)%Z -> Rabs (yf qshear Omega_0 dt dx1 xc i') < (IZR (jfs - js) + 1) * dx2).
  { intros i' Hi'. destruct (Z.eq_dec i' i) as [->|Hn]; [apply Hy; tauto|]. replace i' with (i + 1)%Z by lia. unfold yf. rewrite Hxc. apply Hy. right. right. unfold half. lra. }
  rewrite (fargo_ok third three ns qshear Omega_0 dt dx1 dx2 dx3 xc jfs NG js n i i D G Hd2 HN Hjs Hjf Hint (fun _ _ _ => eq_refl)
    (fun p k j i _ _ => HG p k j i) Hc Hf (fun p k i _ => f_equal zB2i (HG p k (js + n)%Z i)) p k j i Hp Hj ltac:(lia)).
  assert (F : forall k i v J, gF third qshear Omega_0 dt dx2 xc jfs js D k i v J = (IZR (fst (sc qshear Omega_0 dt dx2 xc jfs js i)) + snd (sc qshear Omega_0 dt dx2 xc jfs js i)) * fargo_var q (Zone u b1 b2 b3) v).
  { intros. unfold gF, along, D. apply fargo_flux_const. }
  assert (FZ : forall k i J, gZ third qshear Omega_0 dt dx1 dx2 xc jfs js D k i J = (IZR (fst (sf qshear Omega_0 dt dx1 dx2 xc jfs js i)) + snd (sf qshear Omega_0 dt dx1 dx2 xc jfs js i)) * b1).
  { intros. unfold gZ, along, D. rewrite fargo_flux_const. reflexivity. }
  assert (U1 : forall J v, gU third qshear Omega_0 dt dx2 xc jfs js D k J i v = fargo_var q (Zone u b1 b2 b3) v).
  { intros. unfold gU. rewrite !F. unfold D. fold q. ring. }
  assert (B1 : forall J i, gB1 third qshear Omega_0 dt dx1 dx2 xc jfs js D k J i = b1).
  { intros. unfold gB1. rewrite !FZ. unfold D. cbn [zB1i]. ring. }
  assert (B3 : forall k J, gB3 third qshear Omega_0 dt dx2 xc jfs js D k J i = b3).
  { intros. unfold gB3. rewrite !F. unfold D. cbn [zB3i]. ring. }
  assert (B2 : forall J, gB2 third three qshear Omega_0 dt dx1 dx2 dx3 xc jfs js D k J i = b2 - q * b1).
  { intros J. unfold gB2. cbv zeta. rewrite !FZ, !F.
    destruct (sf_ok qshear Omega_0 dt dx1 dx2 xc jfs js n i i Hd2 Hjf Hint Hf i ltac:(lia)) as [_ [_ [S0 _]]].
    destruct (sf_ok qshear Omega_0 dt dx1 dx2 xc jfs js n i i Hd2 Hjf Hint Hf (i + 1)%Z ltac:(lia)) as [_ [_ [S1 _]]].
    set (a0 := IZR _ + snd (sf _ _ _ _ _ _ _ _ i)) in *. set (a1 := IZR _ + snd (sf _ _ _ _ _ _ _ _ (i + 1)%Z)) in *. clearbody a0 a1.
    unfold yf in S0, S1. rewrite Hxc in S1.
    assert (DA : dx2 / dx1 * (a1 - a0) = - q).
    { apply (Rmult_eq_reg_r dx1); [|lra]. replace (dx2 / dx1 * (a1 - a0) * dx1) with (a1 * dx2 - a0 * dx2) by (field; lra). rewrite <- S0, <- S1. unfold q, half. field. }
    replace (a1 * b1 - a0 * b1) with ((a1 - a0) * b1) by ring. rewrite <- (Rmult_assoc (dx2 / dx1)), DA. unfold D. cbn [zB2i].
    destruct three; [|ring]. set (w := IZR _ + _). ring. }
  assert (DB : dx2 / dx1 = dx2 / dx1) by reflexivity. clear DB.
  unfold gD. rewrite !U1, !B1, !B2, !B3. eexists. split; [reflexivity|]. cbn [cd cM1 cM2 cM3 cE cB1 cB2 cB3 cs fargo_var zU]. fold q.
  repeat (split; [reflexivity|]). split; [|split; [|split; [|split]]].
  - rewrite (map_ext _ (fun m => nth m (cs u) 0)) by (intros m; rewrite U1; reflexivity). rewrite <- Els.
    apply (nth_ext _ _ 0 0); [rewrite map_length, seq_length; reflexivity|]. intros m Hm. rewrite map_length, seq_length in Hm.
    rewrite (nth_indep _ 0 (nth 0 (cs u) 0)) by (rewrite map_length, seq_length; exact Hm). rewrite (map_nth (fun m0 => nth m0 (cs u) 0)), seq_nth by exact Hm. reflexivity.
  - unfold half. field.
  - unfold half. field.
  - destruct three; [unfold half; field|]. unfold D. exact E3.
  - unfold field2, fargo_E. cbn [cd cM1 cM2 cM3 cE cB1 cB2 cB3]. unfold D. cbn [zU]. rewrite E1, E2, E3. unfold half, Rdiv. set (t := / cd u). clearbody t. destruct three; field.
Qed.
Print Assumptions C91_uniform.

(** In two dimensions the vertical field is not carried: B3i moves, but the cell centred B3c, from which the 2D integrators
    set B3i again (integrate_2d_ctu.c:1967, integrate_2d_vl.c:1175), stays where it was. *)
Lemma B3_2d_stays : forall third ns qshear Omega_0 dt dx1 dx2 dx3 xc jfs NG js n G p k j i z,
  fargo third false ns qshear Omega_0 dt dx1 dx2 dx3 xc jfs NG js n G p k j i = Ok z -> cB3 (zU z) = cB3 (zU (G p k j i)).
Proof.
  intros third ns qshear Omega_0 dt dx1 dx2 dx3 xc jfs NG js n G p k j i z.
  assert (B : forall b, fargo_Bc third false qshear Omega_0 dt dx1 dx2 dx3 xc jfs NG js n G p k j i = Ok b -> snd b = cB3 (zU (G p k j i))).
  { intros b. unfold fargo_Bc.
    repeat match goal with |- (x <- ?e;; _) = Ok _ -> _ => destruct e as [?x| |]; cbn [bind]; try discriminate end.
    intros E. injection E as <-. reflexivity. }
  unfold fargo. destruct (fargo_Bc _ _ _ _ _ _ _ _ _ _ _ _ _ _ _ _ _ _) as [b| |].
  { specialize (B b eq_refl).
    repeat match goal with |- (x <- ?e;; _) = Ok _ -> _ => destruct e as [?x| |]; cbn [bind]; try discriminate end.
    intros E. injection E as <-. exact B. }
  all: repeat match goal with |- (x <- ?e;; _) = Ok _ -> _ => destruct e as [?x| |]; cbn [bind]; try discriminate end.
Qed.
Theorem C91_B3_2d_refuted : exists D G z,
  (forall k i, periodic (2 * 5) (fun J => D k J i)) /\ holds 1 2 4 5 D G /\
  fargo false false 0 1 1 1 1 1 1 (fun i => IZR i - 1) 5 2 4 5 G 0%Z 0%Z 4%Z 0%Z = Ok z /\
  - (1) * 1 * (IZR 0 - 1) * 1 = 1 (* the displacement, in units of dx2 = 1 *) /\
  cB3 (zU z) = 1 /\ cB3 (zU (D 0 (row_of 4 5 0 4 - 1) 0)%Z) = 0.
Proof.
  set (D := spot 10 1). set (G := fun p k j i => D k (row_of 4 5 p j) i).
  assert (HD : forall k i, periodic (2 * 5) (fun J => D k J i)) by (intros; apply spot_periodic; lia).
  assert (HG : holds 1 2 4 5 D G) by (intros p k j i _ _; reflexivity).
  destruct (C91_carried false false 0 1 1 1 1 1 1 (fun i => IZR i - 1) 5 2 4 5 0 0 D G ltac:(lra) ltac:(lia) ltac:(lia) ltac:(lia) ltac:(lia) HD
    ltac:(intros p k j i A B; apply HG; lia) ltac:(reflexivity)) as [D' [[HS _] _]].
  { intros i Hi. replace i with 0%Z by lia. cbn [Z.sub Z.add Z.opp Z.pos_sub Pos.pred_double]. apply Rabs_def1; cbn; lra. }
  { intros i Hi. unfold half. assert (C : i = 0%Z \/ i = 1%Z) by lia. destruct C as [->| ->]; cbn; apply Rabs_def1; lra. }
  pose proof (HS 0%Z 0%Z 4%Z 0%Z ltac:(lia) ltac:(lia) ltac:(lia)) as E. exists D, G, (D' 0 (row_of 4 5 0 4) 0)%Z.
  split; [exact HD|]. split; [exact HG|]. split; [exact E|]. split; [lra|]. split.
  - rewrite (B3_2d_stays _ _ _ _ _ _ _ _ _ _ _ _ _ _ _ _ _ _ _ E). reflexivity.
  - reflexivity.
Qed.
Print Assumptions C91_B3_2d_refuted.

(** ** The hypotheses are met: three Grids of five cells; the orbit at x1 = -1 moves up by one cell, the one at x1 = 1 down *)
Example C91_example : exists D',
  new_state 3 3 5 (fargo true true 1 (3 / 2) (2 / 3) 1 2 1 1 (fun i => 2 * IZR i - 1) 5 3 3 5 (fun p k j i => stripes k (row_of 3 5 p j) i)) D' 0 1 /\
  (forall k J : Z, cd (zU (D' k J 0%Z)) = 2 + IZR ((J - 1) mod 15)) /\ (forall k J : Z, cd (zU (D' k J 1%Z)) = 2 + IZR ((J + 1) mod 15)).
Proof.
  assert (P : forall k i, periodic (3 * 5) (fun J => stripes k J i)).
  { intros k i J. unfold stripes. replace (J + 3 * 5)%Z with (J + 1 * 15)%Z by lia. rewrite Z.mod_add by lia. reflexivity. }
  destruct (C91_carried true true 1 (3 / 2) (2 / 3) 1 2 1 1 (fun i => 2 * IZR i - 1) 5 3 3 5 0 1 stripes (fun p k j i => stripes k (row_of 3 5 p j) i)
    ltac:(lra) ltac:(lia) ltac:(lia) ltac:(lia) ltac:(lia) P ltac:(intros p k j i _ _; reflexivity) ltac:(reflexivity)) as [D' [HS [A _]]].
  { intros i Hi. assert (C : i = 0%Z \/ i = 1%Z) by lia. destruct C as [->| ->]; cbn; apply Rabs_def1; lra. }
  { intros i Hi. unfold half. assert (C : i = 0%Z \/ i = 1%Z \/ i = 2%Z) by lia. destruct C as [->|[->| ->]]; cbn; apply Rabs_def1; lra. }
  exists D'. split; [exact HS|]. split; intros k J.
  - destruct (C91_exact _ _ _ _ _ J 0 0 Rlt_0_1 (A k 0%Z Vd ltac:(lia) I)) as [W _].
    change (cd (zU (D' k J 0%Z))) with (value (D' k J 0%Z) Vd). rewrite (W 1%Z); [|rewrite Rabs_right; lra|lia]. destruct (Rle_dec 0 _) as [_|C]; [reflexivity|lra].
  - destruct (C91_exact _ _ _ _ _ J 0 0 Rlt_0_1 (A k 1%Z Vd ltac:(lia) I)) as [W _].
    change (cd (zU (D' k J 1%Z))) with (value (D' k J 1%Z) Vd). rewrite (W 1%Z); [|rewrite Rabs_left; lra|lia]. destruct (Rle_dec 0 _) as [C|_]; [lra|reflexivity].
Qed.
