(** Property C87: probability distributions and statistics. *)
From Coq Require Import ZArith List Bool Arith Reals R_Ifp Lia Lra.
From Verif Require Import CStr MeshModel MeshProps PosModel PosProps PdfModel PdfSpec SumFacts.
Import ListNotations.
Open Scope R_scope.

Lemma res_map_ok : forall A B (f : A -> res B) (Q : A -> B -> Prop) l, (forall a, In a l -> exists b, f a = Ok b /\ Q a b) ->
  exists r, res_map f l = Ok r /\ Forall2 Q l r.
Proof.
  intros A B f Q l. induction l as [|a l IH]; intros H; [exists []; split; auto|].
  destruct (H a (or_introl eq_refl)) as (b & E & QB). destruct IH as (r & ER & F); [intros; apply H; right; auto|].
  exists (b :: r). cbn [res_map]. rewrite E. cbn [bind]. rewrite ER. cbn [bind]. split; auto.
Qed.
Lemma loc_sum_eq : forall f v s, loc_sum f s v = s + lsum v f.
Proof. intros f v. unfold loc_sum. induction v as [|x v IH]; intros s; cbn [fold_left]; [rewrite lsum_nil; lra|]. rewrite IH, lsum_cons. lra. Qed.
Lemma loc_min_ok : forall v, v <> [] -> is_min v (loc_min v).
Proof.
  intros v NE. unfold loc_min. assert (H : forall v m, let r := fold_left (fun m x => if Rlt_dec x m then x else m) v m in (r = m \/ In r v) /\ r <= m /\ forall x, In x v -> r <= x).
  { clear. induction v as [|x v IH]; intros m; cbn [fold_left].
    - split; [auto|]. split; [lra|]. intros x [].
    - destruct (IH (if Rlt_dec x m then x else m)) as (A & B & C). destruct (Rlt_dec x m).
      + split; [right; destruct A as [A|A]; [left; auto|right; auto]|]. split; [lra|]. intros y [<-|Y]; auto.
      + split; [destruct A as [A|A]; [left; auto|right; right; auto]|]. split; [lra|]. intros y [<-|Y]; auto. lra. }
  destruct (H v (hd 0 v)) as (A & B & C). split; [|exact C]. destruct A as [A|A]; [|exact A]. rewrite A. destruct v; [congruence|left; reflexivity].
Qed.
Lemma loc_max_ok : forall v, v <> [] -> is_max v (loc_max v).
Proof.
  intros v NE. unfold loc_max. assert (H : forall v m, let r := fold_left (fun m x => if Rgt_dec x m then x else m) v m in (r = m \/ In r v) /\ m <= r /\ forall x, In x v -> x <= r).
  { clear. induction v as [|x v IH]; intros m; cbn [fold_left].
    - split; [auto|]. split; [lra|]. intros x [].
    - destruct (IH (if Rgt_dec x m then x else m)) as (A & B & C). destruct (Rgt_dec x m).
      + split; [right; destruct A as [A|A]; [left; auto|right; auto]|]. split; [lra|]. intros y [<-|Y]; auto.
      + split; [destruct A as [A|A]; [left; auto|right; right; auto]|]. split; [lra|]. intros y [<-|Y]; auto. lra. }
  destruct (H v (hd 0 v)) as (A & B & C). split; [|exact C]. destruct A as [A|A]; [|exact A]. rewrite A. destruct v; [congruence|left; reflexivity].
Qed.
Lemma red_min_ok : forall l, l <> [] -> is_min l (red_min l).
Proof.
  intros l NE. unfold red_min. assert (H : forall v m, let r := fold_left Rmin v m in (r = m \/ In r v) /\ r <= m /\ forall x, In x v -> r <= x).
  { clear. induction v as [|x v IH]; intros m; cbn [fold_left].
    - split; [auto|]. split; [lra|]. intros x [].
    - destruct (IH (Rmin m x)) as (A & B & C). pose proof (Rmin_l m x). pose proof (Rmin_r m x). split.
      + destruct A as [A|A]; [|right; right; auto]. destruct (Rle_dec m x); [rewrite (Rmin_left m x) in * by lra; left; auto|rewrite (Rmin_right m x) in * by lra; right; left; auto].
      + split; [lra|]. intros y [<-|Y]; [lra|auto]. }
  destruct (H l (hd 0 l)) as (A & B & C). split; [|exact C]. destruct A as [A|A]; [|exact A]. rewrite A. destruct l; [congruence|left; reflexivity].
Qed.
Lemma red_max_ok : forall l, l <> [] -> is_max l (red_max l).
Proof.
  intros l NE. unfold red_max. assert (H : forall v m, let r := fold_left Rmax v m in (r = m \/ In r v) /\ m <= r /\ forall x, In x v -> x <= r).
  { clear. induction v as [|x v IH]; intros m; cbn [fold_left].
    - split; [auto|]. split; [lra|]. intros x [].
    - destruct (IH (Rmax m x)) as (A & B & C). pose proof (Rmax_l m x). pose proof (Rmax_r m x). split.
      + destruct A as [A|A]; [|right; right; auto]. destruct (Rle_dec m x); [rewrite (Rmax_right m x) in * by lra; right; left; auto|rewrite (Rmax_left m x) in * by lra; left; auto].
      + split; [lra|]. intros y [<-|Y]; [lra|auto]. }
  destruct (H l (hd 0 l)) as (A & B & C). split; [|exact C]. destruct A as [A|A]; [|exact A]. rewrite A. destruct l; [congruence|left; reflexivity].
Qed.
Lemma min_of_mins : forall (vs : list (list R)), vs <> [] -> (forall v, In v vs -> v <> []) -> is_min (concat vs) (red_min (map loc_min vs)).
Proof.
  intros vs NE H. destruct (red_min_ok (map loc_min vs)) as (A & B); [destruct vs; [congruence|discriminate]|]. split.
  - apply in_map_iff in A. destruct A as (v & E & I). rewrite <- E. apply in_concat. exists v. split; [auto|]. apply loc_min_ok. auto.
  - intros x I. apply in_concat in I. destruct I as (v & V & I). apply Rle_trans with (loc_min v); [apply B, in_map; auto|apply loc_min_ok; auto].
Qed.
Lemma max_of_maxs : forall (vs : list (list R)), vs <> [] -> (forall v, In v vs -> v <> []) -> is_max (concat vs) (red_max (map loc_max vs)).
Proof.
  intros vs NE H. destruct (red_max_ok (map loc_max vs)) as (A & B); [destruct vs; [congruence|discriminate]|]. split.
  - apply in_map_iff in A. destruct A as (v & E & I). rewrite <- E. apply in_concat. exists v. split; [auto|]. apply loc_max_ok. auto.
  - intros x I. apply in_concat in I. destruct I as (v & V & I). apply Rle_trans with (loc_max v); [apply loc_max_ok; auto|apply B, in_map; auto].
Qed.
Lemma lsum_concat : forall A (vs : list (list A)) f, lsum (concat vs) f = lsum vs (fun v => lsum v f).
Proof. intros. induction vs; [reflexivity|]. cbn [concat]. rewrite lsum_app, lsum_cons, IHvs. reflexivity. Qed.
Lemma lsum_const : forall A (l : list A) c, lsum l (fun _ => c) = INR (length l) * c.
Proof. intros. induction l; [rewrite lsum_nil; cbn; lra|]. rewrite lsum_cons, IHl. change (length (a :: l)) with (S (length l)). rewrite S_INR. lra. Qed.
Lemma isqrt : forall N, (0 <= N < 2 ^ 31)%Z -> c_int (sqrt (IZR N)) = Ok (Z.sqrt N).
Proof.
  intros N H. assert (NN : 0 <= IZR N) by (apply IZR_le; lia). pose proof (Z.sqrt_spec N ltac:(lia)) as S. cbv zeta in S. pose proof (Z.sqrt_nonneg N) as P.
  set (s := Z.sqrt N) in *. assert (PR : 0 <= IZR s) by (apply IZR_le; lia).
  assert (I : Int_part (sqrt (IZR N)) = s).
  { apply int_part_unique. destruct S as (S1 & S2). apply IZR_le in S1. apply IZR_lt in S2. rewrite mult_IZR in S1, S2. rewrite succ_IZR in S2. split.
    - rewrite <- (sqrt_square (IZR s)) by auto. apply sqrt_le_1; nra.
    - rewrite <- (sqrt_square (IZR s + 1)) by lra. apply sqrt_lt_1; nra. }
  unfold c_int. destruct (Rle_dec 0 (sqrt (IZR N))) as [_|C]; [|exfalso; apply C, sqrt_pos]. rewrite I. cbv zeta.
  assert (s <= N)%Z by (destruct S; nia). unfold INT_MIN, INT_MAX. replace ((- 2 ^ 31 <=? s) && (s <=? 2 ^ 31 - 1))%Z%bool with true; [reflexivity|].
  symmetry. apply andb_true_iff. split; apply Z.leb_le; lia.
Qed.

(** Bins. *)
Lemma inc_ok : forall a i, (0 <= i < Z.of_nat (length a))%Z -> exists a', inc_at a i = Ok a' /\ length a' = length a /\
  forall n, nth n a' 0%Z = (nth n a 0 + if (Z.of_nat n =? i)%Z then 1 else 0)%Z.
Proof.
  intros a i H. unfold inc_at. destruct (Z.ltb_spec i 0); [lia|]. set (m := Z.to_nat i).
  destruct (nth_error a m) as [v|] eqn:E; [|apply nth_error_None in E; lia].
  apply nth_error_split in E. destruct E as (l1 & l2 & -> & LM).
  rewrite firstn_app, skipn_app, (firstn_all2 l1), (skipn_all2 l1) by lia. replace (m - length l1)%nat with 0%nat by lia. replace (S m - length l1)%nat with 1%nat by lia.
  cbn [firstn skipn app]. rewrite app_nil_r. eexists. split; [reflexivity|]. split; [rewrite !app_length; reflexivity|].
  intros n. destruct (lt_eq_lt_dec n m) as [[L|L]|L].
  - rewrite !app_nth1 by lia. destruct (Z.eqb_spec (Z.of_nat n) i); lia.
  - rewrite !app_nth2 by lia. replace (n - length l1)%nat with 0%nat by lia. cbn [nth]. destruct (Z.eqb_spec (Z.of_nat n) i); lia.
  - rewrite !app_nth2 by lia. destruct (n - length l1)%nat eqn:D; [lia|]. cbn [nth]. destruct (Z.eqb_spec (Z.of_nat n) i); lia.
Qed.
Lemma bin_index : forall size a b x, (1 <= size < 2 ^ 31)%Z -> a < b -> a <= x <= b ->
  exists i, c_int (IZR size / (b - a) * (x - a)) = Ok i /\
    let j := if (i <? size)%Z then i else (size - 1)%Z in (0 <= j < size)%Z /\
    forall n, (n < Z.to_nat size)%nat -> in_bin a ((b - a) / IZR size) (Z.to_nat size) n x = (Z.of_nat n =? j)%Z.
Proof.
  intros size a b x HS AB HX. set (t := IZR size / (b - a) * (x - a)).
  assert (SP : 0 < IZR size) by (apply (IZR_lt 0); lia). assert (T0 : 0 <= t).
  { unfold t. apply Rmult_le_pos; [|lra]. apply Rlt_le, Rdiv_lt_0_compat; lra. }
  assert (TS : t <= IZR size). { unfold t. replace (IZR size) with (IZR size / (b - a) * (b - a)) at 2 by (field; lra). apply Rmult_le_compat_l; [apply Rlt_le, Rdiv_lt_0_compat; lra|lra]. }
  pose proof (int_part_bounds t) as B. set (i := Int_part t) in *.
  assert (I0 : (0 <= i)%Z) by (assert (IZR (-1) < IZR i) by lra; apply lt_IZR in H; lia).
  assert (IS : (i <= size)%Z) by (apply le_IZR; lra).
  exists i. split.
  - unfold c_int. destruct (Rle_dec 0 t); [|lra]. fold i. cbv zeta. unfold INT_MIN, INT_MAX. replace ((- 2 ^ 31 <=? i) && (i <=? 2 ^ 31 - 1))%Z%bool with true; [reflexivity|].
    symmetry. apply andb_true_iff. split; apply Z.leb_le; lia.
  - cbv zeta. set (j := if (i <? size)%Z then i else (size - 1)%Z).
    assert (J : (0 <= j < size)%Z /\ (j <= i)%Z /\ (j = i \/ (i = size /\ j = size - 1))%Z) by (unfold j; destruct (Z.ltb_spec i size); lia).
    split; [lia|]. intros n L. unfold in_bin.
    assert (X : x = a + t * ((b - a) / IZR size)) by (unfold t; field; lra).
    set (w := (b - a) / IZR size) in *. assert (W : 0 < w) by (apply Rdiv_lt_0_compat; lra).
    assert (EI : INR n = IZR (Z.of_nat n)) by apply INR_IZR_INZ.
    assert (A1 : a + INR n * w <= x <-> INR n <= t).
    { rewrite X. split; intros Hn; [apply Rmult_le_reg_r with w; lra|]. assert (INR n * w <= t * w) by (apply Rmult_le_compat_r; lra). lra. }
    assert (A2 : x < a + (INR n + 1) * w <-> t < INR n + 1).
    { rewrite X. split; intros Hn; [apply Rmult_lt_reg_r with w; lra|]. assert (t * w < (INR n + 1) * w) by (apply Rmult_lt_compat_r; lra). lra. }
    assert (B1 : INR n <= t <-> (Z.of_nat n <= i)%Z).
    { rewrite EI. split; intros Hn; [|apply IZR_le in Hn; lra]. destruct (Z_lt_le_dec i (Z.of_nat n)) as [C|]; [|auto]. apply Zlt_le_succ, IZR_le in C. rewrite succ_IZR in C. lra. }
    assert (B2 : t < INR n + 1 <-> (i <= Z.of_nat n)%Z).
    { rewrite EI. split; intros Hn; [|apply IZR_le in Hn; lra]. destruct (Z_lt_le_dec (Z.of_nat n) i) as [C|]; [|auto]. apply Zlt_le_succ, IZR_le in C. rewrite succ_IZR in C. lra. }
    destruct (Rle_dec (a + INR n * w) x) as [C1|C1]; rewrite A1, B1 in C1; destruct (Rlt_dec x (a + (INR n + 1) * w)) as [C2|C2]; rewrite A2, B2 in C2; cbn [andb orb];
      destruct (Z.eqb_spec (Z.of_nat n) j), (Nat.eqb_spec (S n) (Z.to_nat size)); try reflexivity; exfalso; lia.
Qed.
Lemma bins_ok : forall size a b v acc, (1 <= size < 2 ^ 31)%Z -> a < b -> (forall x, In x v -> a <= x <= b) -> length acc = Z.to_nat size ->
  exists r, pdf_bins size (IZR size / (b - a)) a v acc = Ok r /\ length r = Z.to_nat size /\
    forall n, (n < Z.to_nat size)%nat -> IZR (nth n r 0%Z) = IZR (nth n acc 0%Z) + count a ((b - a) / IZR size) (Z.to_nat size) n v.
Proof.
  intros size a b v. induction v as [|x v IH]; intros acc HS AB HX HL; cbn [pdf_bins].
  - exists acc. split; [reflexivity|]. split; [auto|]. intros n _. unfold count. cbn. lra.
  - destruct (bin_index size a b x HS AB (HX x (or_introl eq_refl))) as (i & -> & J & K). cbn [bind]. cbv zeta in J, K |- *. set (j := if (i <? size)%Z then i else (size - 1)%Z) in *.
    destruct (inc_ok acc j) as (acc' & -> & L' & V'); [lia|]. cbn [bind].
    destruct (IH acc' HS AB (fun y Y => HX y (or_intror Y)) ltac:(lia)) as (r & -> & LR & VR). exists r. split; [reflexivity|]. split; [auto|].
    intros n L. rewrite VR by auto. rewrite V', plus_IZR. unfold count. cbn [filter]. rewrite K by auto. destruct (Z.of_nat n =? j)%Z; [|lra].
    change (length (x :: ?l)) with (S (length l)). rewrite S_INR. lra.
Qed.
Lemma lsum_nonneg : forall A (l : list A) f, (forall a, In a l -> 0 <= f a) -> 0 <= lsum l f.
Proof. intros A l f H. induction l as [|a l IH]; [rewrite lsum_nil; lra|]. rewrite lsum_cons. pose proof (H a (or_introl eq_refl)). assert (0 <= lsum l f) by (apply IH; intros; apply H; right; auto). lra. Qed.
Lemma lsum_ge : forall A (l : list A) f a, (forall a, In a l -> 0 <= f a) -> In a l -> f a <= lsum l f.
Proof.
  intros A l f a H I. induction l as [|b l IH]; [destruct I|]. rewrite lsum_cons. destruct I as [<-|I].
  - assert (0 <= lsum l f) by (apply lsum_nonneg; intros; apply H; right; auto). lra.
  - assert (f a <= lsum l f) by (apply IH; [intros; apply H; right; auto|auto]). pose proof (H b (or_introl eq_refl)). lra.
Qed.
Lemma variance_pos : forall X a b, is_min X a -> is_max X b -> a < b -> 0 < variance X.
Proof.
  intros X a b (A1 & A2) (B1 & B2) L. unfold variance.
  assert (LEN : (1 < length X)%nat).
  { destruct X as [|x [|y X]]; [destruct A1| |cbn; lia]. destruct A1 as [<-|[]], B1 as [<-|[]]. lra. }
  assert (1 < INR (length X)) by (apply (lt_INR 1); auto).
  apply Rdiv_lt_0_compat; [|lra]. unfold central. assert (SQ : forall x, In x X -> 0 <= (x - average X) ^ 2) by (intros; apply pow2_ge_0).
  pose proof (lsum_ge _ X (fun x => (x - average X) ^ 2) a SQ A1) as GA. pose proof (lsum_ge _ X (fun x => (x - average X) ^ 2) b SQ B1) as GB. cbv beta in GA, GB.
  destruct (Req_dec a (average X)) as [E|E].
  - assert (0 < (b - average X) ^ 2) by (apply pow_lt; lra). lra.
  - assert (0 < (a - average X) ^ 2) by (rewrite <- Rsqr_pow2; apply Rsqr_pos_lt; lra). lra.
Qed.
Lemma count_all : forall size a b X, (1 <= size < 2 ^ 31)%Z -> a < b -> (forall x, In x X -> a <= x <= b) ->
  lsum (seq 0 (Z.to_nat size)) (fun n => count a ((b - a) / IZR size) (Z.to_nat size) n X) = INR (length X).
Proof.
  intros size a b X HS AB. induction X as [|x X IH]; intros HX.
  - unfold count. cbn [filter length]. rewrite lsum_const. cbn. lra.
  - change (length (x :: X)) with (S (length X)). rewrite S_INR, <- IH by (intros; apply HX; right; auto).
    destruct (bin_index size a b x HS AB (HX x (or_introl eq_refl))) as (i & _ & J & K). cbv zeta in J, K. set (j := if (i <? size)%Z then i else (size - 1)%Z) in *.
    transitivity (lsum (seq 0 (Z.to_nat size)) (fun n => count a ((b - a) / IZR size) (Z.to_nat size) n X + (if (Z.of_nat n =? j)%Z then 1 else 0))).
    + apply lsum_ext. intros n I. apply in_seq in I. unfold count. cbn [filter]. rewrite K by lia. destruct (Z.of_nat n =? j)%Z; [|lra].
      change (length (x :: ?l)) with (S (length l)). rewrite S_INR. lra.
    + rewrite lsum_plus. f_equal. assert (G : forall m, lsum (seq 0 m) (fun n => if (Z.of_nat n =? j)%Z then 1 else 0) = if (j <? Z.of_nat m)%Z then 1 else 0).
      { induction m as [|m IHm]; [cbn; destruct (Z.ltb_spec j 0); [lia|reflexivity]|]. rewrite lsum_seq_S, IHm. cbn [Nat.add].
        destruct (Z.ltb_spec j (Z.of_nat m)), (Z.eqb_spec (Z.of_nat m) j), (Z.ltb_spec j (Z.of_nat (S m))); try lia; lra. }
      rewrite G. destruct (Z.ltb_spec j (Z.of_nat (Z.to_nat size))); [reflexivity|lia].
Qed.

(** What has to be written for the values [X], of which [v0] are those of the first process; the
    average deviation is right if there are no others. *)
Definition right_output (X v0 : list R) (o : pout) : Prop :=
  is_min X (o_min o) /\ is_max X (o_max o) /\ o_mean o = average X /\ o_var o = variance X /\ o_sdev o = sqrt (variance X) /\
  (o_min o < o_max o -> o_skew o = central X 3 / (INR (length X) * o_sdev o ^ 3) /\ o_kurt o = central X 4 / (INR (length X) * o_sdev o ^ 4) - 3) /\
  o_adev o = lsum v0 (fun x => Rabs (x - average X)) / INR (length X) /\
  (o_min o < o_max o -> o_nbin o = Z.sqrt (Z.of_nat (length X)) /\
     let nb := Z.to_nat (o_nbin o) in let w := (o_max o - o_min o) / INR nb in
     o_rows o = map (fun n => (o_min o + (INR n + 1/2) * w, count (o_min o) w nb n X / (INR (length X) * w))) (seq 0 nb) /\
     lsum (o_rows o) (fun r => snd r * w) = 1) /\
  (o_min o = o_max o -> o_nbin o = 1%Z /\ o_rows o = [(o_max o, 1)]).

Section Dom.
Variables (X : list R).
Let N := Z.of_nat (length X).
Let size := Z.sqrt N.
Definition okq (q : proc) : Prop := q_acc q = acc0 /\ p_size (q_stat q) = size /\ (1 < length (q_val q))%nat /\ p_dat (q_stat q) = Some (length (q_val q)).
Lemma domain_ok : forall ps0 ps, res_map (pdf_alloc N) ps0 = Ok ps -> Forall okq ps -> ps <> [] -> concat (map q_val ps) = X -> (N < 2 ^ 31)%Z ->
  exists o ps', pdf_domain N ps0 = Ok (o, ps') /\ right_output X (q_val (hd (Proc stat0 acc0 []) ps)) o /\
    Forall2 (fun q q' => p_dat (q_stat q') = p_dat (q_stat q) /\ p_size (q_stat q') = p_size (q_stat q) /\ a_mean (q_acc q') = average X) ps ps'.
Proof.
  intros ps0 ps EA FO NE CX HN.
  assert (FI : forall q, In q ps -> okq q) by (apply Forall_forall; exact FO).
  assert (VN : forall v, In v (map q_val ps) -> v <> []).
  { intros v I. apply in_map_iff in I. destruct I as (q & <- & I). destruct (FI q I) as (_ & _ & L & _). destruct (q_val q); [cbn in L; lia|discriminate]. }
  assert (MNE : map q_val ps <> []) by (destruct ps; [congruence|discriminate]).
  assert (LX : (1 < length X)%nat).
  { rewrite <- CX. destruct ps as [|q r]; [congruence|]. cbn [map concat]. rewrite app_length. destruct (FI q (or_introl eq_refl)) as (_ & _ & L & _). lia. }
  assert (IL : IZR N = INR (length X)) by (unfold N; symmetry; apply INR_IZR_INZ).
  assert (LR : 1 < INR (length X)) by (apply (lt_INR 1); auto).
  assert (SZ : (1 <= size < 2 ^ 31)%Z).
  { unfold size. split; [apply Z.sqrt_le_square; unfold N; lia|]. pose proof (Z.sqrt_le_lin N ltac:(unfold N; lia)). lia. }
  unfold pdf_domain. rewrite EA. cbn [bind].
  set (dmin := red_min (map (fun q => loc_min (q_val q)) ps)). set (dmax := red_max (map (fun q => loc_max (q_val q)) ps)).
  assert (MIN : is_min X dmin) by (unfold dmin; rewrite <- CX, <- (map_map q_val loc_min); apply min_of_mins; auto).
  assert (MAX : is_max X dmax) by (unfold dmax; rewrite <- CX, <- (map_map q_val loc_max); apply max_of_maxs; auto).
  clearbody dmin dmax.
  set (mean := red_sum (map (fun q => loc_sum (fun x => x) (a_mean (q_acc q)) (q_val q)) ps) / IZR N).
  assert (SUM : forall f (g : pacc -> R), g acc0 = 0 -> red_sum (map (fun q => loc_sum f (g (q_acc q)) (q_val q)) ps) = lsum X f).
  { intros f g G0. rewrite <- CX, lsum_concat, lsum_map. unfold red_sum, lsum at 1. f_equal. apply map_ext_in. intros q I. destruct (FI q I) as (-> & _). rewrite loc_sum_eq, G0. lra. }
  assert (ME : mean = average X) by (unfold mean, average; rewrite (SUM (fun x => x) a_mean eq_refl), IL; reflexivity).
  clearbody mean.
  assert (F1 : forallb (fun q => (1 <? length (q_val q))%nat) ps = true) by (apply forallb_forall; intros q I; apply Nat.ltb_lt, FI; auto).
  rewrite F1. cbn [bind].
  set (m := map (add_moments mean) ps).
  assert (EP : red_sum (map a_ep m) = 0).
  { unfold m. rewrite map_map. transitivity (lsum X (fun x => x - mean)); [exact (SUM (fun x => x - mean) a_ep eq_refl)|].
    rewrite (lsum_ext _ X (fun x => x - mean) (fun x => x + -1 * mean)) by (intros; lra). rewrite lsum_plus, lsum_const. rewrite ME. unfold average. field. lra. }
  assert (VA : red_sum (map a_var m) = central X 2).
  { unfold m. rewrite map_map. transitivity (lsum X (fun x => (x - mean) * (x - mean))); [exact (SUM (fun x => (x - mean) * (x - mean)) a_var eq_refl)|].
    unfold central. rewrite ME. apply lsum_ext. intros; ring. }
  assert (SK : red_sum (map a_skew m) = central X 3).
  { unfold m. rewrite map_map. transitivity (lsum X (fun x => (x - mean) * (x - mean) * (x - mean))); [exact (SUM (fun x => (x - mean) * (x - mean) * (x - mean)) a_skew eq_refl)|].
    unfold central. rewrite ME. apply lsum_ext. intros; ring. }
  assert (KU : red_sum (map a_kurt m) = central X 4).
  { unfold m. rewrite map_map. transitivity (lsum X (fun x => (x - mean) * (x - mean) * (x - mean) * (x - mean))); [exact (SUM (fun x => (x - mean) * (x - mean) * (x - mean) * (x - mean)) a_kurt eq_refl)|].
    unfold central. rewrite ME. apply lsum_ext. intros; ring. }
  rewrite EP, VA, SK, KU.
  assert (VV : (central X 2 - 0 * 0 / IZR N) / IZR (N - 1) = variance X).
  { unfold variance. rewrite minus_IZR, IL. f_equal. unfold Rdiv. ring. }
  set (accs := map (fun a => finish_moments N mean 0 (central X 2) (central X 3) (central X 4) (a_adev a)) m).
  assert (LA : length accs = length ps) by (unfold accs, m; rewrite !map_length; reflexivity).
  set (a := hd acc0 accs).
  assert (HA : a = finish_moments N mean 0 (central X 2) (central X 3) (central X 4) (a_adev (add_moments mean (hd (Proc stat0 acc0 []) ps)))).
  { unfold a, accs, m. destruct ps; [congruence|reflexivity]. }
  assert (A4 : a_mean a = average X /\ a_var a = variance X /\ a_sdev a = sqrt (variance X) /\ a_adev a = a_adev (add_moments mean (hd (Proc stat0 acc0 []) ps)) / IZR N /\
     (dmin < dmax -> a_skew a = central X 3 / (INR (length X) * sqrt (variance X) ^ 3) /\ a_kurt a = central X 4 / (INR (length X) * sqrt (variance X) ^ 4) - 3)).
  { rewrite HA. unfold finish_moments. cbv zeta. rewrite VV. destruct (Rgt_dec (sqrt (variance X)) 0) as [G|G]; cbn [a_mean a_var a_sdev a_adev a_skew a_kurt]; (split; [exact ME|]); (split; [reflexivity|]); (split; [reflexivity|]); (split; [reflexivity|]); intros L.
    - assert (VP : 0 < variance X) by (eapply variance_pos; eauto). rewrite IL.
      assert (SS : variance X = sqrt (variance X) * sqrt (variance X)) by (symmetry; apply sqrt_sqrt; lra).
      set (sd := sqrt (variance X)) in *. clearbody sd. rewrite SS. split; [f_equal; ring|f_equal; f_equal; ring].
    - exfalso. apply G. apply sqrt_lt_R0. eapply variance_pos; eauto. }
  assert (ADEV : a_adev (add_moments mean (hd (Proc stat0 acc0 []) ps)) = lsum (q_val (hd (Proc stat0 acc0 []) ps)) (fun x => Rabs (x - average X))).
  { destruct ps as [|q r]; [congruence|]. cbn [hd add_moments a_adev]. rewrite loc_sum_eq. destruct (FI q (or_introl eq_refl)) as (-> & _).
    cbn [acc0 a_adev]. rewrite ME. lra. }
  clearbody a. clear HA.
  assert (SIZES : map (fun q => p_size (q_stat q)) ps = map (fun _ => size) ps) by (apply map_ext_in; intros q I; apply FI; auto).
  rewrite SIZES. assert (HD : hd 0%Z (map (fun _ => size) ps) = size) by (destruct ps; [congruence|reflexivity]). rewrite HD.
  assert (FS : forallb (fun s => (s =? size)%Z) (map (fun _ => size) ps) = true) by (apply forallb_forall; intros s I; apply in_map_iff in I; destruct I as (q & <- & _); apply Z.eqb_refl).
  rewrite FS. cbn [negb].
  assert (KEEP : forall pdfs, length pdfs = length ps -> Forall2 (fun q q' => p_dat (q_stat q') = p_dat (q_stat q) /\ p_size (q_stat q') = p_size (q_stat q) /\ a_mean (q_acc q') = average X) ps
     (map (fun t => Proc (PStat (p_dat (q_stat (fst (fst t)))) (p_size (q_stat (fst (fst t)))) (snd t)) (snd (fst t)) []) (combine (combine ps accs) pdfs))).
  { assert (AM : forall b, In b accs -> a_mean b = average X).
    { intros b I. unfold accs in I. apply in_map_iff in I. destruct I as (c & <- & _). unfold finish_moments. cbv zeta. destruct (Rgt_dec _ 0); exact ME. }
    clearbody accs. revert LA AM. clear. revert accs. induction ps as [|q ps IH]; intros [|b accs] LA AM [|p pdfs] LP; try discriminate; cbn; constructor; [repeat split; apply AM; left; reflexivity|]. apply IH; cbn in *; auto. }
  destruct (Rgt_dec (dmax - dmin) 0) as [GT|GT].
  - assert (AB : dmin < dmax) by lra.
    destruct (res_map_ok _ _ (fun q => let size := p_size (q_stat q) in pdf_bins size (IZR size / (dmax - dmin)) dmin (q_val q) (repeat 0%Z (Z.to_nat size)))
      (fun q r => forall n, (n < Z.to_nat size)%nat -> IZR (nth n r 0%Z) = count dmin ((dmax - dmin) / IZR size) (Z.to_nat size) n (q_val q)) ps) as (pdfs & EB & FB).
    { intros q I. cbv zeta. destruct (FI q I) as (_ & -> & _).
      destruct (bins_ok size dmin dmax (q_val q) (repeat 0%Z (Z.to_nat size)) SZ AB) as (r & E & _ & V); [|apply repeat_length|].
      - intros x IX. assert (In x X) by (rewrite <- CX; apply in_concat; exists (q_val q); split; [apply in_map; auto|auto]). split; [apply MIN; auto|apply MAX; auto].
      - exists r. split; [exact E|]. intros n L. rewrite V by auto. rewrite nth_repeat. lra. }
    cbv zeta in EB |- *. rewrite EB. cbn [bind]. eexists. eexists. split; [reflexivity|]. split; [|apply KEEP; clear -FB; induction FB; cbn; auto].
    destruct A4 as (A1 & A2 & A3 & A5 & A6).
    assert (CNT : forall n, (n < Z.to_nat size)%nat -> IZR (fold_right Z.add 0%Z (map (fun p => nth n p 0%Z) pdfs)) = count dmin ((dmax - dmin) / IZR size) (Z.to_nat size) n X).
    { intros n L. rewrite <- CX. clear -FB L. induction FB as [|q r ps pdfs H F IH]; [reflexivity|]. cbn [map concat fold_right]. rewrite plus_IZR, IH, H by auto.
      unfold count. rewrite filter_app, app_length, plus_INR. reflexivity. }
    assert (NZ : INR (Z.to_nat size) = IZR size) by (rewrite INR_IZR_INZ, Z2Nat.id by lia; reflexivity).
    assert (SP : 0 < IZR size) by (apply (IZR_lt 0); lia).
    unfold right_output. cbn [o_min o_max o_mean o_var o_sdev o_adev o_skew o_kurt o_nbin o_rows].
    split; [exact MIN|]. split; [exact MAX|]. split; [exact A1|]. split; [exact A2|]. split; [exact A3|]. split.
    { intros L. rewrite A3. apply A6, L. }
    split; [rewrite A5, ADEV, IL; reflexivity|]. split; [|lra].
    intros _. split; [reflexivity|]. cbv zeta. rewrite NZ.
    assert (ROWS : map (fun n => (dmin + (INR n + 1 / 2) * ((dmax - dmin) / IZR size), IZR (fold_right Z.add 0%Z (map (fun p => nth n p 0%Z) pdfs)) * (IZR size / (IZR N * (dmax - dmin))))) (seq 0 (Z.to_nat size)) =
       map (fun n => (dmin + (INR n + 1 / 2) * ((dmax - dmin) / IZR size), count dmin ((dmax - dmin) / IZR size) (Z.to_nat size) n X / (INR (length X) * ((dmax - dmin) / IZR size)))) (seq 0 (Z.to_nat size))).
    { apply map_ext_in. intros n I. apply in_seq in I. rewrite CNT by lia. rewrite IL. f_equal. field. lra. }
    rewrite ROWS. split; [reflexivity|]. rewrite lsum_map. cbn [snd].
    rewrite (lsum_ext _ _ _ (fun n => / INR (length X) * count dmin ((dmax - dmin) / IZR size) (Z.to_nat size) n X)) by (intros; field; lra).
    rewrite lsum_scal, (count_all size dmin dmax X SZ AB (fun x IX => conj (proj2 MIN x IX) (proj2 MAX x IX))). field. lra.
  - cbn [bind]. eexists. eexists. split; [reflexivity|]. split; [|apply KEEP; rewrite map_length; reflexivity].
    destruct A4 as (A1 & A2 & A3 & A5 & A6).
    unfold right_output. cbn [o_min o_max o_mean o_var o_sdev o_adev o_skew o_kurt o_nbin o_rows].
    split; [exact MIN|]. split; [exact MAX|]. split; [exact A1|]. split; [exact A2|]. split; [exact A3|]. split; [lra|].
    split; [rewrite A5, ADEV, IL; reflexivity|]. split; [lra|]. auto.
Qed.
End Dom.

Lemma find_member : forall (members : list (nat * list R)) (ps : list proc) p v (Q : list R -> proc -> Prop), NoDup (map fst members) ->
  Forall2 Q (map snd members) ps -> In (p, v) members ->
  exists q, find (fun t => (fst t =? p)%nat) (combine (map fst members) ps) = Some (p, q) /\ Q v q.
Proof.
  intros members. induction members as [|(p0, v0) ms IH]; intros ps p v Q ND F I; [destruct I|]. inversion F as [|? q0 ? ps' Q0 F']; subst. cbn [map fst combine find].
  inversion ND as [|? ? NI ND']; subst. destruct (Nat.eqb_spec p0 p) as [E|E].
  - destruct I as [I|I]; [injection I as <- <-; subst; eauto|]. exfalso. apply NI. subst p0. apply (in_map fst) in I. exact I.
  - destruct I as [I|I]; [congruence|]. apply (IH ps' p v Q); auto.
Qed.

(** One Domain, any number of processes, called again and again: the files hold the extremes,
    moments and distribution of all the values of the Domain.  The average deviation is right
    with one process. *)
Theorem C87_statistics : forall members stats, let X := values members in
  members <> [] -> NoDup (map fst members) -> (forall p v, In (p, v) members -> (1 < length v)%nat) -> (Z.of_nat (length X) < 2 ^ 31)%Z ->
  ready members stats ->
  exists o stats', output_pdf [(Z.of_nat (length X), members)] stats = Ok ([o], stats') /\
    right_output X (snd (hd (O, []) members)) o /\ ready members stats'.
Proof.
  intros members stats X NE ND HV HN HR. unfold output_pdf. cbn [pdf_loop].
  set (ps0 := map (fun m => Proc (stats (fst m)) acc0 (snd m)) members).
  assert (E0 : res_map (fun m : nat * list R => Ok (Proc (stats (fst m)) acc0 (snd m))) members = Ok ps0).
  { unfold ps0. clear. induction members as [|m ms IH]; [reflexivity|]. cbn [res_map]. cbn [bind]. rewrite IH. reflexivity. }
  rewrite E0. cbn [bind].
  assert (AL : exists ps, res_map (pdf_alloc (Z.of_nat (length X))) ps0 = Ok ps /\ Forall2 (fun q q' => q_val q' = q_val q /\ okq X q') ps0 ps).
  { apply res_map_ok. intros q I. unfold ps0 in I. apply in_map_iff in I. destruct I as ((p, v) & <- & I). cbn [fst snd]. unfold pdf_alloc. cbn [q_stat q_val q_acc].
    assert (L := HV p v I). destruct (HR p v I) as [E|(E1 & E2)].
    - rewrite E. cbn [stat0 p_dat]. rewrite isqrt by lia. cbn [bind p_dat]. rewrite Nat.leb_refl. eexists. split; [reflexivity|]. cbn [q_val]. split; [reflexivity|].
      unfold okq. cbn [q_acc q_stat q_val p_size p_dat]. auto.
    - rewrite E1. cbn [bind]. rewrite E1, Nat.leb_refl. eexists. split; [reflexivity|]. cbn [q_val]. split; [reflexivity|].
      unfold okq. cbn [q_acc q_stat q_val]. auto. }
  destruct AL as (ps & EA & FA).
  assert (OK : Forall (okq X) ps) by (clear -FA; induction FA as [|? ? ? ? (_ & H)]; constructor; auto).
  assert (VAL : map q_val ps = map snd members).
  { transitivity (map q_val ps0); [clear -FA; induction FA as [|? ? ? ? (H & _)]; cbn; congruence|]. unfold ps0. rewrite map_map. reflexivity. }
  assert (LP : length ps = length members) by (rewrite <- (map_length q_val ps), VAL, map_length; reflexivity).
  assert (CX : concat (map q_val ps) = X) by (rewrite VAL; unfold X, values; rewrite flat_map_concat_map; reflexivity).
  destruct (domain_ok X ps0 ps EA OK) as (o & ps' & ED & RO & FK); [intros ->; destruct members; [congruence|discriminate]|auto|auto|].
  rewrite ED. cbn [bind]. eexists. eexists. split; [reflexivity|]. split; [replace (snd (hd (O, []) members)) with (q_val (hd (Proc stat0 acc0 []) ps)); [exact RO|]; destruct ps, members; cbn in VAL |- *; congruence|].
  intros p v I. right. cbv zeta.
  assert (F2 : Forall2 (fun v q => p_dat (q_stat q) = Some (length v) /\ p_size (q_stat q) = Z.sqrt (Z.of_nat (length X))) (map snd members) ps').
  { rewrite <- VAL. clear -FK OK. induction FK as [|q q' r r' (K1 & K2 & _) F IH]; cbn; [constructor|]. inversion OK as [|? ? (_ & S & _ & D) O]; subst. constructor; [split; congruence|auto]. }
  destruct (find_member members ps' p v _ ND F2 I) as (q & EF & Q). rewrite EF. exact Q.
Qed.
Print Assumptions C87_statistics.
(** At the start nothing is allocated. *)
Example C87_example : let members := [(0%nat, [1; 2; 4]); (1%nat, [3; 3; 5; 7])] in
  exists o stats, output_pdf [(7%Z, members)] (fun _ => stat0) = Ok ([o], stats) /\ o_mean o = 25 / 7 /\ o_min o = 1 /\ o_max o = 7 /\
    o_nbin o = 2%Z /\ o_rows o = [(5/2, 4 / (7 * 3)); (11/2, 3 / (7 * 3))].
Proof.
  intros members. destruct (C87_statistics members (fun _ => stat0)) as (o & stats & E & R & _); try discriminate; try reflexivity.
  - repeat constructor; cbn; intuition lia.
  - intros p v [I|[I|[]]]; injection I as <- <-; cbn; lia.
  - intros p v _. left. reflexivity.
  - destruct R as ((M1 & M2) & (M3 & M4) & ME & _ & _ & _ & _ & RB & _). cbn in M1, M3. exists o, stats. split; [exact E|].
    assert (MIN : o_min o = 1). { assert (o_min o <= 1) by (apply M2; cbn; auto). intuition lra. }
    assert (MAX : o_max o = 7). { assert (7 <= o_max o) by (apply M4; cbn; intuition). intuition lra. }
    rewrite MIN, MAX in RB. destruct RB as (NB & RW & _); [lra|]. cbv zeta in RW. change (values members) with [1; 2; 4; 3; 3; 5; 7] in *. change (Z.sqrt (Z.of_nat (length [1; 2; 4; 3; 3; 5; 7]))) with 2%Z in NB.
    rewrite NB in RW. change (Z.to_nat 2) with 2%nat in RW. change (INR 2) with (1 + 1) in RW.
    split; [rewrite ME; unfold average, lsum; cbn; lra|]. split; [auto|]. split; [auto|]. split; [auto|]. rewrite RW. cbn [seq map].
    assert (B0 : forall x, in_bin 1 ((7 - 1) / (1 + 1)) 2 0 x = (if Rle_dec 1 x then true else false) && (if Rlt_dec x 4 then true else false)).
    { intros x. unfold in_bin. change (INR 0) with 0. replace (1 + 0 * ((7 - 1) / (1 + 1))) with 1 by field. replace (1 + (0 + 1) * ((7 - 1) / (1 + 1))) with 4 by field. cbn [Nat.eqb]. rewrite orb_false_r. reflexivity. }
    assert (B1 : forall x, in_bin 1 ((7 - 1) / (1 + 1)) 2 1 x = (if Rle_dec 4 x then true else false)).
    { intros x. unfold in_bin. change (INR 1) with 1. replace (1 + 1 * ((7 - 1) / (1 + 1))) with 4 by field. cbn [Nat.eqb]. rewrite orb_true_r, andb_true_r. reflexivity. }
    assert (C0 : count 1 ((7 - 1) / (1 + 1)) 2 0 [1; 2; 4; 3; 3; 5; 7] = 4).
    { unfold count. cbn [filter]. rewrite !B0. repeat (destruct (Rle_dec _ _); [|lra]). cbn [andb]. repeat (destruct (Rlt_dec _ _); try lra). cbn. lra. }
    assert (C1 : count 1 ((7 - 1) / (1 + 1)) 2 1 [1; 2; 4; 3; 3; 5; 7] = 3).
    { unfold count. cbn [filter]. rewrite !B1. repeat (destruct (Rle_dec _ _); try lra). cbn. lra. }
    rewrite C0, C1. change (INR 0) with 0. change (INR 1) with 1. replace (INR (length [1; 2; 4; 3; 3; 5; 7])) with 7 by (cbn; lra).
    f_equal; [f_equal; lra|]. f_equal. f_equal; lra.
Qed.

(** The average deviation is right with one process. *)
Theorem C87_average_deviation : forall p v stats, (1 < length v)%nat -> (Z.of_nat (length v) < 2 ^ 31)%Z -> ready [(p, v)] stats ->
  exists o stats', output_pdf [(Z.of_nat (length v), [(p, v)])] stats = Ok ([o], stats') /\
    o_adev o = lsum v (fun x => Rabs (x - average v)) / INR (length v).
Proof.
  intros p v stats L N RD. assert (V : values [(p, v)] = v) by (cbn; apply app_nil_r).
  destruct (C87_statistics [(p, v)] stats) as (o & stats' & E & R & _); try discriminate.
  - repeat constructor. intros [].
  - intros q w [I|[]]. injection I as <- <-. exact L.
  - rewrite V. exact N.
  - exact RD.
  - rewrite V in E, R. exists o, stats'. split; [exact E|]. apply R.
Qed.
Print Assumptions C87_average_deviation.
(** Refuted with several: the deviations of the other processes are left out. *)
Theorem C87_average_deviation_refuted : let members := [(0%nat, [0; 0]); (1%nat, [1; 3])] in exists o stats',
  output_pdf [(4%Z, members)] (fun _ => stat0) = Ok ([o], stats') /\
  o_adev o = 1/2 /\ lsum (values members) (fun x => Rabs (x - average (values members))) / 4 = 1.
Proof.
  intros members. destruct (C87_statistics members (fun _ => stat0)) as (o & stats' & E & R & _); try discriminate; try reflexivity.
  - repeat constructor; cbn; intuition lia.
  - intros p v [I|[I|[]]]; injection I as <- <-; cbn; lia.
  - intros p v _. left. reflexivity.
  - exists o, stats'. split; [exact E|]. destruct R as (_ & _ & _ & _ & _ & _ & AD & _).
    change (values members) with [0; 0; 1; 3] in *. change (snd (hd (0%nat, []) members)) with [0; 0] in AD.
    assert (AV : average [0; 0; 1; 3] = 1) by (unfold average, lsum; cbn; lra). rewrite AV in *. rewrite AD.
    unfold lsum. cbn [map fold_right length]. replace (INR 4) with 4 by (cbn; lra). replace (0 - 1) with (-(1)) by lra. replace (1 - 1) with 0 by lra. replace (3 - 1) with 2 by lra.
    rewrite Rabs_Ropp, Rabs_R1, Rabs_R0, (Rabs_right 2) by lra. lra.
Qed.
Print Assumptions C87_average_deviation_refuted.

Lemma res_map_UB : forall A B (f : A -> res B) l a, (forall b, In b l -> f b = UB \/ exists r, f b = Ok r) -> In a l -> f a = UB -> res_map f l = UB.
Proof.
  intros A B f l a H I U. induction l as [|b l IH]; [destruct I|]. cbn [res_map]. destruct I as [->|I]; [rewrite U; reflexivity|].
  destruct (H b (or_introl eq_refl)) as [-> | (r & ->)]; [reflexivity|]. cbn [bind]. rewrite IH; [reflexivity|intros; apply H; right; auto|auto].
Qed.
(** Refuted with several Domains: a process that is not the first of a Domain leaves the loop,
    and the next Domain it has a Grid in waits for it forever. *)
Theorem C87_several_domains_refuted : forall members members' N' p v w,
  let N := Z.of_nat (length (values members)) in
  members <> [] -> NoDup (map fst members) -> (forall p v, In (p, v) members -> (1 < length v)%nat) -> (N < 2 ^ 31)%Z ->
  In (p, v) (tl members) -> In (p, w) members' ->
  output_pdf [(N, members); (N', members')] (fun _ => stat0) = UB.
Proof.
  intros members members' N' p v w N NE ND HV HN IP IW.
  destruct (C87_statistics members (fun _ => stat0) NE ND HV HN) as (o & stats' & E & _); [intros q u _; left; reflexivity|].
  unfold output_pdf in *. cbn [pdf_loop] in E |- *. apply bind_ok in E. destruct E as (ps0 & E0 & E). rewrite E0. cbn [bind].
  apply bind_ok in E. destruct E as ((o1, ps') & E1 & E). fold N in E1. rewrite E1. cbn [bind]. cbv zeta.
  assert (LP : length ps' = length members).
  { clear E. unfold pdf_domain in E1. assert (L0 : length ps0 = length members) by (revert E0; clear; revert ps0; induction members as [|m ms IH]; intros ps0; cbn [res_map bind]; [intros H; injection H as <-; reflexivity|]; intros H; apply bind_ok in H; destruct H as (r & HR & H); injection H as <-; cbn; f_equal; auto).
    apply bind_ok in E1. destruct E1 as (ps & EP & E1).
    assert (LQ : forall A B (f : A -> res B) l r, res_map f l = Ok r -> length r = length l).
    { clear. intros A B f l. induction l as [|a l IH]; intros r; cbn [res_map]; [intros H; injection H as <-; reflexivity|]. intros H. apply bind_ok in H. destruct H as (b & _ & H). apply bind_ok in H. destruct H as (r' & HR & H). injection H as <-. cbn. f_equal. auto. }
    assert (L1 := LQ _ _ _ _ _ EP). cbv zeta in E1. apply bind_ok in E1. destruct E1 as (accs & EAC & E1). apply bind_ok in E1. destruct E1 as (pdfs & EPD & E1).
    assert (LA : length accs = length ps).
    { destruct (forallb _ ps) in EAC; [injection EAC as <-; rewrite !map_length; reflexivity|]. destruct (forallb _ ps) in EAC; [|discriminate]. injection EAC as <-. rewrite map_length. reflexivity. }
    assert (LD : length pdfs = length ps).
    { destruct (Rgt_dec _ 0) in EPD; [eapply LQ; eauto|]. injection EPD as <-. rewrite map_length. reflexivity. }
    destruct (negb _) in E1; [discriminate|]. injection E1 as _ <-. rewrite map_length, !combine_length. lia. }
  assert (SP : exists q, find (fun t => (fst t =? p)%nat) (combine (map fst members) ps') = Some (p, q) /\ (p =? hd O (map fst members))%nat = false).
  { assert (IM : In (p, v) members) by (destruct members; [destruct IP|right; auto]).
    assert (F2 : Forall2 (fun (_ : list R) (_ : proc) => True) (map snd members) ps').
    { rewrite <- (map_length snd) in LP. revert LP. clear. generalize (map snd members). induction ps'; intros [|? ?] L; try discriminate; constructor; cbn in *; auto. }
    destruct (find_member members ps' p v (fun _ _ => True) ND F2 IM) as (q & EF & _). exists q. split; [exact EF|].
    destruct members as [|(p0, v0) ms]; [destruct IP|]. cbn [map hd fst tl] in *. destruct (Nat.eqb_spec p p0) as [->|]; [|reflexivity].
    exfalso. inversion ND as [|? ? NI _]; subst. apply NI. apply (in_map fst) in IP. exact IP. }
  destruct SP as (q0 & S1 & S2).
  match goal with |- context [res_map ?f members'] => assert (UBR : res_map f members' = UB) end.
  { apply (res_map_UB _ _ _ _ (p, w)); [|exact IW|cbn [fst]; rewrite S1, S2; reflexivity]. intros (q, u) _. cbn [fst snd]. clear S1 S2.
    destruct (find _ _) as [(?, ?)|]; [destruct (_ =? _)%nat; [right; eauto|left; reflexivity]|right; eauto]. }
  rewrite UBR. reflexivity.
Qed.
Print Assumptions C87_several_domains_refuted.

Lemma serial_first : forall v, (1 < length v)%nat -> (Z.of_nat (length v) < 2 ^ 31)%Z ->
  exists o q, pdf_domain (Z.of_nat (length v)) [Proc stat0 acc0 v] = Ok (o, [q]) /\ right_output v v o /\
    p_dat (q_stat q) = Some (length v) /\ p_size (q_stat q) = Z.sqrt (Z.of_nat (length v)) /\ a_mean (q_acc q) = average v.
Proof.
  intros v L N. set (q0 := Proc (PStat (Some (length v)) (Z.sqrt (Z.of_nat (length v))) (repeat 0%Z (Z.to_nat (Z.sqrt (Z.of_nat (length v)))))) acc0 v).
  destruct (domain_ok v [Proc stat0 acc0 v] [q0]) as (o & ps' & E & RO & F).
  - cbn [res_map]. unfold pdf_alloc at 1. cbn [q_stat stat0 p_dat q_val]. rewrite isqrt by lia. cbn [bind p_dat q_val q_acc]. rewrite Nat.leb_refl. reflexivity.
  - constructor; [|constructor]. unfold okq, q0. cbn. auto.
  - discriminate.
  - cbn. apply app_nil_r.
  - exact N.
  - inversion F as [|? q ? r (A & B & C) F']; subst. inversion F'; subst. exists o, q. split; [exact E|]. split; [exact RO|]. auto.
Qed.
(** Refuted without MPI too: data[] keeps the size of the first Domain, and a larger one
    overruns it. *)
Theorem C87_larger_domain_refuted : forall v w, (1 < length v < length w)%nat -> (Z.of_nat (length v) < 2 ^ 31)%Z ->
  output_pdf [(Z.of_nat (length v), [(0%nat, v)]); (Z.of_nat (length w), [(0%nat, w)])] (fun _ => stat0) = UB.
Proof.
  intros v w L N. destruct (serial_first v ltac:(lia) N) as (o & q & E & _ & D & _). unfold output_pdf. cbn [pdf_loop res_map fst snd bind].
  rewrite E. cbn [bind map fst combine hd find Nat.eqb]. unfold pdf_domain. cbn [res_map]. unfold pdf_alloc at 1. cbn [q_stat q_val q_acc].
  rewrite D. cbn [bind]. rewrite D. destruct (Nat.leb_spec (length w) (length v)); [lia|]. reflexivity.
Qed.
Print Assumptions C87_larger_domain_refuted.
(** Refuted: the sums are not cleared between Domains; the mean of 0, 0 after a Domain of 1, 1
    is reported as 1/2. *)
Theorem C87_stale_sums_refuted : exists o1 o2 stats,
  output_pdf [(2%Z, [(0%nat, [1; 1])]); (2%Z, [(0%nat, [0; 0])])] (fun _ => stat0) = Ok ([o1; o2], stats) /\ average [0; 0] = 0 /\ o_mean o2 = 1/2.
Proof.
  destruct (serial_first [1; 1]) as (o & q & E & _ & D & SZ & AM); [cbn; lia|reflexivity|]. unfold output_pdf. cbn [pdf_loop res_map fst snd bind].
  change (Z.of_nat (length [1; 1])) with 2%Z in *. rewrite E. cbn [bind map fst combine hd find Nat.eqb].
  assert (AV : a_mean (q_acc q) = 1) by (rewrite AM; unfold average, lsum; cbn; lra).
  assert (E2 : exists o2 r, pdf_domain 2 [Proc (q_stat q) (q_acc q) [0; 0]] = Ok (o2, r) /\ o_mean o2 = 1/2).
  { unfold pdf_domain. cbn [res_map]. unfold pdf_alloc at 1. cbn [q_stat q_val q_acc]. rewrite D. cbn [bind]. rewrite D. cbn [length Nat.leb bind map q_val q_acc q_stat].
    assert (M0 : loc_min [0; 0] = 0) by (unfold loc_min; cbn; repeat destruct (Rlt_dec _ _); reflexivity).
    assert (M1 : loc_max [0; 0] = 0) by (unfold loc_max; cbn; repeat destruct (Rgt_dec _ _); reflexivity).
    rewrite M0, M1. unfold red_min, red_max. cbn [hd fold_left]. replace (Rmin 0 0) with 0 by (rewrite Rmin_left; lra). replace (Rmax 0 0) with 0 by (rewrite Rmax_left; lra).
    destruct (Rgt_dec (0 - 0) 0) as [C|_]; [lra|]. cbn [forallb length Nat.ltb Nat.leb andb bind hd Z.eqb map]. rewrite Z.eqb_refl. cbn [andb negb]. eexists. eexists. split; [reflexivity|].
    cbn [o_mean]. unfold finish_moments. cbv zeta.
    assert (MM : red_sum [loc_sum (fun x => x) (a_mean (q_acc q)) [0; 0]] / 2 = 1/2) by (unfold red_sum, loc_sum; cbn [fold_left fold_right]; rewrite AV; lra).
    destruct (Rgt_dec _ 0); cbn [a_mean]; exact MM. }
  destruct E2 as (o2 & r & E2 & M2). rewrite E2. cbn [bind]. exists o, o2. eexists. split; [reflexivity|]. split; [unfold average, lsum; cbn; lra|exact M2].
Qed.
Print Assumptions C87_stale_sums_refuted.
