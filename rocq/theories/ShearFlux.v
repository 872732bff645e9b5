(** * C90: the fluxes at the two sides of the shearing box *)
From Coq Require Import Reals ZArith Bool Lia Lra Psatz List.
From Verif Require Import CStr PosModel GasModel ReconModel IntegModel IntegSpec IntegFacts SumFacts ShearModel ShearSpec ShearFacts ShearProps.
Import ListNotations.
Open Scope R_scope.

(** The sum over all rows of a line of Grids. *)
Definition line_sum (NG js n : Z) (f : Z -> Z -> R) : R := sumZ 0 (NG - 1) (fun p => sumZ js (js + n - 1) (f p)).

Lemma line_sum_ext : forall NG js n f g, (forall p j, (0 <= p < NG)%Z -> (js <= j <= js + n - 1)%Z -> f p j = g p j) ->
  line_sum NG js n f = line_sum NG js n g.
Proof. intros NG js n f g H. unfold line_sum. apply sumZ_ext. intros p Hp. apply sumZ_ext. intros j Hj. apply H; lia. Qed.
Lemma line_sum_plus : forall NG js n f g, line_sum NG js n (fun p j => f p j + g p j) = line_sum NG js n f + line_sum NG js n g.
Proof. intros. unfold line_sum. rewrite <- sumZ_plus. apply sumZ_ext. intros p _. apply sumZ_plus. Qed.
Lemma line_sum_scal : forall NG js n a f, line_sum NG js n (fun p j => a * f p j) = a * line_sum NG js n f.
Proof. intros. unfold line_sum. rewrite <- sumZ_scal. apply sumZ_ext. intros p _. apply sumZ_scal. Qed.
Lemma line_sum_rows : forall NG js n g, (0 <= NG)%Z -> (0 < n)%Z ->
  line_sum NG js n (fun p j => g (row_of js n p j)) = sumZ 0 (NG * n - 1) g.
Proof.
  intros NG js n g HN Hn. unfold line_sum. revert NG HN.
  apply (natlike_ind (fun NG => sumZ 0 (NG - 1) (fun p => sumZ js (js + n - 1) (fun j => g (row_of js n p j))) = sumZ 0 (NG * n - 1) g)).
  - rewrite !sumZ_empty by lia. reflexivity.
  - intros x Hx IH. rewrite sumZ_last by lia. replace (Z.succ x - 1 - 1)%Z with (x - 1)%Z by lia. replace (Z.succ x - 1)%Z with x by lia. rewrite IH.
    rewrite <- (sumZ_cat 0 (x * n - 1) (Z.succ x * n - 1)) by nia. f_equal.
    pose proof (sumZ_move js (js + n - 1) (x * n)%Z g) as M. unfold row_of. rewrite M. f_equal; lia.
Qed.

Section Flx.
Variables (fargo third : bool) (qomL eps : R) (joffset NG js n : Z).
Hypothesis HN : (0 < NG)%Z.
Hypothesis Hn : (3 <= n)%Z.
Hypothesis Ho : (0 <= joffset < NG * n)%Z.

(** Rows of the whole line. *)
Definition glob (f : Z -> Z -> R) (J : Z) : R := f ((J / n) mod NG)%Z (js + J mod n)%Z.
Lemma glob_periodic : forall f, periodic (NG * n) (glob f).
Proof.
  intros f J. unfold glob. rewrite Z.div_add by lia. rewrite Z.mod_add by lia. replace (J / n + NG)%Z with (J / n + 1 * NG)%Z by lia. rewrite Z.mod_add by lia. reflexivity.
Qed.
Lemma glob_row : forall f p j, (0 <= p < NG)%Z -> (js <= j <= js + n - 1)%Z -> glob f (row_of js n p j) = f p j.
Proof.
  intros f p j Hp Hj. unfold glob, row_of.
  assert (E : ((p * n + (j - js)) / n = p)%Z) by (rewrite Z.div_add_l by lia; rewrite Z.div_small by lia; lia).
  assert (M : ((p * n + (j - js)) mod n = j - js)%Z) by (rewrite Z.add_comm, Z.mod_add by lia; apply Z.mod_small; lia).
  rewrite E, M. rewrite (Z.mod_small p) by lia. f_equal. lia.
Qed.
Lemma ghosts_glob : forall f p j, (0 <= p < NG)%Z -> (js - 3 <= j <= js + n - 1 + 3)%Z ->
  with_ghosts NG js n f p j = glob f (row_of js n p j).
Proof.
  intros f p j Hp Hj. unfold with_ghosts.
  assert (K : forall q j' c, (0 <= q < NG)%Z -> (js <= j' <= js + n - 1)%Z -> row_of js n p j = (row_of js n q j' + c * (NG * n))%Z -> f q j' = glob f (row_of js n p j)).
  { intros q j' c Hq Hj' E. rewrite E. rewrite (periodic_mult (glob f) _ (glob_periodic f)). symmetry. now apply glob_row. }
  destruct (j <? js)%Z eqn:E1; [apply Z.ltb_lt in E1|apply Z.ltb_ge in E1].
  - destruct (NG =? 1)%Z eqn:E2; [apply Z.eqb_eq in E2|apply Z.eqb_neq in E2].
    + apply (K p (j + n)%Z (-1)%Z); try lia; unfold row_of; nia.
    + destruct (down_ring NG p 1 Hp ltac:(lia)) as [D1 [D2|D2]].
      * apply (K _ (j + n)%Z 0%Z); try lia; unfold row_of; rewrite D2; nia.
      * apply (K _ (j + n)%Z (-1)%Z); try lia; unfold row_of; rewrite D2; nia.
  - destruct (js + n - 1 <? j)%Z eqn:E3; [apply Z.ltb_lt in E3|apply Z.ltb_ge in E3].
    + destruct (NG =? 1)%Z eqn:E2; [apply Z.eqb_eq in E2|apply Z.eqb_neq in E2].
      * apply (K p (j - n)%Z 1%Z); try lia; unfold row_of; nia.
      * destruct (up_ring NG p 1 Hp ltac:(lia)) as [D1 [D2|D2]].
        -- apply (K _ (j - n)%Z 0%Z); try lia; unfold row_of; rewrite D2; nia.
        -- apply (K _ (j - n)%Z 1%Z); try lia; unfold row_of; rewrite D2; nia.
    + apply (K p j 0%Z); try lia; unfold row_of; nia.
Qed.
Lemma rFlx_ok : forall inner F p j, (0 <= p < NG)%Z -> (js <= j <= js + n - 1)%Z ->
  exists r, rFlx inner fargo third qomL eps joffset NG js n F p j = Ok r /\
    forall v, r v = carried inner third joffset eps (glob (opposite inner fargo qomL F v)) (row_of js n p j).
Proof.
  intros inner F p j Hp Hj. unfold rFlx. cbv zeta. set (e := if inner then eps else - eps).
  set (buf := fun p j v => remap third e (with_ghosts NG js n (opposite inner fargo qomL F v) p) j).
  assert (B : forall q j' v, (0 <= q < NG)%Z -> (js <= j' <= js + n - 1)%Z ->
    buf q j' v = remap third e (glob (opposite inner fargo qomL F v)) (row_of js n q j')).
  { intros q j' v Hq Hj'. unfold buf. apply remap_local. intros d Hd. rewrite ghosts_glob by (try assumption; lia). f_equal. unfold row_of. lia. }
  unfold carried. destruct inner.
  - destruct (shift_ix1_ok _ NG js n buf HN ltac:(lia) joffset p j Ho Hp Hj) as [q [j' [c [Hq [Hj' [E S]]]]]].
    eexists. split; [exact S|]. intros v. rewrite B by assumption. unfold row_of. rewrite E.
    apply (periodic_mult (remap third e (glob (opposite true fargo qomL F v))) (NG * n)). intros J. apply remap_periodic. apply glob_periodic.
  - destruct (shift_ox1_ok _ NG js n buf HN ltac:(lia) joffset p j Ho Hp Hj) as [q [j' [c [Hq [Hj' [E S]]]]]].
    eexists. split; [exact S|]. intros v. rewrite B by assumption. unfold row_of. rewrite E.
    apply (periodic_mult (remap third e (glob (opposite false fargo qomL F v))) (NG * n)). intros J. apply remap_periodic. apply glob_periodic.
Qed.
(** The flux used at an edge. *)
Definition edge (inner : bool) (own opp : fvar -> Z -> Z -> R) (v : fvar) (p j : Z) : R :=
  half * (own v p j + carried inner third joffset eps (glob (opposite inner fargo qomL opp v)) (row_of js n p j)).
Lemma edge_ok : forall inner own opp p j, (0 <= p < NG)%Z -> (js <= j <= js + n - 1)%Z ->
  exists r, edge_flux inner fargo third qomL eps joffset NG js n own opp p j = Ok r /\ forall v, r v = edge inner own opp v p j.
Proof.
  intros inner own opp p j Hp Hj. unfold edge_flux. destruct (rFlx_ok inner opp p j Hp Hj) as [r [E R]]. rewrite E. cbn [bind].
  eexists. split; [reflexivity|]. intros v. unfold mean_flux, edge. rewrite R. reflexivity.
Qed.
Lemma edge_sum : forall inner own opp v, line_sum NG js n (edge inner own opp v) =
  half * (line_sum NG js n (own v) + line_sum NG js n (opposite inner fargo qomL opp v)).
Proof.
  intros inner own opp v. unfold edge. rewrite line_sum_scal, line_sum_plus. do 2 f_equal.
  rewrite (line_sum_rows NG js n (carried inner third joffset eps (glob (opposite inner fargo qomL opp v)))) by lia.
  rewrite C89_conserves; [|nia|apply glob_periodic].
  rewrite <- (line_sum_rows NG js n (glob (opposite inner fargo qomL opp v))) by lia.
  apply line_sum_ext. intros p j Hp Hj. now apply glob_row.
Qed.
End Flx.

(** ** C90: the same mass, momentum and field leaves through one side and enters through the other *)
Theorem C90_edges_agree : forall fargo third qomL eps joffset NG js n (Fi Fo : fvar -> Z -> Z -> R),
  (0 < NG)%Z -> (3 <= n)%Z -> (0 <= joffset < NG * n)%Z ->
  exists fi fo : fvar -> Z -> Z -> R,
    (forall p j, (0 <= p < NG)%Z -> (js <= j <= js + n - 1)%Z ->
       (exists r, edge_flux true fargo third qomL eps joffset NG js n Fi Fo p j = Ok r /\ forall v, r v = fi v p j) /\
       (exists r, edge_flux false fargo third qomL eps joffset NG js n Fo Fi p j = Ok r /\ forall v, r v = fo v p j)) /\
    (forall v, v <> FM2 -> line_sum NG js n (fi v) = line_sum NG js n (fo v)) /\
    line_sum NG js n (fi FM2) = line_sum NG js n (fo FM2) + (if fargo then 0 else qomL * line_sum NG js n (fo Fd)).
Proof.
  intros fargo third qomL eps joffset NG js n Fi Fo HN Hn Ho.
  exists (edge fargo third qomL eps joffset NG js n true Fi Fo), (edge fargo third qomL eps joffset NG js n false Fo Fi).
  split; [|split].
  - intros p j Hp Hj. split; apply edge_ok; assumption.
  - intros v Hv. rewrite !edge_sum by assumption.
    assert (OP : forall inner F, line_sum NG js n (opposite inner fargo qomL F v) = line_sum NG js n (F v)).
    { intros inner F. apply line_sum_ext. intros p j _ _. destruct v; try reflexivity. exfalso; now apply Hv. }
    rewrite !OP. ring.
  - rewrite !edge_sum by assumption. unfold opposite. destruct fargo.
    { change (fun p j : Z => Fo FM2 p j) with (Fo FM2). change (fun p j : Z => Fi FM2 p j) with (Fi FM2). ring. }
    rewrite line_sum_plus.
    replace (line_sum NG js n (fun p j => Fi FM2 p j - qomL * Fi Fd p j)) with (line_sum NG js n (Fi FM2) - qomL * line_sum NG js n (Fi Fd)).
    2:{ rewrite <- (line_sum_scal NG js n qomL (Fi Fd)). replace (line_sum NG js n (fun p j => qomL * Fi Fd p j)) with (- line_sum NG js n (fun p j => - (qomL * Fi Fd p j))).
        - rewrite <- (line_sum_ext NG js n (fun p j => Fi FM2 p j + - (qomL * Fi Fd p j)) (fun p j => Fi FM2 p j - qomL * Fi Fd p j)) by (intros; ring).
          rewrite line_sum_plus. ring.
        - rewrite (line_sum_ext NG js n (fun p j => - (qomL * Fi Fd p j)) (fun p j => -1 * (qomL * Fi Fd p j))) by (intros; ring).
          rewrite (line_sum_scal NG js n (-1) (fun p j => qomL * Fi Fd p j)). ring. }
    rewrite line_sum_scal. change (fun p j : Z => Fo FM2 p j) with (Fo FM2). change (fun p j : Z => Fo Fd p j) with (Fo Fd). change (fun p j : Z => Fi Fd p j) with (Fi Fd). unfold half. field.
Qed.
Print Assumptions C90_edges_agree.

(** ** C90: so the sweep along x1 conserves mass, radial and vertical momentum; the azimuthal
    momentum changes by the speed of the boundary times the mass that crossed it *)
Theorem C90_sweep : forall fargo third qomL eps joffset NG js n is_ ie dtodx1 (u f : fvar -> Z -> Z -> Z -> R),
  (0 < NG)%Z -> (3 <= n)%Z -> (0 <= joffset < NG * n)%Z -> (is_ <= ie)%Z ->
  let own side := fun v p j => f v (if side : bool then is_ else ie + 1)%Z p j in
  let total (q : fvar -> Z -> Z -> Z -> R) v := line_sum NG js n (fun p j => sumZ is_ ie (fun i => q v i p j)) in
  forall g, (forall v i p j, (is_ < i <= ie)%Z -> g v i p j = f v i p j) ->
  (forall p j, (0 <= p < NG)%Z -> (js <= j <= js + n - 1)%Z ->
     (exists r, edge_flux true fargo third qomL eps joffset NG js n (own true) (own false) p j = Ok r /\ forall v, r v = g v is_ p j) /\
     (exists r, edge_flux false fargo third qomL eps joffset NG js n (own false) (own true) p j = Ok r /\ forall v, r v = g v (ie + 1)%Z p j)) ->
  let new : fvar -> Z -> Z -> Z -> R := fun v i p j => u v i p j - dtodx1 * (g v (i + 1)%Z p j - g v i p j) in
  (forall v, v <> FM2 -> total new v = total u v) /\
  total new FM2 = total u FM2 + (if fargo then 0 else dtodx1 * qomL * line_sum NG js n (g Fd (ie + 1)%Z)).
Proof.
  intros fargo third qomL eps joffset NG js n is_ ie dtodx1 u f HN Hn Ho Hie own total g _ HE new.
  destruct (C90_edges_agree fargo third qomL eps joffset NG js n (own true) (own false) HN Hn Ho) as [fi [fo [A [B M]]]].
  assert (GI : forall v, line_sum NG js n (g v is_) = line_sum NG js n (fi v)).
  { intros v. apply line_sum_ext. intros p j Hp Hj. destruct (A p j Hp Hj) as [[r [E R]] _]. destruct (HE p j Hp Hj) as [[r' [E' R']] _]. rewrite E in E'. injection E' as <-. rewrite <- R, R'. reflexivity. }
  assert (GO : forall v, line_sum NG js n (g v (ie + 1)%Z) = line_sum NG js n (fo v)).
  { intros v. apply line_sum_ext. intros p j Hp Hj. destruct (A p j Hp Hj) as [_ [r [E R]]]. destruct (HE p j Hp Hj) as [_ [r' [E' R']]]. rewrite E in E'. injection E' as <-. rewrite <- R, R'. reflexivity. }
  assert (T : forall v, total new v = total u v + dtodx1 * (line_sum NG js n (g v is_) - line_sum NG js n (g v (ie + 1)%Z))).
  { intros v. unfold total, new.
    rewrite (line_sum_ext NG js n _ (fun p j => sumZ is_ ie (fun i => u v i p j) + (dtodx1 * g v is_ p j + - dtodx1 * g v (ie + 1)%Z p j))).
    - rewrite line_sum_plus, line_sum_plus. rewrite (line_sum_scal NG js n dtodx1 (g v is_)), (line_sum_scal NG js n (- dtodx1) (g v (ie + 1)%Z)). ring.
    - intros p j _ _. rewrite sumZ_minus, sumZ_scal. rewrite (sumZ_tele is_ ie (fun i => g v i p j)) by lia. ring. }
  split.
  - intros v Hv. rewrite T, GI, GO, (B v Hv). ring.
  - rewrite T, !GI, !GO, M. destruct fargo; ring.
Qed.
Print Assumptions C90_sweep.

(** ** C90: the vertical magnetic flux through the Domain is conserved *)
Theorem C90_vertical_flux : forall fargo third qomL eps joffset NG js n is_ ie dtodx1 dtodx2 (B3 e2 : Z -> Z -> Z -> R) (e1 : Z -> Z -> R) F,
  (0 < NG)%Z -> (3 <= n)%Z -> (0 <= joffset < NG * n)%Z -> (is_ <= ie)%Z ->
  (forall i, periodic (NG * n) (e1 i)) ->
  (forall p j, (0 <= p < NG)%Z -> (js <= j <= js + n - 1)%Z ->
     (exists r, edge_flux true fargo third qomL eps joffset NG js n (F true) (F false) p j = Ok r /\ r FE2 = e2 is_ p j) /\
     (exists r, edge_flux false fargo third qomL eps joffset NG js n (F false) (F true) p j = Ok r /\ r FE2 = e2 (ie + 1)%Z p j)) ->
  let total (q : Z -> Z -> Z -> R) := line_sum NG js n (fun p j => sumZ is_ ie (fun i => q i p j)) in
  total (fun i p j => B3 i p j + dtodx2 * (e1 i (row_of js n p j + 1)%Z - e1 i (row_of js n p j)) - dtodx1 * (e2 (i + 1)%Z p j - e2 i p j))
  = total B3.
Proof.
  intros fargo third qomL eps joffset NG js n is_ ie dtodx1 dtodx2 B3 e2 e1 F HN Hn Ho Hie P1 HE total.
  destruct (C90_edges_agree fargo third qomL eps joffset NG js n (F true) (F false) HN Hn Ho) as [fi [fo [A [B _]]]].
  assert (GI : line_sum NG js n (e2 is_) = line_sum NG js n (fi FE2)).
  { apply line_sum_ext. intros p j Hp Hj. destruct (A p j Hp Hj) as [[r [E R]] _]. destruct (HE p j Hp Hj) as [[r' [E' R']] _]. rewrite E in E'. injection E' as <-. rewrite <- R, R'. reflexivity. }
  assert (GO : line_sum NG js n (e2 (ie + 1)%Z) = line_sum NG js n (fo FE2)).
  { apply line_sum_ext. intros p j Hp Hj. destruct (A p j Hp Hj) as [_ [r [E R]]]. destruct (HE p j Hp Hj) as [_ [r' [E' R']]]. rewrite E in E'. injection E' as <-. rewrite <- R, R'. reflexivity. }
  assert (E1 : line_sum NG js n (fun p j => sumZ is_ ie (fun i => e1 i (row_of js n p j + 1)%Z - e1 i (row_of js n p j))) = 0).
  { rewrite (line_sum_rows NG js n (fun J => sumZ is_ ie (fun i => e1 i (J + 1)%Z - e1 i J))) by lia.
    rewrite sumZ_swap. rewrite (sumZ_ext _ _ _ (fun _ => 0)); [apply sumZ_zero|]. intros i _.
    rewrite (sumZ_tele 0 (NG * n - 1) (e1 i)) by nia. pose proof (P1 i 0%Z) as X. replace (NG * n - 1 + 1)%Z with (0 + NG * n)%Z by lia. rewrite X. ring. }
  unfold total.
  rewrite (line_sum_ext NG js n _ (fun p j => sumZ is_ ie (fun i => B3 i p j) + (dtodx2 * sumZ is_ ie (fun i => e1 i (row_of js n p j + 1)%Z - e1 i (row_of js n p j)) +
     (dtodx1 * e2 is_ p j + - dtodx1 * e2 (ie + 1)%Z p j)))).
  - rewrite !line_sum_plus. rewrite (line_sum_scal NG js n dtodx2 (fun p j => sumZ is_ ie (fun i => e1 i (row_of js n p j + 1)%Z - e1 i (row_of js n p j)))), E1.
    rewrite (line_sum_scal NG js n dtodx1 (e2 is_)), (line_sum_scal NG js n (- dtodx1) (e2 (ie + 1)%Z)), GI, GO, (B FE2 ltac:(discriminate)). ring.
  - intros p j _ _. rewrite sumZ_minus, sumZ_plus, !sumZ_scal. rewrite (sumZ_tele is_ ie (fun i => e2 i p j)) by lia. ring.
Qed.
Print Assumptions C90_vertical_flux.

(** ** Two Grids of four cells, mass entering in one row only *)
Definition jet (v : fvar) (p j : Z) : R := match v with Fd => if (p =? 0)%Z then if (j =? 5)%Z then 1 else 0 else 0 | FM1 => 2 | _ => 0 end.
Definition calm (v : fvar) (p j : Z) : R := match v with FM1 => 2 | _ => 0 end.
Example C90_example : exists fi fo : fvar -> Z -> Z -> R,
    (forall p j, (0 <= p < 2)%Z -> (4 <= j <= 4 + 4 - 1)%Z ->
       (exists r, edge_flux true false false 3 (1 / 4) 6 2 4 4 jet calm p j = Ok r /\ forall v, r v = fi v p j) /\
       (exists r, edge_flux false false false 3 (1 / 4) 6 2 4 4 calm jet p j = Ok r /\ forall v, r v = fo v p j)) /\
    line_sum 2 4 4 (fi Fd) = line_sum 2 4 4 (fo Fd) /\ line_sum 2 4 4 (fo FM2) = line_sum 2 4 4 (fi FM2) - 3 * line_sum 2 4 4 (fo Fd).
Proof.
  destruct (C90_edges_agree false false 3 (1 / 4) 6 2 4 4 jet calm ltac:(lia) ltac:(lia) ltac:(lia)) as [fi [fo [A [B M]]]].
  exists fi, fo. split; [exact A|]. split; [apply B; discriminate|]. rewrite M. ring.
Qed.
