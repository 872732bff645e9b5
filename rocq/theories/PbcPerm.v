(** The exchange along one axis on the particles of the whole Domain. *)
From Coq Require Import ZArith Bool Reals Lra Lia ZifyBool List Permutation.
From Verif Require Import CStr MeshModel PosModel PosProps GasModel PartModel PartSort PbcModel PbcFacts PbcList.
Import ListNotations.
Open Scope Z_scope.

(** ** Lists *)
Lemma perm_flat : forall A B (f : A -> list B) l l', Permutation l l' -> Permutation (flat_map f l) (flat_map f l').
Proof.
  intros A B f l l' H. induction H; cbn; auto.
  - apply Permutation_app_head; auto.
  - rewrite !app_assoc. apply Permutation_app_tail, Permutation_app_comm.
  - eapply Permutation_trans; eauto.
Qed.
Lemma perm_flat_ext : forall A B (f g : A -> list B) l, (forall x, In x l -> Permutation (f x) (g x)) -> Permutation (flat_map f l) (flat_map g l).
Proof. intros A B f g l H. induction l; cbn; auto. apply Permutation_app; [apply H; cbn; auto|]. apply IHl. intros; apply H; cbn; auto. Qed.
Lemma perm_flat_app : forall A B (f g : A -> list B) l, Permutation (flat_map (fun x => f x ++ g x) l) (flat_map f l ++ flat_map g l).
Proof.
  intros A B f g l. induction l as [|x l IH]; cbn; auto. rewrite IH, <- !app_assoc. apply Permutation_app_head.
  rewrite !app_assoc. apply Permutation_app_tail, Permutation_app_comm.
Qed.
Lemma flat_flat : forall A B C (f : A -> list B) (g : B -> list C) l, flat_map g (flat_map f l) = flat_map (fun x => flat_map g (f x)) l.
Proof. intros. induction l; cbn; auto. rewrite flat_map_app, IHl. auto. Qed.
Lemma flat_map_ext_in : forall A B (f g : A -> list B) l, (forall x, In x l -> f x = g x) -> flat_map f l = flat_map g l.
Proof. intros A B f g l H. induction l; cbn; auto. rewrite H, IHl; cbn; auto. intros; apply H; cbn; auto. Qed.
Lemma flat_filter : forall A B (c : A -> bool) (f : A -> list B) l, flat_map (fun x => if c x then f x else []) l = flat_map f (filter c l).
Proof. intros. induction l as [|x l IH]; cbn; auto. rewrite IH. destruct (c x); auto. Qed.
Lemma flat_of_map : forall A B C (h : A -> B) (f : B -> list C) l, flat_map f (map h l) = flat_map (fun x => f (h x)) l.
Proof. intros. induction l; cbn; auto. rewrite IHl. auto. Qed.
Lemma flat_nil : forall A B (l : list A), flat_map (fun _ => @nil B) l = [].
Proof. intros. induction l; cbn; auto. Qed.
Lemma flat_single : forall A (l : list A), flat_map (fun x => [x]) l = l.
Proof. intros. induction l; cbn; congruence. Qed.
Lemma pick_app : forall sel l l', pick sel (l ++ l') = pick sel l ++ pick sel l'.
Proof. intros. apply flat_map_app. Qed.
Lemma pick_none : forall sel l, (forall g, In g l -> sel g = None) -> pick sel l = [].
Proof. intros sel l H. induction l as [|g l IH]; cbn; auto. rewrite H by (cbn; auto). apply IH. intros; apply H; cbn; auto. Qed.

(** ** The particles of all Grids, each with its Grid *)
Definition all (rs : list rank) (T : rank -> list grain) : list (rank * grain) := flat_map (fun r => map (pair r) (T r)) rs.
(** The copy of a particle that leaves its Grid [r] to the right or left *)
Definition cpR (W : pworld) (ax : axis) (it : rank * grain) : list (rank * grain) :=
  let '(r, g) := it in
  match sox W r ax g with
  | None => []
  | Some p =>
      if has_r W r ax then [(right_of W ax r, shR W ax r (set_pos g p))] else
      match w_bco W ax with
      | Reflecting => [(r, mirror ax (2 * gMax W r ax) (set_pos g p))]
      | Outflow => []
      | Periodic => [(r, shiftx ax (- Lx W ax) (set_pos g p))]
      end
  end.
Definition cpL (W : pworld) (ax : axis) (it : rank * grain) : list (rank * grain) :=
  let '(r, g) := it in
  match six W r ax g with
  | None => []
  | Some p =>
      if has_l W r ax then [(left_of W ax r, shL W ax r (set_pos g p))] else
      match w_bci W ax with
      | Reflecting => [(r, mirror ax (twice_min W r ax) (set_pos g p))]
      | Outflow => []
      | Periodic => [(r, shiftx ax (Lx W ax) (set_pos g p))]
      end
  end.
Definition ownR (W : pworld) (ax : axis) (r : rank) (l : list grain) : list grain :=
  match w_bco W ax with
  | Reflecting => map (mirror ax (2 * gMax W r ax)) (pick (sox W r ax) l)
  | Outflow => []
  | Periodic => map (shiftx ax (- Lx W ax)) (pick (sox W r ax) l)
  end.
Definition ownL (W : pworld) (ax : axis) (r : rank) (l : list grain) : list grain :=
  match w_bci W ax with
  | Reflecting => map (mirror ax (twice_min W r ax)) (pick (six W r ax) l)
  | Outflow => []
  | Periodic => map (shiftx ax (Lx W ax)) (pick (six W r ax) l)
  end.

Lemma pick_tagged : forall W r ax l g, (In g (pick (sox W r ax) l) -> g_pos g = 20 + axnum ax) /\ (In g (pick (six W r ax) l) -> g_pos g = 10 + axnum ax).
Proof.
  intros W r ax l g. unfold pick. rewrite !in_flat_map. split; intros (h & _ & H); revert H; [rewrite sox_eq|rewrite six_eq];
  match goal with |- context [if ?b then _ else _] => destruct b end; cbn [In]; intros H; try tauto; destruct H as [<-|[]]; reflexivity.
Qed.
Lemma six_tag : forall W r ax g, g_pos g = 20 + axnum ax -> six W r ax g = None.
Proof. intros W r ax g H. rewrite six_eq. replace (g_pos g =? 20 + axnum ax) with true by lia. rewrite !andb_false_r. reflexivity. Qed.
Lemma sox_tag : forall W r ax g, g_pos g = 10 + axnum ax -> sox W r ax g = None.
Proof. intros W r ax g H. rewrite sox_eq. replace (g_pos g =? 10 + axnum ax) with true by lia. rewrite !andb_false_r. reflexivity. Qed.
Lemma six_new : forall W r r' ax f l, (forall g, g_pos (f g) = g_pos g) -> pick (six W r ax) (map f (pick (sox W r' ax) l)) = [].
Proof. intros W r r' ax f l H. apply pick_none. intros g Hg. apply in_map_iff in Hg as (h & <- & Hh). apply six_tag. rewrite H. apply (pick_tagged W r' ax l h); auto. Qed.
Lemma sox_new : forall W r r' ax f l, (forall g, g_pos (f g) = g_pos g) -> pick (sox W r ax) (map f (pick (six W r' ax) l)) = [].
Proof. intros W r r' ax f l H. apply pick_none. intros g Hg. apply in_map_iff in Hg as (h & <- & Hh). apply sox_tag. rewrite H. apply (pick_tagged W r' ax l h); auto. Qed.
Lemma shR_pos : forall W ax r g, g_pos (shR W ax r g) = g_pos g.
Proof. intros. unfold shR. destruct (_ && _); auto. Qed.
Lemma shL_pos : forall W ax r g, g_pos (shL W ax r g) = g_pos g.
Proof. intros. unfold shL. destruct (_ && _); auto. Qed.

(** With periodic boundaries there is a Grid on both sides or on none. *)
Lemma per_sides : forall W ax r, paired W -> in_box W r -> w_bco W ax = Periodic -> has_l W r ax = has_r W r ax.
Proof.
  intros W ax r HP HB E. specialize (HP ax). specialize (HB ax). rewrite E in HP. cbn [is_per] in HP. unfold has_l, has_r. rewrite HP, E. cbn [is_per andb].
  destruct (Z.gtb_spec (w_N W ax) 1). { rewrite !orb_true_r. auto. } rewrite !orb_false_r. lia.
Qed.
Lemma per_pair : forall W ax, paired W -> (w_bci W ax = Periodic <-> w_bco W ax = Periodic).
Proof. intros W ax HP. specialize (HP ax). destruct (w_bci W ax), (w_bco W ax); cbn in HP; split; congruence. Qed.
(** Along one axis the particles that were there stay, and the copies are added. *)
Lemma exch_one : forall W ax T r, paired W -> in_box W r ->
  Permutation (exch W ax T r) (T r ++
    ((if has_l W r ax then sR W ax (left_of W ax r) (T (left_of W ax r)) else []) ++ (if has_r W r ax then [] else ownR W ax r (T r))) ++
    ((if has_r W r ax then sL W ax (right_of W ax r) (T (right_of W ax r)) else []) ++ (if has_l W r ax then [] else ownL W ax r (T r)))).
Proof.
  intros W ax T r HP HB.
  assert (SLM : forall r, in_box W r -> has_l W r ax = true -> sL W ax r (mid W ax T r) = sL W ax r (T r)).
  { intros r' HB' HL. unfold mid, sL. rewrite HL. destruct (has_r W r' ax) eqn:HR; rewrite pick_app, map_app.
    - unfold sR. rewrite six_new by apply shR_pos. apply app_nil_r.
    - unfold inO. destruct (w_bco W ax) eqn:BO.
      + rewrite six_new by reflexivity. apply app_nil_r.
      + apply app_nil_r.
      + rewrite (per_sides W ax r' HP HB' BO) in HL. congruence. }
  unfold exch. destruct (has_r W r ax) eqn:HR.
  - replace (match has_l W r ax with true | _ => mid W ax T r ++ sL W ax (right_of W ax r) (mid W ax T (right_of W ax r)) end)
      with (mid W ax T r ++ sL W ax (right_of W ax r) (mid W ax T (right_of W ax r))) by (destruct (has_l W r ax); auto).
    rewrite SLM by (first [apply right_box; auto | apply right_has_l; auto]). unfold mid. rewrite HR. destruct (has_l W r ax) eqn:HL.
    + rewrite !app_nil_r, <- app_assoc. apply Permutation_refl.
    + cbn [app]. rewrite <- app_assoc. apply Permutation_app_head. unfold inI, ownL. destruct (w_bci W ax) eqn:BI.
      * apply Permutation_app_comm.
      * rewrite app_nil_r. apply Permutation_refl.
      * exfalso. apply (per_pair W ax HP) in BI. rewrite (per_sides W ax r HP HB BI) in HL. congruence.
  - destruct (has_l W r ax) eqn:HL.
    + unfold mid. rewrite HR, HL. cbn [app]. rewrite !app_nil_r, <- app_assoc. apply Permutation_app_head. unfold inO, ownR. destruct (w_bco W ax) eqn:BO.
      * apply Permutation_app_comm.
      * rewrite app_nil_r. apply Permutation_refl.
      * exfalso. rewrite (per_sides W ax r HP HB BO) in HL. congruence.
    + unfold mid. rewrite HR, HL. cbn [app]. rewrite <- app_assoc. apply Permutation_app_head.
      assert (EO : inO W ax r (T r ++ inI W ax r (T r)) = inO W ax r (T r)).
      { unfold inO, inI. pose proof (per_pair W ax HP) as PP. destruct (w_bco W ax) eqn:BO, (w_bci W ax) eqn:BI; auto; rewrite ?app_nil_r; auto.
        - rewrite pick_app, sox_new by reflexivity. rewrite app_nil_r. auto.
        - exfalso. destruct PP as [PP _]. specialize (PP eq_refl). congruence.
        - exfalso. destruct PP as [_ PP]. specialize (PP eq_refl). congruence.
        - rewrite pick_app, six_new by reflexivity. rewrite app_nil_r. auto. }
      rewrite EO. pose proof (per_pair W ax HP) as PP. unfold inI, inO, ownL, ownR. destruct (w_bco W ax) eqn:BO, (w_bci W ax) eqn:BI; try apply Permutation_app_comm; try apply Permutation_refl;
      exfalso; destruct PP as [P1 P2]; first [specialize (P1 eq_refl); congruence | specialize (P2 eq_refl); congruence].
Qed.

Section Domain.
Variables (W : pworld) (HP : paired W) (rs : list rank) (ND : NoDup rs) (BX : forall r, In r rs <-> in_box W r).

Lemma has_l_left : forall ax r, in_box W r -> has_r W r ax = true -> has_l W (right_of W ax r) ax = true.
Proof. intros. apply right_has_l; auto. Qed.
Lemma NoDup_map_in : forall A B (f : A -> B) l, (forall x y, In x l -> In y l -> f x = f y -> x = y) -> NoDup l -> NoDup (map f l).
Proof.
  intros A B f l Hf H. induction H as [|x l Hx H IH]; cbn; constructor.
  - intros Hin. apply in_map_iff in Hin as (y & E & Hy). apply Hx. rewrite <- (Hf y x); cbn; auto.
  - apply IH. intros; apply Hf; cbn; auto.
Qed.
Lemma reindexL : forall ax, Permutation (map (left_of W ax) (filter (fun r => has_l W r ax) rs)) (filter (fun r => has_r W r ax) rs).
Proof.
  intros ax. apply NoDup_Permutation.
  - apply NoDup_map_in; [|apply NoDup_filter; auto]. intros x y Hx Hy E. apply filter_In in Hx as [Hx _]. apply filter_In in Hy as [Hy _]. apply BX in Hx. apply BX in Hy.
    rewrite <- (right_left W ax x), <- (right_left W ax y), E; auto.
  - apply NoDup_filter; auto.
  - intros r. rewrite in_map_iff, filter_In, BX. split.
    + intros (q & <- & H). apply filter_In in H as [Hq HL]. apply BX in Hq. split; [apply left_box; auto|apply left_has_r; auto].
    + intros [Hr HR]. exists (right_of W ax r). split; [apply left_right; auto|]. apply filter_In. split; [apply BX, right_box; auto|apply right_has_l; auto].
Qed.
Lemma reindexR : forall ax, Permutation (map (right_of W ax) (filter (fun r => has_r W r ax) rs)) (filter (fun r => has_l W r ax) rs).
Proof.
  intros ax. apply NoDup_Permutation.
  - apply NoDup_map_in; [|apply NoDup_filter; auto]. intros x y Hx Hy E. apply filter_In in Hx as [Hx _]. apply filter_In in Hy as [Hy _]. apply BX in Hx. apply BX in Hy.
    rewrite <- (left_right W ax x), <- (left_right W ax y), E; auto.
  - apply NoDup_filter; auto.
  - intros r. rewrite in_map_iff, filter_In, BX. split.
    + intros (q & <- & H). apply filter_In in H as [Hq HL]. apply BX in Hq. split; [apply right_box; auto|apply right_has_l; auto].
    + intros [Hr HR]. exists (left_of W ax r). split; [apply right_left; auto|]. apply filter_In. split; [apply BX, left_box; auto|apply left_has_r; auto].
Qed.
Lemma cpR_list : forall ax r l, flat_map (cpR W ax) (map (pair r) l) = if has_r W r ax then map (pair (right_of W ax r)) (sR W ax r l) else map (pair r) (ownR W ax r l).
Proof.
  intros ax r l. rewrite flat_of_map. unfold cpR, sR, ownR, pick. destruct (has_r W r ax).
  - induction l as [|g l IH]; cbn [flat_map]; auto. rewrite IH. destruct (sox W r ax g); auto.
  - destruct (w_bco W ax).
    + induction l as [|g l IH]; cbn [flat_map]; auto. rewrite IH. destruct (sox W r ax g); auto.
    + induction l as [|g l IH]; cbn [flat_map]; auto. rewrite IH. destruct (sox W r ax g); auto.
    + induction l as [|g l IH]; cbn [flat_map]; auto. rewrite IH. destruct (sox W r ax g); auto.
Qed.
Lemma cpL_list : forall ax r l, flat_map (cpL W ax) (map (pair r) l) = if has_l W r ax then map (pair (left_of W ax r)) (sL W ax r l) else map (pair r) (ownL W ax r l).
Proof.
  intros ax r l. rewrite flat_of_map. unfold cpL, sL, ownL, pick. destruct (has_l W r ax).
  - induction l as [|g l IH]; cbn [flat_map]; auto. rewrite IH. destruct (six W r ax g); auto.
  - destruct (w_bci W ax).
    + induction l as [|g l IH]; cbn [flat_map]; auto. rewrite IH. destruct (six W r ax g); auto.
    + induction l as [|g l IH]; cbn [flat_map]; auto. rewrite IH. destruct (six W r ax g); auto.
    + induction l as [|g l IH]; cbn [flat_map]; auto. rewrite IH. destruct (six W r ax g); auto.
Qed.
(** A particle and its copies *)
Definition spread (ax : axis) (it : rank * grain) : list (rank * grain) := it :: cpR W ax it ++ cpL W ax it.
Lemma exch_all : forall ax T, Permutation (all rs (exch W ax T)) (flat_map (spread ax) (all rs T)).
Proof.
  intros ax T.
  transitivity (all rs T ++ flat_map (cpR W ax) (all rs T) ++ flat_map (cpL W ax) (all rs T)).
  2:{ symmetry. change (spread ax) with (fun it => [it] ++ (cpR W ax it ++ cpL W ax it)). rewrite perm_flat_app. rewrite flat_single. apply Permutation_app_head. apply perm_flat_app. }
  unfold all. rewrite !flat_flat. 
  set (fR := fun r => if has_l W r ax then map (pair r) (sR W ax (left_of W ax r) (T (left_of W ax r))) else []).
  set (oR := fun r => if has_r W r ax then [] else map (pair r) (ownR W ax r (T r))).
  set (fL := fun r => if has_r W r ax then map (pair r) (sL W ax (right_of W ax r) (T (right_of W ax r))) else []).
  set (oL := fun r => if has_l W r ax then [] else map (pair r) (ownL W ax r (T r))).
  transitivity (flat_map (fun r => map (pair r) (T r) ++ ((fR r ++ oR r) ++ (fL r ++ oL r))) rs).
  { apply perm_flat_ext. intros r Hr. apply BX in Hr. rewrite (Permutation_map (pair r) (exch_one W ax T r HP Hr)).
    unfold fR, oR, fL, oL. rewrite !map_app. destruct (has_l W r ax), (has_r W r ax); reflexivity. }
  rewrite perm_flat_app. apply Permutation_app_head. rewrite perm_flat_app. apply Permutation_app.
  - rewrite perm_flat_app. transitivity (flat_map (fun r => (if has_r W r ax then map (pair (right_of W ax r)) (sR W ax r (T r)) else []) ++ oR r) rs).
    + rewrite perm_flat_app. apply Permutation_app_tail. unfold fR. rewrite !flat_filter. rewrite <- (perm_flat _ _ _ _ _ (reindexL ax)), flat_of_map.
      apply Permutation_refl'. apply flat_map_ext_in. intros r Hr. apply filter_In in Hr as [Hr _]. apply BX in Hr. rewrite right_left; auto.
    + apply Permutation_refl'. apply flat_map_ext. intros r. rewrite cpR_list. unfold oR. destruct (has_r W r ax); auto. apply app_nil_r.
  - rewrite perm_flat_app. transitivity (flat_map (fun r => (if has_l W r ax then map (pair (left_of W ax r)) (sL W ax r (T r)) else []) ++ oL r) rs).
    + rewrite perm_flat_app. apply Permutation_app_tail. unfold fL. rewrite !flat_filter. rewrite <- (perm_flat _ _ _ _ _ (reindexR ax)), flat_of_map.
      apply Permutation_refl'. apply flat_map_ext_in. intros r Hr. apply filter_In in Hr as [Hr _]. apply BX in Hr. rewrite left_right; auto.
    + apply Permutation_refl'. apply flat_map_ext. intros r. rewrite cpL_list. unfold oL. destruct (has_l W r ax); auto. apply app_nil_r.
Qed.
(** Step 5 *)
Definition fin (it : rank * grain) : list (rank * grain) :=
  let g := new_status (limits W (fst it)) (snd it) in if ghost g then [] else [(fst it, g)].
Lemma keep_all : forall T, all rs (fun r => keep (limits W r) (T r)) = flat_map fin (all rs T).
Proof.
  intros T. unfold all. rewrite flat_flat. apply flat_map_ext. intros r. rewrite flat_of_map. unfold keep, fin. cbn [fst snd].
  induction (T r) as [|g l IH]; cbn [map filter flat_map]; auto. cbv zeta in *. destruct (ghost (new_status (limits W r) g)); cbn [negb map app]; rewrite IH; auto.
Qed.
Lemma all_perm : forall T T', (forall r, in_box W r -> Permutation (T r) (T' r)) -> Permutation (all rs T) (all rs T').
Proof. intros T T' H. apply perm_flat_ext. intros r Hr. apply Permutation_map, H, BX, Hr. Qed.
End Domain.
