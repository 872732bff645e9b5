(** Property C84: particles at the boundaries of Grids and Domain. *)
From Coq Require Import ZArith Bool Reals Lra Lia ZifyBool List Permutation.
From Verif Require Import CStr MeshModel PosModel PosProps GasModel PartModel PartSort PartProps PartDrag PbcModel PbcFacts PbcList PbcPerm PbcSpec PbcMove PbcOne.
Import ListNotations.
Open Scope R_scope.

(** ** Step 1: resorting *)
Lemma c_int_any : forall a, - IZR (2 ^ 31) < a < IZR (2 ^ 31) -> exists z, c_int a = Ok z.
Proof.
  intros a [A B]. unfold c_int. destruct (Rle_dec 0 a) as [H|H].
  - pose proof (base_Int_part a) as [I1 I2]. set (z := Int_part a) in *. exists z. cbv zeta. unfold INT_MIN, INT_MAX.
    assert (Z1 : (z < 2 ^ 31)%Z) by (apply lt_IZR; lra). assert (Z2 : (-1 < z)%Z) by (apply lt_IZR; lra).
    replace ((- 2 ^ 31 <=? z) && (z <=? 2 ^ 31 - 1))%Z with true by lia. reflexivity.
  - pose proof (base_Int_part (- a)) as [I1 I2]. set (z := Int_part (- a)) in *. exists (- z)%Z. cbv zeta. unfold INT_MIN, INT_MAX.
    assert (Z1 : (z < 2 ^ 31)%Z) by (apply lt_IZR; lra). assert (Z2 : (-1 < z)%Z) by (apply lt_IZR; lra).
    replace ((- 2 ^ 31 <=? - z) && (- z <=? 2 ^ 31 - 1))%Z with true by lia. reflexivity.
Qed.
Lemma shuffle_any : forall Nx pG n a, (forall ax, 0 < p_dx pG ax) -> 
  (forall p ax, (0 <= p < n)%Z -> (1 < Nx ax)%Z -> - IZR (2 ^ 31) < (comp ax (g_x (a p)) - p_MinX pG ax) / p_dx pG ax < IZR (2 ^ 31)) ->
  exists b, shuffle Nx pG n a = Ok b /\ Permutation (first n b) (first n a).
Proof.
  intros Nx pG n a D H. unfold shuffle.
  set (P := fun g => forall ax, exists z, c_int ((comp ax (g_x g) - p_MinX pG ax) * comp ax (cell1_of Nx pG)) = Ok z).
  destruct (@quicksort_ok grain (compare_gr pG (cell1_of Nx pG)) (fun _ _ => True) P) with (f := Z.to_nat n) (start := 0%Z) (e := (n - 1)%Z) (a := a) as (b & E & PM & _); try lia; auto.
  - intros x y Hx Hy. destruct (Hx X1) as [i1 I1], (Hx X2) as [j1 J1], (Hx X3) as [k1 K1], (Hy X1) as [i2 I2], (Hy X2) as [j2 J2], (Hy X3) as [k2 K2].
    unfold compare_gr. cbn [comp] in *. rewrite I1, I2, J1, J2, K1, K2. cbn [bind].
    repeat (match goal with |- context [if ?c then _ else _] => destruct c end); auto.
  - intros t Ht ax. specialize (H t ax ltac:(lia)). assert (E : comp ax (cell1_of Nx pG) = if (Nx ax >? 1)%Z then 1 / p_dx pG ax else 0) by (destruct ax; reflexivity). rewrite E.
    apply c_int_any. rewrite Z.gtb_ltb. destruct (Z.ltb_spec 1 (Nx ax)) as [M|M]; [|rewrite Rmult_0_r; cbn; lra].
    specialize (H M). unfold Rdiv in *. rewrite Rmult_1_l. exact H.
  - exists b. split; auto. apply perm_list; auto.
Qed.

(** ** The whole function *)
Definition grains (s : res pst) : list grain := match s with Ok s => particles s | _ => [] end.
Section Whole.
Variables (W : pworld) (rs : list rank) (ND : NoDup rs) (BX : forall r, In r rs <-> in_domain W r).
Variables (HW : world W).
Lemma along_all : forall ax T, Permutation (all rs (if (w_Nx W ax >? 1)%Z then exch W ax T else T)) (flat_map (spr W ax) (all rs T)).
Proof.
  intros ax T. unfold spr. destruct (w_Nx W ax >? 1)%Z.
  - apply (exch_all W (paired_W W HW) rs ND BX).
  - rewrite flat_single. auto.
Qed.
Lemma map_all : forall T, map snd (all rs T) = flat_map T rs.
Proof. intros T. unfold all. clear ND BX. induction rs as [|r l IH]; cbn; auto. rewrite map_app, IH, map_map. cbn. rewrite map_id. auto. Qed.
Lemma in_all : forall T r g, In (r, g) (all rs T) <-> In r rs /\ In g (T r).
Proof.
  intros T r g. unfold all. rewrite in_flat_map. split.
  - intros (q & Hq & H). apply in_map_iff in H as (h & E & H). inversion E; subst. auto.
  - intros [H1 H2]. exists r. split; auto. apply in_map; auto.
Qed.
Lemma core : forall now S T,
  (forall r, in_domain W r -> exists s, S r = Ok s /\ particles s = T r /\ (0 <= s_n s)%Z /\ (1 <= b_size (s_buf s))%Z) ->
  (forall r g, in_domain W r -> In g (T r) -> labelled W g /\ (0 <= g_pos g < 100)%Z /\ (now = true -> sortable W r g)) ->
  (forall r, in_domain W r -> exists s s', S r = Ok s /\ bvals_particle W now S r = Ok s' /\ (0 <= s_n s')%Z /\ (1 <= b_size (s_buf s'))%Z /\
     forall ty, (s_num s' ty - s_num s ty = how_many ty (particles s') - how_many ty (T r))%Z) /\
  Permutation (all rs (fun r => grains (bvals_particle W now S r))) (flat_map (F1 W) (all rs T)).
Proof.
  intros now S T HS HT.
  set (bal := fun r ty => match S r with Ok s => (s_num s ty - how_many ty (T r))%Z | _ => 0%Z end).
  set (T1 := fun r => grains (step1 W now S r)).
  assert (H1 : forall r, in_domain W r -> exists s, step1 W now S r = Ok s /\ rep W (bal r) s (T1 r) /\ Permutation (T1 r) (T r)).
  { intros r HB. destruct (HS r HB) as (s & E & P & N & B). unfold T1, step1, bal. rewrite E. cbn [bind].
    assert (OKG : Forall (ok_g (w_types W)) (T r)). { apply Forall_forall. intros g Hg. destruct (HT r g HB Hg) as ((A1 & A2) & A3 & _). repeat split; lia. }
    destruct now.
    - destruct (shuffle_any (w_Nx W) (PG (fun _ => 0%Z) (gMin W r) (w_dx W)) (s_n s) (s_a s)) as (b & EB & PB).
      + cbn [p_dx]. apply (sizes W HW).
      + intros p ax Hp M. cbn [p_MinX p_dx]. destruct (HT r (s_a s p) HB) as (_ & _ & Q); [|apply Q; auto].
        rewrite <- P. unfold particles. apply in_map_iff. exists (Z.to_nat p). rewrite Z2Nat.id by lia. split; auto. apply in_seq. lia.
      + rewrite EB. cbn [bind grains]. eexists. split; [reflexivity|]. fold (items s) in PB. change (items s) with (particles s) in PB. rewrite P in PB.
        split; [|exact PB]. unfold rep, items. cbn [s_n s_a s_buf s_num]. unfold particles. cbn [s_n s_a]. fold (first (s_n s) b).
        split; auto. split; auto. split; auto. split; [eapply Permutation_Forall; [symmetry; exact PB|auto]|]. intros ty. rewrite (how_many_perm ty _ _ PB). lia.
    - cbn [grains]. exists s. split; auto. rewrite P. split; auto. split; [exact P|]. split; auto. split; auto. split; auto. intros; lia. }
  assert (SY : sys W bal (step1 W now S) T1). { intros r HB. destruct (H1 r HB) as (s & A & B & _). eauto. }
  assert (WO : world_ok W) by (split; [apply (buffers W HW)|apply (types W HW)]).
  pose proof (along_ok W WO (paired_W W HW) bal X1 _ _ SY) as S1. pose proof (along_ok W WO (paired_W W HW) bal X2 _ _ S1) as S2. pose proof (along_ok W WO (paired_W W HW) bal X3 _ _ S2) as S3.
  set (TA := if (w_Nx W X1 >? 1)%Z then exch W X1 T1 else T1) in *. set (TB := if (w_Nx W X2 >? 1)%Z then exch W X2 TA else TA) in *. set (TC := if (w_Nx W X3 >? 1)%Z then exch W X3 TB else TB) in *.
  pose proof (step5_ok W bal _ _ S3) as S5. fold (bvals_particle W now S) in S5. 
  split.
  - intros r HB. destruct (HS r HB) as (s & E & P & _). destruct (S5 r HB) as (s' & E' & N' & _ & C & BF). exists s, s'. repeat (split; auto). 
    intros ty. rewrite C. unfold bal. rewrite E. change (items s') with (particles s'). lia.
  - transitivity (all rs (fun r => keep (limits W r) (TC r))).
    { apply (all_perm W rs BX). intros r HB. destruct (S5 r HB) as (s' & E' & _ & PE & _). rewrite E'. exact PE. }
    rewrite keep_all. unfold F1, F2, F3. 
    transitivity (flat_map (fin W) (flat_map (spr W X3) (flat_map (spr W X2) (flat_map (spr W X1) (all rs T))))).
    { apply Permutation_flat_map. etransitivity; [apply (along_all X3)|]. apply Permutation_flat_map. etransitivity; [apply (along_all X2)|]. apply Permutation_flat_map.
      etransitivity; [apply (along_all X1)|]. apply Permutation_flat_map. apply (all_perm W rs BX). intros r HB. destruct (H1 r HB) as (s & _ & _ & PE). exact PE. }
    apply Permutation_refl'. rewrite (flat_flat _ _ _ (spr W X1)), (flat_flat _ _ _ _ (spr W X3)), (flat_flat _ _ _ _ (fin W)). apply flat_map_ext. intros it. rewrite !flat_flat. apply flat_map_ext. intros it1. reflexivity.
Qed.
End Whole.

(** C84: the function ends on every Grid, without undefined behaviour.  Afterwards the particles are those of before, each at the place and
    with the velocity it should have, those outside the boundaries removed; each is in the Grid it belongs to; and the numbers of
    particles of each type kept by the Grids have changed accordingly. *)
Theorem C84_bvals_particle : forall W now rs S, world W -> x3_works W -> NoDup rs -> (forall r, In r rs <-> in_domain W r) ->
  (forall r, in_domain W r -> exists s, S r = Ok s /\ (0 <= s_n s)%Z /\ (1 <= b_size (s_buf s))%Z /\
     forall g, In g (particles s) -> labelled W g /\ moved W r g /\ (now = true -> sortable W r g)) ->
  let S' := bvals_particle W now S in
  (forall r, in_domain W r -> exists s s', S r = Ok s /\ S' r = Ok s' /\ (0 <= s_n s')%Z /\ (1 <= b_size (s_buf s'))%Z /\
     (forall g, In g (particles s') -> g_pos g = 1%Z /\ forall ax, inside W r g ax) /\
     forall ty, (s_num s' ty - s_num s ty = count ty (particles s') - count ty (particles s))%Z) /\
  Permutation (flat_map (fun r => grains (S' r)) rs) (flat_map (fate W) (flat_map (fun r => grains (S r)) rs)).
Proof.
  intros W now rs S HW H3 ND BX HS S'. set (T := fun r => grains (S r)).
  assert (HT : forall r, in_domain W r -> exists s, S r = Ok s /\ T r = particles s). { intros r HB. destruct (HS r HB) as (s & E & _). exists s. unfold T. rewrite E. auto. }
  assert (HM : forall r g, in_domain W r -> In g (T r) -> labelled W g /\ moved W r g /\ (now = true -> sortable W r g)).
  { intros r g HB Hg. destruct (HS r HB) as (s & E & _ & _ & H). apply H. unfold T in Hg. rewrite E in Hg. exact Hg. }
  destruct (core W rs ND BX HW now S T) as [C1 C2].
  { intros r HB. destruct (HS r HB) as (s & E & A & B & _). exists s. unfold T. rewrite E. auto. }
  { intros r g HB Hg. destruct (HM r g HB Hg) as (A & B & C). split; auto. split; auto. destruct B as [[-> _]|[-> _]]; lia. }
  split.
  - intros r HB. destruct (C1 r HB) as (s & s' & E & E' & N & B & C). exists s, s'. repeat (split; [assumption|]). destruct (HT r HB) as (s0 & E0 & ET). assert (s0 = s) by congruence. subst s0. split.
    + intros g Hg. assert (I : In (r, g) (flat_map (F1 W) (all rs T))).
      { eapply Permutation_in; [exact C2|]. apply in_all. split; [apply BX; auto|]. rewrite E'. exact Hg. }
      apply in_flat_map in I as ((q & h) & I1 & I2). apply in_all in I1 as [I0 I1]. apply BX in I0.
      destruct (one W HW H3 q h I0 (proj1 (proj2 (HM q h I0 I1)))) as (_ & Q & _). destruct (Q _ I2) as (_ & Q1 & Q2). auto.
    + intros ty. specialize (C ty). rewrite ET in C. exact C.
  - rewrite <- !(map_all rs). fold T. etransitivity; [apply Permutation_map; exact C2|]. apply Permutation_refl'.
    assert (G : forall l, (forall it, In it l -> in_domain W (fst it) /\ moved W (fst it) (snd it)) -> map snd (flat_map (F1 W) l) = flat_map (fate W) (map snd l)).
    { induction l as [|[q h] l IH]; intros HL; cbn [flat_map map]; auto. rewrite map_app, IH by (intros; apply HL; cbn; auto). f_equal.
      destruct (HL (q, h)) as [L1 L2]; [cbn; auto|]. apply (one W HW H3 q h L1 L2). }
    rewrite G; auto. intros [q h] I. apply in_all in I as [I0 I1]. apply BX in I0. split; auto. apply (HM q h I0 I1).
Qed.
Print Assumptions C84_bvals_particle.

(** Without outflow boundaries no particle is lost or duplicated. *)
Theorem C84_closed : forall W now rs S, world W -> x3_works W -> NoDup rs -> (forall r, In r rs <-> in_domain W r) ->
  (forall ax, multi W ax -> w_bci W ax <> Outflow /\ w_bco W ax <> Outflow) ->
  (forall r, in_domain W r -> exists s, S r = Ok s /\ (0 <= s_n s)%Z /\ (1 <= b_size (s_buf s))%Z /\
     forall g, In g (particles s) -> labelled W g /\ moved W r g /\ (now = true -> sortable W r g)) ->
  Permutation (flat_map (fun r => grains (bvals_particle W now S r)) rs) (map (image W) (flat_map (fun r => grains (S r)) rs)).
Proof.
  intros W now rs S HW H3 ND BX HC HS. destruct (C84_bvals_particle W now rs S HW H3 ND BX HS) as [_ P]. rewrite P. apply Permutation_refl'.
  assert (G : forall l, (forall g, In g l -> exists r, in_domain W r /\ moved W r g) -> flat_map (fate W) l = map (image W) l).
  { induction l as [|g l IH]; intros HL; cbn [flat_map map]; auto. rewrite IH by (intros; apply HL; cbn; auto). destruct (HL g) as (r & L1 & L2); [cbn; auto|].
    destruct (one W HW H3 r g L1 L2) as (_ & _ & Q). rewrite Q; auto. }
  apply G. intros g Hg. apply in_flat_map in Hg as (r & Hr & Hg). apply BX in Hr. exists r. split; auto. destruct (HS r Hr) as (s & E & _ & _ & H). rewrite E in Hg. apply H; auto.
Qed.
Print Assumptions C84_closed.

(** With periodic boundaries a particle keeps its velocity, type and number, and moves by at most one period of the Domain along each axis. *)
Theorem C84_periodic : forall W g, (forall ax, multi W ax -> w_bci W ax = Periodic /\ w_bco W ax = Periodic) ->
  g_v (image W g) = g_v g /\ g_type (image W g) = g_type g /\ g_id (image W g) = g_id g /\
  forall ax, exists m, (m = -1 \/ m = 0 \/ m = 1)%Z /\ comp ax (g_x (image W g)) = comp ax (g_x g) + IZR m * (Dmax W ax - Dmin W ax).
Proof.
  intros W g H.
  assert (P : forall ax v, snd (placed W ax (comp ax (g_x g)) v) = v /\ exists m, (m = -1 \/ m = 0 \/ m = 1)%Z /\ fst (placed W ax (comp ax (g_x g)) v) = comp ax (g_x g) + IZR m * (Dmax W ax - Dmin W ax)).
  { intros ax v. specialize (H ax). unfold multi in H. unfold placed, place. destruct (Z.ltb_spec 1 (w_Nx W ax)) as [M|M].
    - destruct (H M) as [-> ->]. destruct (Rle_dec _ _); [|destruct (Rlt_dec _ _)]; cbn [fst snd]; (split; [auto|]).
      + exists (-1)%Z. split; auto. lra.
      + exists 1%Z. split; auto. lra.
      + exists 0%Z. split; auto. lra.
    - cbn [fst snd]. split; auto. exists 0%Z. split; auto. lra. }
  unfold image. cbv zeta. cbn [g_v g_type g_id g_x]. rewrite (proj1 (P X1 _)), (proj1 (P X2 _)), (proj1 (P X3 _)). repeat split; auto.
  - destruct (g_v g); reflexivity.
  - intros [| |]; cbn [comp q1 q2 q3]; [apply (P X1)|apply (P X2)|apply (P X3)].
Qed.
Print Assumptions C84_periodic.

(** The state [moved] is what the particle integrator leaves: a particle that was in its Grid, is now at [x] and has been marked
    by JudgeCrossing (property C71) with the limits of its Grid. *)
Theorem C84_after_move : forall W r K x v ty id, world W -> x3_works W -> k_sh K = None ->
  (forall ax, if (1 <? w_Nx W ax)%Z then reach W r ax (comp ax x) else inside W r (Grain x v ty 1 id) ax) ->
  moved W r (Grain x v ty (JudgeCrossing K (limits W r) x 1) id).
Proof.
  intros W r K x v ty id HW H3 HK H. unfold moved. cbn [g_pos g_x]. destruct (judge K (limits W r) x 1) as [[_ ->]|[N ->]]; [right|left]; (split; [reflexivity|]).
  - intros ax. specialize (H ax). destruct (_ <? _)%Z; auto.
  - intros ax. unfold inside. cbn [g_x]. destruct (limits_eq W HW H3 r ax) as [E1 E2]. rewrite comp_coord.
    destruct (Rle_dec (glo W r ax) (coord ax x)), (Rlt_dec (coord ax x) (gup W r ax)); try (split; assumption); exfalso; apply N; exists ax; unfold watched, outside; rewrite HK, E1, E2; (split; [auto|]); lra.
Qed.
Print Assumptions C84_after_move.

(** ** Examples *)
Definition ax3 {A} (a b c : A) (ax : axis) : A := match ax with X1 => a | X2 => b | X3 => c end.
Definition one_grain (g : grain) (size : Z) : pst := Pst 1 (fun _ => g) 1 (fun ty => if (ty =? 0)%Z then 1%Z else 0%Z) (Sbuf size (fun _ => 0)) size.
(** Two Grids of 4 x 4 cells, periodic along x1 and reflecting along x2, with one particle in each; one of them has left its Grid through the corner. *)
Definition w0 : pworld := World (ax3 2 1 1)%Z (ax3 4 4 1)%Z (fun _ => 1) (fun _ l => 4 * IZR l) (ax3 Periodic Reflecting Periodic) (ax3 Periodic Reflecting Periodic) 1%Z 1%Z.
Definition s0 (r : rank) : res pst := Ok (one_grain (if (ridx X1 r =? 0)%Z then Grain (V3 1 1 2) (V3 0 0 0) 0 1 7 else Grain (V3 (17/2) (-1/2) 2) (V3 1 (-1) 0) 0 10 8) 1).
Lemma w0_world : world w0.
Proof.
  constructor; cbn [w0 w_N w_Nx w_dx w_edge w_bci w_bco w_NBUF w_types].
  - intros ax l H. rewrite plus_IZR. lra.
  - intros; lra.
  - intros [| |]; reflexivity.
  - intros [| |]; cbn; lia.
  - intros [| |]; cbn; lia.
  - lia.
  - cbn; lia.
Qed.
Lemma w0_ranks : forall r, In r [(0, 0, 0); (1, 0, 0)]%Z <-> in_domain w0 r.
Proof.
  intros [[i j] k]. split.
  - intros [E|[E|[]]]; inversion E; subst; intros [| |]; cbn; lia.
  - intros H. pose proof (H X1) as H1. pose proof (H X2) as H2. pose proof (H X3) as H3. cbn in H1, H2, H3. assert (j = 0%Z /\ k = 0%Z) as [-> ->] by lia.
    assert (D : i = 0%Z \/ i = 1%Z) by lia. destruct D as [-> | ->]; cbn; auto.
Qed.
Lemma w0_x3 : x3_works w0.
Proof. split; unfold multi; cbn; [lia|discriminate]. Qed.
Lemma s0_ok : forall r, in_domain w0 r -> exists s, s0 r = Ok s /\ (0 <= s_n s)%Z /\ (1 <= b_size (s_buf s))%Z /\
     forall g, In g (particles s) -> labelled w0 g /\ moved w0 r g /\ (true = true -> sortable w0 r g).
Proof.
  intros r H. apply w0_ranks in H as [<-|[<-|[]]]; eexists; (split; [reflexivity|]); cbn [one_grain s_n s_buf b_size]; (split; [lia|]); (split; [lia|]);
    intros g Hg; cbn in Hg; destruct Hg as [<-|[]]; (split; [unfold labelled; cbn; lia|]); split.
  - left. split; [reflexivity|]. intros [| |]; unfold inside, glo, gup, open_lo, open_up, gMin, gMax; cbn; lra.
  - intros _ [| |] M; unfold multi in M; cbn in M; try lia; unfold gMin; cbn; lra.
  - right. split; [reflexivity|]. intros [| |]; cbn.
    + unfold reach, width_l, width_r, width, gMin, gMax, Dmax. cbn. repeat split; intros; try lra; try (right; lra); discriminate.
    + unfold reach, width_l, width_r, width, gMin, gMax, Dmax. cbn. repeat split; intros; try lra; try (right; lra); discriminate.
    + unfold inside, glo, gup, open_lo, open_up, gMin, gMax; cbn; lra.
  - intros _ [| |] M; unfold multi in M; cbn in M; try lia; unfold gMin; cbn; lra.
Qed.
(** The second particle comes in again from the left and from below. *)
Example C84_example : Permutation (flat_map (fun r => grains (bvals_particle w0 true s0 r)) [(0, 0, 0); (1, 0, 0)]%Z)
  [Grain (V3 1 1 2) (V3 0 0 0) 0 1 7; Grain (V3 (1/2) (1/2) 2) (V3 1 1 0) 0 1 8].
Proof.
  etransitivity; [apply C84_closed|].
  - exact w0_world.
  - exact w0_x3.
  - constructor; [|constructor; [|constructor]]; cbn; [intros [E|[]]; discriminate|auto].
  - exact w0_ranks.
  - intros [| |] M; unfold multi in M; cbn in *; try lia; split; discriminate.
  - exact s0_ok.
  - apply Permutation_refl'.
    transitivity (map (image w0) [Grain (V3 1 1 2) (V3 0 0 0) 0 1 7; Grain (V3 (17/2) (-1/2) 2) (V3 1 (-1) 0) 0 10 8]); [reflexivity|].
    cbn [map]. unfold image, placed, place, Dmin, Dmax. cbn.
    repeat (match goal with |- context [Rle_dec ?a ?b] => destruct (Rle_dec a b); try lra end); repeat (match goal with |- context [Rlt_dec ?a ?b] => destruct (Rlt_dec a b); try lra end).
    cbn. repeat (match goal with |- @eq R _ _ => lra | |- _ => progress f_equal end).
Qed.

(** ** Where the code differs *)

(** One Grid of 4 cells along axis [ax], reflecting, from [lo] to [lo + 4], with one particle at [x] along the axis. *)
Definition w1 (ax : axis) (lo : R) : pworld :=
  World (fun _ => 1%Z) (fun b => if (axnum b =? axnum ax)%Z then 4%Z else 1%Z) (fun _ => 1) (fun _ l => lo + 4 * IZR l) (fun _ => Reflecting) (fun _ => Reflecting) 1%Z 1%Z.
Definition here3 (ax : axis) (lo x : R) : v3 := set_comp ax (V3 (lo + 1) (lo + 1) (lo + 1)) x.
Definition s1 (ax : axis) (lo x v : R) (r : rank) : res pst := Ok (one_grain (Grain (here3 ax lo x) (set_comp ax (V3 0 0 0) v) 0 10 7) 1).
Lemma w1_world : forall ax lo, world (w1 ax lo).
Proof.
  intros ax lo. constructor; cbn [w1 w_N w_Nx w_dx w_edge w_bci w_bco w_NBUF w_types]; intros; auto; try lra; try lia.
  - rewrite plus_IZR. lra.
  - destruct (_ =? _)%Z; lia.
Qed.
Lemma w1_ranks : forall ax lo r, In r [(0, 0, 0)]%Z <-> in_domain (w1 ax lo) r.
Proof.
  intros ax lo [[i j] k]. split.
  - intros [E|[]]. inversion E; subst. intros [| |]; cbn; lia.
  - intros H. pose proof (H X1) as H1. pose proof (H X2) as H2. pose proof (H X3) as H3. cbn in H1, H2, H3. left. f_equal; [f_equal|]; lia.
Qed.
Lemma w1_run : forall ax lo x v, Permutation (map (pair (0, 0, 0)%Z) (grains (bvals_particle (w1 ax lo) false (s1 ax lo x v) (0, 0, 0)%Z)))
  (F1 (w1 ax lo) ((0, 0, 0)%Z, Grain (here3 ax lo x) (set_comp ax (V3 0 0 0) v) 0 10 7)).
Proof.
  intros ax lo x v.
  destruct (core (w1 ax lo) [(0, 0, 0)%Z] (NoDup_cons _ (@in_nil _ _) (@NoDup_nil _)) (w1_ranks ax lo) (w1_world ax lo) false (s1 ax lo x v) (fun r => grains (s1 ax lo x v r))) as [_ P].
  - intros r _. eexists. split; [reflexivity|]. cbn. repeat split; lia.
  - intros r g _ Hg. cbn in Hg. destruct Hg as [<-|[]]. split; [unfold labelled; cbn; lia|]. cbn. split; [lia|discriminate].
  - cbn in P. change (Pos.to_nat 1) with 1%nat in P. cbn [seq map] in P. rewrite !app_nil_r in P. cbn [flat_map] in P. rewrite ?app_nil_r in P. exact P.
Qed.

(** At the inner x3 boundary reflect_ix3_particle uses the edge instead of twice the edge: unless the boundary is at 0, the reflected
    particle is put at the wrong place.  Here it is lost: the Domain goes from 1 to 5, and the particle comes through at 1/2. *)
Theorem C84_reflect_x3_refuted : exists W S r g,
  world W /\ (forall q, q = r <-> in_domain W q) /\ (forall ax, w_bci W ax = Reflecting /\ w_bco W ax = Reflecting) /\
  grains (S r) = [g] /\ labelled W g /\ moved W r g /\ fate W g = [image W g] /\
  exists s', bvals_particle W false S r = Ok s' /\ particles s' = [].
Proof.
  exists (w1 X3 1), (s1 X3 1 (1/2) (-1)), (0, 0, 0)%Z, (Grain (here3 X3 1 (1/2)) (set_comp X3 (V3 0 0 0) (-1)) 0 10 7).
  split; [apply w1_world|]. split. { intros q. rewrite <- (w1_ranks X3 1). cbn. split; [intros ->; auto|intros [<-|[]]; auto]. }
  split; [split; reflexivity|]. split; [reflexivity|]. split; [unfold labelled; cbn; lia|].
  split. { right. split; [reflexivity|]. intros [| |]; cbn.
    - unfold inside, glo, gup, open_lo, open_up, gMin, gMax; cbn; lra.
    - unfold inside, glo, gup, open_lo, open_up, gMin, gMax; cbn; lra.
    - unfold reach, width_l, width_r, width, gMin, gMax, Dmax. cbn. repeat split; intros; try lra; right; lra. }
  split. { unfold fate. match goal with |- (if ?c then _ else _) = _ => replace c with true; auto end. symmetry. rewrite !andb_true_iff. rewrite !within_true. unfold image, placed, place, dlo, dup, open_lo, open_up, Dmin, Dmax. cbn.
    repeat (match goal with |- context [Rle_dec ?a ?b] => destruct (Rle_dec a b); try lra end); repeat (match goal with |- context [Rlt_dec ?a ?b] => destruct (Rlt_dec a b); try lra end). cbn. lra. }
  pose proof (w1_run X3 1 (1/2) (-1)) as P.
  destruct (core (w1 X3 1) [(0, 0, 0)%Z] (NoDup_cons _ (@in_nil _ _) (@NoDup_nil _)) (w1_ranks X3 1) (w1_world X3 1) false (s1 X3 1 (1/2) (-1)) (fun r => grains (s1 X3 1 (1/2) (-1) r))) as [C _].
  { intros r _. eexists. split; [reflexivity|]. cbn. repeat split; lia. }
  { intros r g _ Hg. cbn in Hg. destruct Hg as [<-|[]]. split; [unfold labelled; cbn; lia|]. cbn. split; [lia|discriminate]. }
  destruct (C (0, 0, 0)%Z) as (s & s' & _ & E & _); [apply w1_ranks; cbn; auto|]. exists s'. split; auto. rewrite E in P. cbn [grains] in P.
  set (g := Grain (here3 X3 1 (1/2)) (set_comp X3 (V3 0 0 0) (-1)) 0 10 7) in *.
  assert (SO : sox (w1 X3 1) (0, 0, 0)%Z X3 g = None). { rewrite sox_eq. unfold gMax. cbn [w1 w_edge ridx g here3 set_comp g_x comp q3]. rewrite ge_f by (cbn; lra). rewrite andb_false_r. reflexivity. }
  assert (SI : six (w1 X3 1) (0, 0, 0)%Z X3 g = Some 13%Z). { rewrite six_eq. unfold gMin. cbn [w1 w_edge ridx g here3 set_comp g_x comp q3]. rewrite lt_t by (cbn; lra). reflexivity. }
  assert (LL : forall x, x < 1 -> lt x (l_xlo (limits (w1 X3 1) (0, 0, 0)%Z) X3) = true). { intros x Hx. apply lt_t. unfold limits, gMin. cbn. lra. }
  assert (FD : forall h, q3 (g_x h) < 1 -> g_pos h = 10%Z \/ g_pos h = 13%Z -> fin (w1 X3 1) ((0, 0, 0)%Z, h) = []).
  { intros h Hh Hp. unfold fin, new_status. cbn [fst snd]. replace (g_pos h >=? 10)%Z with true by lia. rewrite (LL (q3 (g_x h)) Hh). rewrite !orb_true_r. reflexivity. }
  assert (Z : F1 (w1 X3 1) ((0, 0, 0)%Z, g) = []).
  { assert (E1 : spr (w1 X3 1) X1 ((0, 0, 0)%Z, g) = [((0, 0, 0)%Z, g)]) by reflexivity. assert (E2 : spr (w1 X3 1) X2 ((0, 0, 0)%Z, g) = [((0, 0, 0)%Z, g)]) by reflexivity.
    assert (E3 : spr (w1 X3 1) X3 ((0, 0, 0)%Z, g) = [((0, 0, 0)%Z, g); ((0, 0, 0)%Z, mirror X3 (1 + 4 * 0) (set_pos g 13))]).
    { unfold spr. change (w_Nx (w1 X3 1) X3 >? 1)%Z with true. cbv iota. unfold spread. cbn [cpR cpL]. rewrite SO, SI. reflexivity. }
    unfold F1. rewrite E1. cbn [flat_map]. unfold F2. rewrite E2. cbn [flat_map]. unfold F3. rewrite E3. cbn [flat_map]. rewrite !FD; auto; cbn; lra. }
  rewrite Z in P. apply Permutation_sym, Permutation_nil in P. destruct (particles s'); auto; discriminate.
Qed.
Print Assumptions C84_reflect_x3_refuted.

(** A particle exactly on a reflecting outer boundary is lost: its mirror image is itself, and outside. *)
Theorem C84_reflect_edge_refuted : exists W S r g,
  world W /\ x3_works W /\ (forall q, q = r <-> in_domain W q) /\ (forall ax, w_bci W ax = Reflecting /\ w_bco W ax = Reflecting) /\
  grains (S r) = [g] /\ labelled W g /\ g_pos g = 10%Z /\ comp X1 (g_x g) = Dmax W X1 /\ inside W r g X2 /\ inside W r g X3 /\
  exists s', bvals_particle W false S r = Ok s' /\ particles s' = [].
Proof.
  exists (w1 X1 0), (s1 X1 0 4 1), (0, 0, 0)%Z, (Grain (here3 X1 0 4) (set_comp X1 (V3 0 0 0) 1) 0 10 7).
  split; [apply w1_world|]. split. { split; unfold multi; cbn; [lia|discriminate]. } split. { intros q. rewrite <- (w1_ranks X1 0). cbn. split; [intros ->; auto|intros [<-|[]]; auto]. }
  split; [split; reflexivity|]. split; [reflexivity|]. split; [unfold labelled; cbn; lia|]. split; [reflexivity|]. split; [unfold Dmax; cbn; lra|].
  split; [unfold inside, glo, gup, open_lo, open_up, gMin, gMax; cbn; lra|]. split; [unfold inside, glo, gup, open_lo, open_up, gMin, gMax; cbn; lra|].
  pose proof (w1_run X1 0 4 1) as P.
  destruct (core (w1 X1 0) [(0, 0, 0)%Z] (NoDup_cons _ (@in_nil _ _) (@NoDup_nil _)) (w1_ranks X1 0) (w1_world X1 0) false (s1 X1 0 4 1) (fun r => grains (s1 X1 0 4 1 r))) as [C _].
  { intros r _. eexists. split; [reflexivity|]. cbn. repeat split; lia. }
  { intros r g _ Hg. cbn in Hg. destruct Hg as [<-|[]]. split; [unfold labelled; cbn; lia|]. cbn. split; [lia|discriminate]. }
  destruct (C (0, 0, 0)%Z) as (s & s' & _ & E & _); [apply w1_ranks; cbn; auto|]. exists s'. split; auto. rewrite E in P. cbn [grains] in P.
  set (g := Grain (here3 X1 0 4) (set_comp X1 (V3 0 0 0) 1) 0 10 7) in *.
  assert (SO : sox (w1 X1 0) (0, 0, 0)%Z X1 g = Some 21%Z). { rewrite sox_eq. unfold gMax. cbn [w1 w_edge ridx g here3 set_comp g_x comp q1]. rewrite ge_t by (cbn; lra). reflexivity. }
  assert (SI : six (w1 X1 0) (0, 0, 0)%Z X1 g = None). { rewrite six_eq. unfold gMin. cbn [w1 w_edge ridx g here3 set_comp g_x comp q1]. rewrite lt_f by (cbn; lra). rewrite andb_false_r. reflexivity. }
  assert (LL : forall x, 4 <= x -> ge x (l_xup (limits (w1 X1 0) (0, 0, 0)%Z) X1) = true). { intros x Hx. apply ge_t. unfold limits, gMax. cbn. lra. }
  assert (FD : forall h, 4 <= q1 (g_x h) -> g_pos h = 10%Z \/ g_pos h = 21%Z -> F2 (w1 X1 0) ((0, 0, 0)%Z, h) = []).
  { intros h Hh Hp. assert (E2 : spr (w1 X1 0) X2 ((0, 0, 0)%Z, h) = [((0, 0, 0)%Z, h)]) by reflexivity. assert (E3 : spr (w1 X1 0) X3 ((0, 0, 0)%Z, h) = [((0, 0, 0)%Z, h)]) by reflexivity.
    unfold F2. rewrite E2. cbn [flat_map]. unfold F3. rewrite E3. cbn [flat_map]. rewrite !app_nil_r.
    unfold fin, new_status. cbn [fst snd]. replace (g_pos h >=? 10)%Z with true by lia. rewrite (LL (q1 (g_x h)) Hh). reflexivity. }
  assert (Z : F1 (w1 X1 0) ((0, 0, 0)%Z, g) = []).
  { assert (E1 : spr (w1 X1 0) X1 ((0, 0, 0)%Z, g) = [((0, 0, 0)%Z, g); ((0, 0, 0)%Z, mirror X1 (2 * gMax (w1 X1 0) (0, 0, 0)%Z X1) (set_pos g 21))]).
    { unfold spr. change (w_Nx (w1 X1 0) X1 >? 1)%Z with true. cbv iota. unfold spread. cbn [cpR cpL]. rewrite SO, SI. reflexivity. }
    unfold F1. rewrite E1. cbn [flat_map]. rewrite !FD; auto; cbn; try lra. }
  rewrite Z in P. apply Permutation_sym, Permutation_nil in P. destruct (particles s'); auto; discriminate.
Qed.
Print Assumptions C84_reflect_edge_refuted.

(** NBUF is (long)(0.15*arrsize): for fewer than 7 places it is 0, and the first particle that leaves is written beyond the buffer. *)
Definition w2 : pworld := World (fun _ => 1%Z) (ax3 4 1 1)%Z (fun _ => 1) (fun _ l => 4 * IZR l) (fun _ => Periodic) (fun _ => Periodic) 0%Z 1%Z.
Theorem C84_buffer_refuted : exists S g, (forall r, S r = Ok (one_grain g 0)) /\ labelled w2 g /\ moved w2 (0, 0, 0)%Z g /\ bvals_particle w2 false S (0, 0, 0)%Z = UB.
Proof.
  set (g := Grain (V3 (9/2) 1 1) (V3 1 0 0) 0 10 7). exists (fun _ => Ok (one_grain g 0)), g. split; auto. split; [unfold labelled; cbn; lia|].
  split. { right. split; [reflexivity|]. intros [| |]; cbn.
    - unfold reach, width_l, width_r, width, gMin, gMax, Dmax. cbn. repeat split; intros; try lra; try (right; lra).
    - unfold inside, glo, gup, open_lo, open_up, gMin, gMax; cbn; lra.
    - unfold inside, glo, gup, open_lo, open_up, gMin, gMax; cbn; lra. }
  assert (SI : six w2 (0, 0, 0)%Z X1 g = None). { rewrite six_eq. unfold gMin. cbn [w2 w_edge ridx g g_pos g_x comp q1]. rewrite lt_f by (cbn; lra). reflexivity. }
  assert (SO : sox w2 (0, 0, 0)%Z X1 g = Some 21%Z). { rewrite sox_eq. unfold gMax. cbn [w2 w_edge ridx g g_pos g_x comp q1]. rewrite ge_t by (cbn; lra). reflexivity. }
  assert (PK : packing_ox w2 (0, 0, 0)%Z X1 (one_grain g 0) = UB).
  { unfold packing_ox, packing. fold (sox w2 (0, 0, 0)%Z X1). cbn [one_grain s_n s_a s_buf]. change (Z.to_nat 1) with 1%nat. cbn [pack_loop]. rewrite SO. reflexivity. }
  assert (EX : exchange w2 X1 (step1 w2 false (fun _ => Ok (one_grain g 0))) (0, 0, 0)%Z = UB).
  { unfold exchange, second_half, first_half. change (has_r w2 (0, 0, 0)%Z X1) with false. change (has_l w2 (0, 0, 0)%Z X1) with false. cbn [step1 bind].
    unfold apply_ix. cbn [w2 w_bci]. fold w2. unfold periodic_ix. rewrite PK. reflexivity. }
  unfold bvals_particle, step5, along. change (w_Nx w2 X3 >? 1)%Z with false. change (w_Nx w2 X2 >? 1)%Z with false. change (w_Nx w2 X1 >? 1)%Z with true. cbv iota. rewrite EX. reflexivity.
Qed.
Print Assumptions C84_buffer_refuted.
