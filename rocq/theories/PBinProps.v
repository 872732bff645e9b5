(** * C108: particles binned to the grid, and the particle list *)
From Coq Require Import ZArith Bool Reals Lra Lia List Permutation.
From Verif Require Import CStr MeshModel PosModel PosProps GasModel IntegModel IntegSpec IntegFacts PartModel PartSort PartProps PartDrag PBinModel PBinSpec.
From Verif Require MeshProps.
Import MeshProps (bind_ok).
Import ListNotations.
Open Scope R_scope.

Lemma psum_ext : forall ps f h, (forall g, In g ps -> f g = h g) -> psum ps f = psum ps h.
Proof. induction ps as [|g ps IH]; intros f h H; cbn [psum]; [reflexivity|]. rewrite (H g), (IH f h); auto; [intros; apply H; right; auto|left; auto]. Qed.
Lemma psum_perm : forall ps qs f, Permutation ps qs -> psum ps f = psum qs f.
Proof. intros ps qs f H. induction H; cbn [psum]; lra. Qed.
Lemma chosen_cons : forall sel g d ps, chosen sel ((g, d) :: ps) = if sel g d then g :: chosen sel ps else chosen sel ps.
Proof. intros. unfold chosen. cbn [filter fst snd]. destruct (sel g d); reflexivity. Qed.
Lemma chosen_perm : forall sel ps qs, Permutation ps qs -> Permutation (chosen sel ps) (chosen sel qs).
Proof.
  intros sel ps qs H. unfold chosen. apply Permutation_map. induction H; cbn [filter].
  - constructor.
  - destruct (sel (fst x) (snd x)); auto.
  - destruct (sel (fst x) (snd x)), (sel (fst y) (snd y)); auto. apply perm_swap.
  - eapply Permutation_trans; eauto.
Qed.

Section Bin.
Variables (m : interp) (Nx : axis -> Z) (pG : pgrid) (L : plim) (drho : Z -> R).
Notation bin := (bin_all m Nx pG L drho).
Notation part := (part_in m Nx pG).
Notation mass g := (drho (g_type g)).

Definition share (W : weights) (k j i : Z) : R :=
  let '(w, is, js, ks) := W in
  let k1 := Z.max ks (l_lo L X3) in let k2 := Z.min (ks + (ncell m - 1)) (l_up L X3) in
  let j1 := Z.max js (l_lo L X2) in let j2 := Z.min (js + (ncell m - 1)) (l_up L X2) in
  let i1 := Z.max is (l_lo L X1) in let i2 := Z.min (is + (ncell m - 1)) (l_up L X1) in
  if within k1 k2 k && (within j1 j2 j && within i1 i2 i) then w (k - k1)%Z (j - j1)%Z (i - i1)%Z else 0.
(** A component of the cells: the density, or a momentum. *)
Definition component (pi : gpc -> R) (a : v3 -> R) : Prop := forall w dr v q, pi (bin_add w dr v q) = pi q + w * (dr * a v).
Lemma one_share : forall pi a W dr v C k j i, component pi a -> pi (bin_one m L W dr v C k j i) = pi (C k j i) + share W k j i * (dr * a v).
Proof.
  intros pi a [[[w is] js] ks] dr v C k j i H. unfold bin_one, share. cbv zeta. unfold loop3. destruct (within _ _ k && _); [apply H|ring].
Qed.
Lemma axis_case : forall ax x i0 ww i, axis_w m (cell_of ax) (p_s pG ax) pG x (coord ax (cell1_of Nx pG)) = Ok (i0, ww) ->
  (if (Nx ax >? 1)%Z then (l_lo L ax <= i0 /\ i0 + ncell m - 1 <= l_up L ax)%Z else (l_lo L ax = p_s pG ax /\ l_up L ax = p_s pG ax)%Z) ->
  (l_lo L ax <= i <= l_up L ax)%Z ->
  Z.max i0 (l_lo L ax) = i0 /\ within i0 (Z.min (i0 + (ncell m - 1)) (l_up L ax)) i = ((0 <=? i - i0) && (i - i0 <? ncell m))%Z.
Proof.
  intros ax x i0 ww i E B I. assert (N : (2 <= ncell m)%Z) by (destruct m; cbn; lia). rewrite cell1_axis in E. destruct (Nx ax >? 1)%Z.
  - split; [lia|]. rewrite Z.min_l by lia. unfold within.
    destruct (Z.leb_spec i0 i), (Z.leb_spec i (i0 + (ncell m - 1))), (Z.leb_spec 0 (i - i0)), (Z.ltb_spec (i - i0) (ncell m)); cbn; try reflexivity; lia.
  - apply axis_collapsed in E. destruct E as [-> _]. split; [lia|]. rewrite Z.min_r by lia. assert (i = p_s pG ax) by lia. subst i. unfold within.
    rewrite (proj2 B), Z.leb_refl, Z.sub_diag. cbn [andb Z.leb]. rewrite (proj2 (Z.ltb_lt 0 (ncell m))) by lia. reflexivity.
Qed.
Lemma share_part : forall g W k j i, getweight m pG (g_x g) (cell1_of Nx pG) junk = Ok W -> inside Nx pG L m W -> in_grid L k j i -> share W k j i = part g k j i.
Proof.
  intros g W k j i E IN (K & J & I). unfold part_in. rewrite E. apply getweight_inv in E. destruct E as (w & is & js & ks & w1 & w2 & w3 & -> & E1 & E2 & E3 & _).
  unfold inside in IN. unfold share. cbv zeta.
  destruct (axis_case X1 _ _ _ i E1 (IN X1) I) as (M1 & B1). destruct (axis_case X2 _ _ _ j E2 (IN X2) J) as (M2 & B2). destruct (axis_case X3 _ _ _ k E3 (IN X3) K) as (M3 & B3).
  rewrite M1, M2, M3, B1, B2, B3. rewrite !andb_assoc. reflexivity.
Qed.
Lemma bin_comp : forall sel pi a k j i, component pi a -> in_grid L k j i -> forall ps C C', bin sel ps C = Ok C' -> (forall g, In g (chosen sel ps) -> fits m Nx pG L g) ->
  pi (C' k j i) = pi (C k j i) + psum (chosen sel ps) (fun g => mass g * a (g_v g) * part g k j i).
Proof.
  intros sel pi a k j i HC HI. induction ps as [|[g d] ps IH]; intros C C' H F; cbn [bin_all] in H.
  - injection H as <-. cbn. lra.
  - rewrite chosen_cons in *. destruct (sel g d); [|apply IH; auto].
    apply bind_ok in H. destruct H as (W & EW & H). rewrite (IH _ _ H) by (intros; apply F; right; auto). cbn [psum].
    rewrite (one_share pi a _ _ _ _ _ _ _ HC), (share_part g W _ _ _ EW (F g (or_introl eq_refl) W EW) HI). ring.
Qed.
Lemma total_share : forall W F, total L (fun k j i => share W k j i * F k j i) = clipped L m W F.
Proof.
  intros [[[w is] js] ks] F. unfold clipped. cbv zeta. rewrite <- (total_loop3 L) by lia. apply total_ext. intros k j i. unfold share. cbv zeta.
  destruct (within _ _ k && _); [reflexivity|ring].
Qed.
Lemma total_scal : forall c F, total L (fun k j i => c * F k j i) = c * total L F.
Proof. intros. unfold total. rewrite <- sumZ_scal. apply sumZ_ext; intros. rewrite <- sumZ_scal. apply sumZ_ext; intros. apply sumZ_scal. Qed.
Lemma bin_total : forall sel pi a F, component pi a -> forall ps C C', bin sel ps C = Ok C' ->
  exists T : grain -> R, (forall g, In g (chosen sel ps) -> exists W, getweight m pG (g_x g) (cell1_of Nx pG) junk = Ok W /\ T g = clipped L m W F) /\
  total L (fun k j i => pi (C' k j i) * F k j i) = total L (fun k j i => pi (C k j i) * F k j i) + psum (chosen sel ps) (fun g => mass g * a (g_v g) * T g).
Proof.
  intros sel pi a F HC ps C C' H.
  exists (fun g => match getweight m pG (g_x g) (cell1_of Nx pG) junk with Ok W => clipped L m W F | _ => 0 end). revert C C' H.
  induction ps as [|[g d] ps IH]; intros C C' H; cbn [bin_all] in H.
  - injection H as <-. split; [intros g []|]. cbn. lra.
  - rewrite chosen_cons. destruct (sel g d); [|apply IH; auto].
    apply bind_ok in H. destruct H as (W & EW & H). destruct (IH _ _ H) as (A & B). split.
    + intros g' [<-|I]; [|auto]. exists W. rewrite EW. auto.
    + rewrite B. cbn [psum]. rewrite EW. rewrite <- total_share, <- Rplus_assoc. f_equal. rewrite <- total_scal, <- total_plus. apply total_ext. intros k j i.
      rewrite (one_share pi a _ _ _ _ _ _ _ HC). ring.
Qed.
Lemma clear_zero : forall C k j i, in_grid L k j i -> gd (bin_clear L C k j i) = 0 /\ gv (bin_clear L C k j i) = V3 0 0 0.
Proof.
  intros C k j i (K & J & I). unfold bin_clear, loop3, within.
  rewrite !(proj2 (Z.leb_le _ _)) by lia. cbn. auto.
Qed.
Lemma total_clear : forall C (pi : gpc -> R) F, (forall q, gd q = 0 -> gv q = V3 0 0 0 -> pi q = 0) -> total L (fun k j i => pi (bin_clear L C k j i) * F k j i) = 0.
Proof.
  intros C pi F H. transitivity (total L (fun _ _ _ => 0)).
  - unfold total. apply sumZ_ext; intros k K. apply sumZ_ext; intros j J. apply sumZ_ext; intros i I. rewrite H; [ring| |]; apply clear_zero; split; auto.
  - rewrite (total_ext L _ (fun _ _ _ => 0 * 0)) by (intros; ring). rewrite (total_scal 0 (fun _ _ _ => 0)). ring.
Qed.
Lemma comp_d : component gd (fun _ => 1). Proof. intros w dr v q. cbn. ring. Qed.
Lemma comp_1 : component (fun q => q1 (gv q)) q1. Proof. intros w dr v q. cbn. ring. Qed.
Lemma comp_2 : component (fun q => q2 (gv q)) q2. Proof. intros w dr v q. cbn. ring. Qed.
Lemma comp_3 : component (fun q => q3 (gv q)) q3. Proof. intros w dr v q. cbn. ring. Qed.
End Bin.

(** Each cell, before ghost zones are exchanged: density and momentum are the sums over the selected particles of mass, and of mass times
    velocity, times the part of the particle in the cell; what was there before does not matter. *)
Theorem C108_sum : forall m Nx pG L drho sel ps Coup C' k j i, bin_all m Nx pG L drho sel ps (bin_clear L Coup) = Ok C' ->
  (forall g, In g (chosen sel ps) -> fits m Nx pG L g) -> in_grid L k j i ->
  gd (C' k j i) = psum (chosen sel ps) (fun g => drho (g_type g) * part_in m Nx pG g k j i) /\
  gv (C' k j i) = V3 (psum (chosen sel ps) (fun g => drho (g_type g) * q1 (g_v g) * part_in m Nx pG g k j i))
                     (psum (chosen sel ps) (fun g => drho (g_type g) * q2 (g_v g) * part_in m Nx pG g k j i))
                     (psum (chosen sel ps) (fun g => drho (g_type g) * q3 (g_v g) * part_in m Nx pG g k j i)).
Proof.
  intros m Nx pG L drho sel ps Coup C' k j i H F I. destruct (clear_zero L Coup k j i I) as (Z0 & Z1).
  split.
  - rewrite (bin_comp m Nx pG L drho sel gd _ k j i comp_d I ps _ _ H F), Z0. rewrite Rplus_0_l. apply psum_ext. intros. ring.
  - pose proof (bin_comp m Nx pG L drho sel _ _ k j i comp_1 I ps _ _ H F) as A1. pose proof (bin_comp m Nx pG L drho sel _ _ k j i comp_2 I ps _ _ H F) as A2.
    pose proof (bin_comp m Nx pG L drho sel _ _ k j i comp_3 I ps _ _ H F) as A3. cbv beta in *. rewrite Z1 in *. cbn [q1 q2 q3] in *. rewrite Rplus_0_l in *.
    rewrite <- A1, <- A2, <- A3. destruct (gv (C' k j i)); reflexivity.
Qed.
Print Assumptions C108_sum.

(** Mass, momentum and their first moments (second, for QP) over the Grid and its ghost zones are those of the particles. *)
Theorem C108_moments : forall m Nx pG L drho sel ps Coup C' (p : axis -> R -> R), bin_all m Nx pG L drho sel ps (bin_clear L Coup) = Ok C' ->
  (forall g, In g (chosen sel ps) -> fits m Nx pG L g) -> (forall ax, 0 < p_dx pG ax) ->
  (forall ax, used Nx ax -> poly m (p ax)) -> (forall ax, ~ used Nx ax -> forall y z, p ax y = p ax z) ->
  let at_cells (F : gpc -> R) := total L (fun k j i => F (C' k j i) * (p X1 (middle pG X1 i) * p X2 (middle pG X2 j) * p X3 (middle pG X3 k))) in
  let at_particles (f : grain -> R) := psum (chosen sel ps) (fun g => drho (g_type g) * f g * (p X1 (q1 (g_x g)) * p X2 (q2 (g_x g)) * p X3 (q3 (g_x g)))) in
  at_cells gd = at_particles (fun _ => 1) /\ at_cells (fun q => q1 (gv q)) = at_particles (fun g => q1 (g_v g)) /\
  at_cells (fun q => q2 (gv q)) = at_particles (fun g => q2 (g_v g)) /\ at_cells (fun q => q3 (gv q)) = at_particles (fun g => q3 (g_v g)).
Proof.
  intros m Nx pG L drho sel ps Coup C' p H F D P1 P2 at_cells at_particles.
  assert (GEN : forall pi a, component pi a -> (forall q, gd q = 0 -> gv q = V3 0 0 0 -> pi q = 0) -> at_cells pi = at_particles (fun g => a (g_v g))).
  { intros pi a HC HZ. unfold at_cells, at_particles.
    destruct (bin_total m Nx pG L drho sel pi a (fun k j i => p X1 (middle pG X1 i) * p X2 (middle pG X2 j) * p X3 (middle pG X3 k)) HC ps _ _ H) as (T & A & ->).
    rewrite total_clear by exact HZ. rewrite Rplus_0_l. apply psum_ext. intros g I. destruct (A g I) as (W & EW & ->). f_equal.
    rewrite (clipped_inside m Nx pG (g_x g) junk W L _ EW (F g I W EW)). apply (C51_polynomials m Nx pG (g_x g) junk W p D P1 P2 EW). }
  split; [apply (GEN gd (fun _ => 1) comp_d); auto|].
  split; [apply (GEN _ _ comp_1); intros q _ ->; reflexivity|]. split; [apply (GEN _ _ comp_2); intros q _ ->; reflexivity|].
  apply (GEN _ _ comp_3); intros q _ ->; reflexivity.
Qed.
Print Assumptions C108_moments.
(** With p = 1: nothing is lost. *)
Theorem C108_mass : forall m Nx pG L drho sel ps Coup C', bin_all m Nx pG L drho sel ps (bin_clear L Coup) = Ok C' ->
  (forall g, In g (chosen sel ps) -> fits m Nx pG L g) -> (forall ax, 0 < p_dx pG ax) ->
  total L (fun k j i => gd (C' k j i)) = psum (chosen sel ps) (fun g => drho (g_type g)).
Proof.
  intros m Nx pG L drho sel ps Coup C' H F D.
  destruct (C108_moments m Nx pG L drho sel ps Coup C' (fun _ _ => 1) H F D) as (A & _); [intros; exists 1, 0, 0; split; intros; ring|auto|].
  rewrite <- (psum_ext (chosen sel ps) (fun g => drho (g_type g) * 1 * (1 * 1 * 1))) by (intros; ring). rewrite <- A. apply total_ext. intros; ring.
Qed.
Print Assumptions C108_mass.

(** The order of the particles does not matter. *)
Theorem C108_order : forall m Nx pG L drho sel ps qs Coup Coup' C C' k j i, Permutation ps qs ->
  bin_all m Nx pG L drho sel ps (bin_clear L Coup) = Ok C -> bin_all m Nx pG L drho sel qs (bin_clear L Coup') = Ok C' ->
  (forall g, In g (chosen sel ps) -> fits m Nx pG L g) -> in_grid L k j i -> gd (C k j i) = gd (C' k j i) /\ gv (C k j i) = gv (C' k j i).
Proof.
  intros m Nx pG L drho sel ps qs Coup Coup' C C' k j i P H H' F I.
  assert (F' : forall g, In g (chosen sel qs) -> fits m Nx pG L g).
  { intros g G. apply F. apply (Permutation_in g (Permutation_sym (chosen_perm sel ps qs P)) G). }
  destruct (C108_sum m Nx pG L drho sel ps Coup C k j i H F I) as (-> & ->). destruct (C108_sum m Nx pG L drho sel qs Coup' C' k j i H' F' I) as (-> & ->).
  pose proof (chosen_perm sel ps qs P) as CP. rewrite !(psum_perm _ _ _ CP). auto.
Qed.
Print Assumptions C108_order.

(** Velocity (linear and TSC): where the density is not zero, it lies between the velocities of the particles; where it is zero it is zero. *)
Lemma part_nonneg : forall m Nx pG g k j i, m <> QP -> (forall ax, 0 < p_dx pG ax) -> in_array Nx pG (g_x g) -> 0 <= part_in m Nx pG g k j i.
Proof.
  intros m Nx pG g k j i M D A. unfold part_in. destruct (getweight m pG (g_x g) (cell1_of Nx pG) junk) as [[[[w is] js] ks]| |] eqn:E; try lra.
  match goal with |- context [if ?b then _ else _] => destruct b eqn:B end; [|lra]. rewrite !andb_true_iff, !Z.leb_le, !Z.ltb_lt in B.
  eapply C51_non_negative; eauto; lia.
Qed.
Lemma psum_le : forall ps f h, (forall g, In g ps -> f g <= h g) -> psum ps f <= psum ps h.
Proof. induction ps as [|g ps IH]; intros f h H; cbn [psum]; [lra|]. pose proof (H g (or_introl eq_refl)). pose proof (IH f h (fun g' I => H g' (or_intror I))). lra. Qed.
Lemma psum_scal : forall ps c f, psum ps (fun g => c * f g) = c * psum ps f.
Proof. induction ps as [|g ps IH]; intros c f; cbn [psum]; [ring|]. rewrite IH. ring. Qed.
Theorem C108_velocity : forall m Nx pG L drho sel ps Coup C' k j i lo hi b, bin_all m Nx pG L drho sel ps (bin_clear L Coup) = Ok C' ->
  m <> QP -> (forall ax, 0 < p_dx pG ax) -> in_grid L k j i -> b = q1 \/ b = q2 \/ b = q3 ->
  (forall g, In g (chosen sel ps) -> fits m Nx pG L g /\ in_array Nx pG (g_x g) /\ 0 <= drho (g_type g) /\ (0 < part_in m Nx pG g k j i -> lo <= b (g_v g) <= hi)) ->
  0 <= gd (C' k j i) /\ (0 < gd (C' k j i) -> lo <= expr_Vpar b C' i j k <= hi) /\ (gd (C' k j i) = 0 -> expr_Vpar b C' i j k = 0).
Proof.
  intros m Nx pG L drho sel ps Coup C' k j i lo hi b H M D I HB F.
  destruct (C108_sum m Nx pG L drho sel ps Coup C' k j i H (fun g G => proj1 (F g G)) I) as (E & E').
  assert (EB : b (gv (C' k j i)) = psum (chosen sel ps) (fun g => drho (g_type g) * b (g_v g) * part_in m Nx pG g k j i)) by (rewrite E'; destruct HB as [->|[->| ->]]; reflexivity).
  clear E'. assert (N : 0 <= gd (C' k j i)).
  { rewrite E. replace 0 with (psum (chosen sel ps) (fun g => 0 * 0)); [|rewrite psum_scal; ring]. apply psum_le. intros g G. destruct (F g G) as (_ & A & Q & _).
    pose proof (part_nonneg m Nx pG g k j i M D A). nra. }
  split; [exact N|]. unfold expr_Vpar. destruct (Rlt_dec 0 (gd (C' k j i))) as [P|P]; split; intros Q; try lra.
  assert (A : lo * gd (C' k j i) <= b (gv (C' k j i)) <= hi * gd (C' k j i)).
  { rewrite EB, E, <- !psum_scal. split; apply psum_le; intros g G; destruct (F g G) as (_ & A & Q' & V); pose proof (part_nonneg m Nx pG g k j i M D A) as [PP|PP].
    all: try (rewrite <- PP; lra). all: specialize (V PP); pose proof (Rmult_le_pos _ _ Q' (Rlt_le _ _ PP)); nra. }
  assert (IV : 0 < / gd (C' k j i)) by (apply Rinv_0_lt_compat; exact P).
  replace lo with (lo * gd (C' k j i) * / gd (C' k j i)) by (field; lra). replace hi with (hi * gd (C' k j i) * / gd (C' k j i)) by (field; lra).
  unfold Rdiv. split; apply Rmult_le_compat_r; lra.
Qed.
Print Assumptions C108_velocity.

(** ** The particle list *)
Lemma nout_len : forall (sel : grain -> R -> bool) (ps : list (grain * R)) n, fold_left (fun n p => if sel (fst p) (snd p) then (n + 1)%Z else n) ps n = (n + Z.of_nat (length (write_all sel ps)))%Z.
Proof.
  intros sel. induction ps as [|[g d] ps IH]; intros n; cbn [fold_left write_all fst snd]; [cbn; lia|]. rewrite IH. destruct (sel g d); cbn [length]; lia.
Qed.
(** The count is the number of records that follow; there is a record for each particle of the array that the output selects by itself and
    the density at it, in order, with its position, velocity, kind and number; the density is the binned one, interpolated to the particle. *)
Theorem C108_list : forall m Nx pG L drho iso exch sel ps Coup n recs,
  dump_particle_binary m Nx pG L drho iso exch sel ps Coup = Ok (n, recs) -> (forall g, In g (map fst ps) -> fits m Nx pG L g) ->
  n = Z.of_nat (length recs) /\
  exists B C (dens : list R), bin_all m Nx pG L drho (fun _ _ => true) ps (bin_clear L Coup) = Ok B /\ exch B = Ok C /\
    Forall2 (fun g d => exists W, getweight m pG (g_x g) (cell1_of Nx pG) junk = Ok W /\ d = interpolate m W (fun k j i => gd (C k j i))) (map fst ps) dens /\
    recs = map (fun p => Lis (g_x (fst p)) (g_v (fst p)) (snd p) (g_type (fst p)) (g_id (fst p))) (filter (fun p => sel (fst p) (snd p)) (combine (map fst ps) dens)).
Proof.
  intros m Nx pG L drho iso exch sel ps Coup n recs H F. unfold dump_particle_binary in H. apply bind_ok in H. destruct H as (C & EC & H).
  apply bind_ok in H. destruct H as (qs & EQ & H). injection H as <- <-. split; [unfold nout_of; rewrite nout_len; lia|].
  unfold particle_to_grid in EC. apply bind_ok in EC. destruct EC as (B & EB & EC). exists B, C, (map snd qs). split; [exact EB|]. split; [exact EC|]. clear EB EC B.
  assert (K : Forall2 (fun g d => exists W, getweight m pG (g_x g) (cell1_of Nx pG) junk = Ok W /\ d = interpolate m W (fun k j i => gd (C k j i))) (map fst ps) (map snd qs) /\ combine (map fst ps) (map snd qs) = qs).
  { revert qs EQ. induction ps as [|[g d] ps IH]; intros qs EQ; cbn [set_dpar] in EQ.
    - injection EQ as <-. cbn. split; [constructor|reflexivity].
    - apply bind_ok in EQ. destruct EQ as (W & EW & EQ). apply bind_ok in EQ. destruct EQ as (V & EV & EQ). apply bind_ok in EQ. destruct EQ as (r & ER & EQ). injection EQ as <-.
      assert (F1 : forall g', In g' (map fst ps) -> fits m Nx pG L g') by (intros g' G; apply F; right; exact G). assert (F0 : fits m Nx pG L g) by (apply F; left; reflexivity).
      destruct (IH F1 r ER) as (A1 & A2). cbn [map fst snd combine]. split; [|rewrite A2; reflexivity].
      constructor; [|exact A1]. exists W. split; [exact EW|].
      destruct (C51_values iso m Nx pG (g_x g) junk W L C EW (F0 W EW)) as (V' & EV' & Q & _). rewrite EV' in EV. injection EV as ->. exact Q. }
  destruct K as (K1 & K2). split; [exact K1|]. rewrite K2. clear. induction qs as [|[g d] qs IH]; cbn [write_all filter map fst snd]; [reflexivity|].
  destruct (sel g d); cbn [map fst snd]; rewrite IH; reflexivity.
Qed.
Print Assumptions C108_list.

(** Two particles of masses 2 and 3 at x1 = 9/4 on a line of eight cells; the list selects the second. *)
Definition e_part (id : Z) (v : R) (kind : Z) : grain := Grain (V3 (9/4) 0 0) (V3 v 0 0) kind 1 id.
Definition e_ps : list (grain * R) := [(e_part 7 1 2, 0); (e_part 8 5 3, 0)].
Lemma e_fits : forall id v kind, fits TSC e_Nx e_pg e_L (e_part id v kind).
Proof. intros id v kind W EW. cbn [e_part g_x] in EW. destruct ex_weights as (W' & E & IN & _). rewrite E in EW. injection EW as <-. exact IN. Qed.
Example C108_case : forall Coup, exists C, bin_all TSC e_Nx e_pg e_L IZR (fun _ _ => true) e_ps (bin_clear e_L Coup) = Ok C /\
  total e_L (fun k j i => gd (C k j i)) = 5 /\
  forall k j i, in_grid e_L k j i -> 0 < gd (C k j i) -> 1 <= expr_Vpar q1 C i j k <= 5.
Proof.
  intros Coup. destruct ex_weights as (W & E & IN & A).
  assert (H : exists C, bin_all TSC e_Nx e_pg e_L IZR (fun _ _ => true) e_ps (bin_clear e_L Coup) = Ok C).
  { unfold e_ps. cbn [bin_all e_part g_x g_v g_type]. rewrite E. cbn [bind]. eexists. reflexivity. }
  destruct H as (C & H). exists C. split; [exact H|].
  assert (CH : chosen (fun _ _ => true) e_ps = [e_part 7 1 2; e_part 8 5 3]) by reflexivity.
  assert (D : forall ax, 0 < p_dx e_pg ax) by (intros; cbn; lra).
  split.
  - rewrite (C108_mass TSC e_Nx e_pg e_L IZR _ e_ps Coup C H); [rewrite CH; cbn; lra| |exact D]. rewrite CH. intros g [<-|[<-|[]]]; apply e_fits.
  - intros k j i I P. apply (C108_velocity TSC e_Nx e_pg e_L IZR (fun _ _ => true) e_ps Coup C k j i 1 5 q1 H); auto; [discriminate|]. rewrite CH.
    intros g [<-|[<-|[]]]; (split; [apply e_fits|split; [exact A|split; [cbn; lra|intros; cbn; lra]]]).
Qed.
Example C108_list_case : forall Coup, exists recs, dump_particle_binary TSC e_Nx e_pg e_L IZR None Ok (fun g _ => (g_id g =? 8)%Z) e_ps Coup = Ok (1%Z, recs).
Proof.
  intros Coup. destruct ex_weights as (W & E & IN & A). unfold dump_particle_binary, particle_to_grid, e_ps. cbn [bin_all property_all e_part g_x g_v g_type]. rewrite E. cbn [bind].
  match goal with |- context [set_dpar _ _ _ _ _ ?c _] => set (C := c) end. destruct (C51_values None TSC e_Nx e_pg _ junk W e_L C E IN) as (V & EV & _).
  cbn [set_dpar e_part g_x]. rewrite !E. cbn [bind]. rewrite EV. cbn [lift bind]. eexists. reflexivity.
Qed.
