(** * Whole runs of the 3D integrators, for every configuration of the code *)
From Coq Require Import Reals ZArith List Bool Lia Lra.
From Verif Require Import GasModel IntegModel IntegSpec IntegFacts SchemeModel SchemeNearby Integ3Spec Integ3Local Integ3Props.
From Verif Require Ctu3Model Vl3Model.
Import Ctu3Model (grid3, scratch3, Grid3, Scratch3, is, ie, js, je, ks, ke, dt, dx1, dx2, dx3, MinX1, MinX2, MinX3, U, B1i, B2i, B3i, Phi,
  x1Mass, x2Mass, x3Mass, x1c, x2c, x3c).
Open Scope R_scope.

Lemma run_geom : forall bc m sc g g', run3 bc m sc g g' ->
  (is g' = is g /\ ie g' = ie g /\ js g' = js g /\ je g' = je g /\ ks g' = ks g /\ ke g' = ke g) /\
  (dx1 g' = dx1 g /\ dx2 g' = dx2 g /\ dx3 g' = dx3 g /\ MinX1 g' = MinX1 g /\ MinX2 g' = MinX2 g /\ MinX3 g' = MinX3 g).
Proof.
  intros bc m sc g g' H. induction H as [|h z g' _ IH _ Sa]; [auto 20|].
  destruct Sa. geo. destruct IH as ((C1 & C2 & C3 & C4 & C5 & C6) & (C7 & C8 & C9 & C10 & C11 & C12)). repeat split; congruence.
Qed.
Lemma run_active : forall bc m sc g g' k j i, run3 bc m sc g g' -> active3 g' k j i <-> active3 g k j i.
Proof. intros bc m sc g g' k j i H. destruct (run_geom _ _ _ _ _ H) as ((C1 & C2 & C3 & C4 & C5 & C6) & _). unfold active3. rewrite C1, C2, C3, C4, C5, C6. tauto. Qed.
Lemma run_nonempty : forall bc m sc g g', run3 bc m sc g g' -> nonempty3 g -> nonempty3 g'.
Proof. intros bc m sc g g' H. destruct (run_geom _ _ _ _ _ H) as ((C1 & C2 & C3 & C4 & C5 & C6) & _). unfold nonempty3. now rewrite C1, C2, C3, C4, C5, C6. Qed.
Lemma step_active : forall m sc z h k j i, active3 (integrate_3d m sc z h) k j i <-> active3 h k j i.
Proof. intros. unfold active3. geo. tauto. Qed.
Lemma same_active : forall h g' k j i, same_active3 h g' -> active3 g' k j i <-> active3 h k j i.
Proof. intros h g' k j i S. unfold active3. rewrite (sa_is _ _ S), (sa_ie _ _ S), (sa_js _ _ S), (sa_je _ _ S), (sa_ks _ _ S), (sa_ke _ _ S). tauto. Qed.
Lemma same_active_total : forall f h g', same_active3 h g' -> total3 f g' = total3 f h.
Proof.
  intros f h g' S. unfold total3. rewrite (sa_is _ _ S), (sa_ie _ _ S), (sa_js _ _ S), (sa_je _ _ S), (sa_ks _ _ S), (sa_ke _ _ S).
  apply sumZ_ext. intros k Hk. apply sumZ_ext. intros j Hj. apply sumZ_ext. intros i Hi. rewrite (sa_U _ _ S) by bla. reflexivity.
Qed.
Lemma total3_ext : forall f f' g, (forall u k j i, f u k j i = f' u k j i) -> total3 f g = total3 f' g.
Proof. intros. unfold total3. apply sumZ_ext. intros. apply sumZ_ext. intros. apply sumZ_ext. auto. Qed.

(** In any number of steps of any size the total of every quantity on which no
    source acts stays the same, for every equation of state, order of
    reconstruction, Riemann solver and integrator that can be configured. *)
Theorem C40_run_3d : forall c m o f grav cool selfg dmin g g' q ns,
  let sc := athena c m o f grav cool selfg dmin in
  nonempty3 g -> unsourced3 sc q -> scalars3 g ns -> (forall n, q = Scal n -> (n < ns)%nat) ->
  (s_mhd sc = true -> centred3 g) -> run3 (periodic3 sc) m sc g g' ->
  total3 (fun u _ _ _ => density q u) g' = total3 (fun u _ _ _ => density q u) g.
Proof.
  intros c m o f grav cool selfg dmin g g' q ns sc Hne Hq Hs Hn Hc H.
  assert (Hl : nearby (s_lr sc)) by apply lr_states_nearby. clearbody sc.
  enough (E : scalars3 g' ns /\ (s_mhd sc = true -> centred3 g') /\ total3 (fun u _ _ _ => density q u) g' = total3 (fun u _ _ _ => density q u) g) by apply E.
  induction H as [|h z g' Hr IH Hp Sa]; [auto|].
  destruct IH as (IH1 & IH2 & IH3). split; [|split].
  - intros k j i Ha. apply (same_active _ _ _ _ _ Sa) in Ha. rewrite (sa_U _ _ Sa) by exact Ha. now apply (scalars_step3 m sc z h ns IH1).
  - intros Hm k j i Ha. apply (same_active _ _ _ _ _ Sa) in Ha. rewrite (sa_U _ _ Sa) by exact Ha.
    destruct (sa_B1 _ _ Sa k j i Ha) as [-> ->]. destruct (sa_B2 _ _ Sa k j i Ha) as [-> ->]. destruct (sa_B3 _ _ Sa k j i Ha) as [-> ->].
    now apply (C41_centred_3d m sc z h Hm).
  - rewrite (same_active_total _ _ _ Sa), <- IH3. apply C40_periodic_3d with (ns := ns); auto. eapply run_nonempty; eauto.
Qed.
Print Assumptions C40_run_3d.
Theorem C62_energy_run_3d : forall c m o f phi dmin g g',
  let sc := athena c m o f (Some phi) None None dmin in
  nonempty3 g -> run3 (periodic3 sc) m sc g g' -> total3 (etot3 phi g') g' = total3 (etot3 phi g) g.
Proof.
  intros c m o f phi dmin g g' sc Hne H.
  assert (Hl : nearby (s_lr sc)) by apply lr_states_nearby.
  assert (Hg : s_grav sc = Some phi) by reflexivity. assert (Hc : s_cool sc = None) by reflexivity.
  assert (Hsg : s_selfg sc = None) by reflexivity. clearbody sc.
  induction H as [|h z g' Hr IH Hp Sa]; [reflexivity|].
  rewrite <- IH, <- (C62_energy_periodic_3d m sc z h phi Hl ltac:(eapply run_nonempty; eauto) Hg Hc Hsg Hp), (same_active_total _ _ _ Sa).
  apply total3_ext. intros u k j i. destruct Sa. unfold etot3, x1c, x2c, x3c. geo. congruence.
Qed.
Print Assumptions C62_energy_run_3d.
(** The divergence of the field of every cell is the initial one after any number of
    steps, whatever the boundary conditions do to the ghost zones and the steps
    compute: if it is zero at the start it is zero for ever. *)
Theorem C41_run_3d : forall bc m sc g g' k j i, run3 bc m sc g g' -> active3 g k j i -> divB3 g' k j i = divB3 g k j i.
Proof.
  intros bc m sc g g' k j i H Ha. induction H as [|h z g' Hr IH _ Sa]; [reflexivity|].
  apply (run_active _ _ _ _ _ _ _ _ Hr) in Ha. rewrite <- IH, <- (C41_divB_3d m sc z h) by auto.
  apply (step_active m sc z) in Ha. unfold divB3. rewrite (sa_dx1 _ _ Sa), (sa_dx2 _ _ Sa), (sa_dx3 _ _ Sa).
  destruct (sa_B1 _ _ Sa k j i Ha) as [-> ->]. destruct (sa_B2 _ _ Sa k j i Ha) as [-> ->]. destruct (sa_B3 _ _ Sa k j i Ha) as [-> ->]. reflexivity.
Qed.
Print Assumptions C41_run_3d.

(** The active zones and faces after a step with periodic data can again be extended
    periodically (the two copies of a face on opposite sides agree), so runs of any
    length exist. *)
Definition wrap (l u i : Z) : Z := (l + (i - l) mod (u - l + 1))%Z.
Lemma wrap_id : forall l u i, (l <= i <= u)%Z -> wrap l u i = i.
Proof. intros. unfold wrap. rewrite Z.mod_small by lia. lia. Qed.
Lemma wrap_shift : forall l u i, (l <= u)%Z -> wrap l u (i + (u - l + 1)) = wrap l u i.
Proof. intros. unfold wrap. replace (i + (u - l + 1) - l)%Z with ((i - l) + 1 * (u - l + 1))%Z by ring. rewrite Z_mod_plus_full. reflexivity. Qed.
Lemma wrap_last : forall l u, (l <= u)%Z -> wrap l u (u + 1) = l.
Proof. intros. replace (u + 1)%Z with (l + (u - l + 1))%Z by lia. rewrite wrap_shift by lia. apply wrap_id; lia. Qed.
Definition spread {A} (h : grid3) (f : Z -> Z -> Z -> A) (k j i : Z) : A := f (wrap (ks h) (ke h) k) (wrap (js h) (je h) j) (wrap (is h) (ie h) i).
Lemma spread_in : forall A h (f : Z -> Z -> Z -> A) k j i, active3 h k j i -> spread h f k j i = f k j i.
Proof. intros A h f k j i H. unfold spread. rewrite !wrap_id by bla. reflexivity. Qed.
Lemma spread_next : forall h (f : Z -> Z -> Z -> R), nonempty3 h ->
  ((forall k j i, active3 h k j i -> f k j (ie h + 1)%Z = f k j (is h)) -> forall k j i, active3 h k j i -> spread h f k j (i + 1) = f k j (i + 1)%Z) /\
  ((forall k j i, active3 h k j i -> f k (je h + 1)%Z i = f k (js h) i) -> forall k j i, active3 h k j i -> spread h f k (j + 1) i = f k (j + 1)%Z i) /\
  ((forall k j i, active3 h k j i -> f (ke h + 1)%Z j i = f (ks h) j i) -> forall k j i, active3 h k j i -> spread h f (k + 1) j i = f (k + 1)%Z j i).
Proof.
  intros h f (L1 & L2 & L3). repeat split; intros P k j i H; unfold spread.
  - rewrite (wrap_id _ _ k), (wrap_id _ _ j) by bla. destruct (Z.eq_dec i (ie h)) as [->|]; [rewrite wrap_last by lia; symmetry; eauto|rewrite wrap_id by bla; reflexivity].
  - rewrite (wrap_id _ _ k), (wrap_id _ _ i) by bla. destruct (Z.eq_dec j (je h)) as [->|]; [rewrite wrap_last by lia; symmetry; eauto|rewrite wrap_id by bla; reflexivity].
  - rewrite (wrap_id _ _ i), (wrap_id _ _ j) by bla. destruct (Z.eq_dec k (ke h)) as [->|]; [rewrite wrap_last by lia; symmetry; eauto|rewrite wrap_id by bla; reflexivity].
Qed.
Theorem C40_refill_3d : forall m sc z h, nearby (s_lr sc) -> nonempty3 h -> periodic3 sc h ->
  exists g', same_active3 (integrate_3d m sc z h) g' /\ periodic3 sc g'.
Proof.
  intros m sc z h Hlr Hne Hp. pose proof Hne as (L1 & L2 & L3). set (n := integrate_3d m sc z h).
  assert (P1 : forall k j i, active3 h k j i -> B1i n k j (ie h + 1)%Z = B1i n k j (is h)).
  { intros k j i H. pose proof (periodic_near1 sc h k j Hp Hne ltac:(bla) ltac:(bla)) as N1.
    pose proof (n3_B1 N1 0%Z 0%Z 0%Z ltac:(lia) ltac:(lia) ltac:(lia)) as EB. rewrite !Z.add_0_r in EB. unfold n.
    destruct (s_mhd sc) eqn:Hm.
    - rewrite !(face1 m sc z h Hm) by bla. rewrite EB.
      rewrite (emf2_local m sc z z h h _ _ _ _ _ _ Hlr N1 Hm), (emf3_local m sc z z h h _ _ _ _ _ _ Hlr N1 Hm) by bla.
      rewrite (emf2_local m sc z z h h (k + 1)%Z j (is h) (k + 1)%Z j (ie h + 1)%Z Hlr ltac:(apply periodic_near1; auto; bla) Hm) by bla.
      rewrite (emf3_local m sc z z h h k (j + 1)%Z (is h) k (j + 1)%Z (ie h + 1)%Z Hlr ltac:(apply periodic_near1; auto; bla) Hm) by bla. reflexivity.
    - destruct (faces_hydro m sc z h Hm) as (F1 & _). rewrite F1. exact EB. }
  assert (P2 : forall k j i, active3 h k j i -> B2i n k (je h + 1)%Z i = B2i n k (js h) i).
  { intros k j i H. pose proof (periodic_near2 sc h k i Hp Hne ltac:(bla) ltac:(bla)) as N1.
    pose proof (n3_B2 N1 0%Z 0%Z 0%Z ltac:(lia) ltac:(lia) ltac:(lia)) as EB. rewrite !Z.add_0_r in EB. unfold n.
    destruct (s_mhd sc) eqn:Hm.
    - rewrite !(face2 m sc z h Hm) by bla. rewrite EB.
      rewrite (emf1_local m sc z z h h _ _ _ _ _ _ Hlr N1 Hm), (emf3_local m sc z z h h _ _ _ _ _ _ Hlr N1 Hm) by bla.
      rewrite (emf1_local m sc z z h h (k + 1)%Z (js h) i (k + 1)%Z (je h + 1)%Z i Hlr ltac:(apply periodic_near2; auto; bla) Hm) by bla.
      rewrite (emf3_local m sc z z h h k (js h) (i + 1)%Z k (je h + 1)%Z (i + 1)%Z Hlr ltac:(apply periodic_near2; auto; bla) Hm) by bla. reflexivity.
    - destruct (faces_hydro m sc z h Hm) as (_ & F2 & _). rewrite F2. exact EB. }
  assert (P3 : forall k j i, active3 h k j i -> B3i n (ke h + 1)%Z j i = B3i n (ks h) j i).
  { intros k j i H. pose proof (periodic_near3 sc h j i Hp Hne ltac:(bla) ltac:(bla)) as N1.
    pose proof (n3_B3 N1 0%Z 0%Z 0%Z ltac:(lia) ltac:(lia) ltac:(lia)) as EB. rewrite !Z.add_0_r in EB. unfold n.
    destruct (s_mhd sc) eqn:Hm.
    - rewrite !(face3 m sc z h Hm) by bla. rewrite EB.
      rewrite (emf1_local m sc z z h h _ _ _ _ _ _ Hlr N1 Hm), (emf2_local m sc z z h h _ _ _ _ _ _ Hlr N1 Hm) by bla.
      rewrite (emf1_local m sc z z h h (ks h) (j + 1)%Z i (ke h + 1)%Z (j + 1)%Z i Hlr ltac:(apply periodic_near3; auto; bla) Hm) by bla.
      rewrite (emf2_local m sc z z h h (ks h) j (i + 1)%Z (ke h + 1)%Z j (i + 1)%Z Hlr ltac:(apply periodic_near3; auto; bla) Hm) by bla. reflexivity.
    - destruct (faces_hydro m sc z h Hm) as (_ & _ & F3). rewrite F3. exact EB. }
  exists (Grid3 (is h) (ie h) (js h) (je h) (ks h) (ke h) (dt h) (dx1 h) (dx2 h) (dx3 h) (MinX1 h) (MinX2 h) (MinX3 h)
    (spread h (U n)) (spread h (B1i n)) (spread h (B2i n)) (spread h (B3i n)) (spread h (Phi n)) (x1Mass n) (x2Mass n) (x3Mass n)).
  split.
  - split; cbn [is ie js je ks ke dx1 dx2 dx3 MinX1 MinX2 MinX3 U B1i B2i B3i]; unfold n; geo; auto; intros k j i H; apply step_active in H; fold n.
    + now apply spread_in.
    + split; [now apply spread_in|]. destruct (spread_next h (B1i n) Hne) as (S & _). now apply S.
    + split; [now apply spread_in|]. destruct (spread_next h (B2i n) Hne) as (_ & S & _). now apply S.
    + split; [now apply spread_in|]. destruct (spread_next h (B3i n) Hne) as (_ & _ & S). now apply S.
  - destruct Hp as [Hp _]. split; cbn [is ie js je ks ke dx1 dx2 dx3 U B1i B2i B3i Phi]; [exact Hp|].
    intros k j i _. unfold image3. cbn [is ie js je ks ke dx1 dx2 dx3 U B1i B2i B3i Phi]. unfold spread. rewrite !wrap_shift by lia. auto 20.
Qed.
Print Assumptions C40_refill_3d.

(** ** The hypotheses are met: a magnetised isothermal flow on 2 x 2 x 2 cells that
    differ, with one scalar, in a periodic potential. *)
Definition ex_cell3 (k j i : Z) : cons :=
  let b := if Z.even j then 1 else 2 in let c := if Z.even k then 3 else 4 in
  if Z.even (i + j + k) then Cons 1 2 0 0 0 b c 5 (1 :: nil) else Cons 3 (-1) 1 0 0 b c 5 (2 :: nil).
Definition ex_grid3 : grid3 :=
  Grid3 4 5 4 5 4 5 (1 / 10) 1 1 1 0 0 0 ex_cell3 (fun k j i => if Z.even j then 1 else 2) (fun k j i => if Z.even k then 3 else 4) (fun _ _ _ => 5)
    (fun _ _ _ => 0) (fun _ _ _ => 0) (fun _ _ _ => 0) (fun _ _ _ => 0).
Definition ex_phi3 (x y w : R) : R := sin (PI * x) + sin (PI * y) * cos (PI * w).
Definition ex_scheme3 (m : integrator) : scheme := athena (GCfg true (Isothermal 1)) m O3 SHlle (Some ex_phi3) None None (/ 10).
Example ex_nonempty3 : nonempty3 ex_grid3.
Proof. unfold nonempty3. cbn. lia. Qed.
Example ex_periodic3 : forall m, periodic3 (ex_scheme3 m) ex_grid3.
Proof.
  intro m. split.
  - intros phi E x y w. injection E as <-. unfold ex_phi3. cbn [ie is je js ke ks ex_grid3 dx1 dx2 dx3].
    assert (P : forall t, PI * (t + IZR (5 - 4 + 1) * 1) = PI * t + 2 * PI) by (intro; change (5 - 4 + 1)%Z with 2%Z; ring).
    rewrite !P, !sin_plus, !cos_plus, sin_2PI, cos_2PI. repeat split; ring.
  - intros k j i _. unfold image3. cbn [U B1i B2i B3i Phi ex_grid3 ie is je js ke ks]. change (5 - 4 + 1)%Z with 2%Z. unfold ex_cell3. rewrite !Z.even_add.
    destruct (Z.even i), (Z.even j), (Z.even k); cbn; repeat split; reflexivity.
Qed.
Example ex_scalars3 : scalars3 ex_grid3 1.
Proof. intros k j i _. cbn [U ex_grid3]. unfold ex_cell3. destruct (Z.even (i + j + k)); reflexivity. Qed.
Example ex_centred3 : centred3 ex_grid3.
Proof. intros k j i _. cbn [U B1i B2i B3i ex_grid3]. unfold ex_cell3, half. destruct (Z.even j), (Z.even k), (Z.even (i + j + k)); cbn; repeat split; lra. Qed.
Example ex_divB3 : forall k j i, divB3 ex_grid3 k j i = 0.
Proof. intros. unfold divB3. cbn [B1i B2i B3i dx1 dx2 dx3 ex_grid3]. unfold Rdiv. ring. Qed.
Definition ex_scratch3 : scratch3 :=
  Scratch3 (fun _ _ _ => (no_prim1, 0)) (fun _ _ _ => (no_prim1, 0)) (fun _ _ _ => (no_prim1, 0))
    (fun _ _ _ => (no_prim1, no_prim1)) (fun _ _ _ => (no_prim1, no_prim1)) (fun _ _ _ => (no_prim1, no_prim1))
    (fun _ _ _ => (no_cons1, no_cons1)) (fun _ _ _ => (no_cons1, no_cons1)) (fun _ _ _ => (no_cons1, no_cons1))
    (fun _ _ _ => no_cons1) (fun _ _ _ => no_cons1) (fun _ _ _ => no_cons1)
    (fun _ _ _ => 0) (fun _ _ _ => 0) (fun _ _ _ => 0) (fun _ _ _ => 0) (fun _ _ _ => 0) (fun _ _ _ => 0) (fun _ _ _ => 0) (fun _ _ _ => 0) (fun _ _ _ => 0)
    (fun _ _ _ => 0) (fun _ _ _ => 0) ex_cell3 (fun _ _ _ => (no_prim1, 0)) (fun _ _ _ => (no_prim1, 0)) (fun _ _ _ => (no_prim1, 0)).
Example ex_runs3 : forall m, exists g' g'', run3 (periodic3 (ex_scheme3 m)) m (ex_scheme3 m) ex_grid3 g' /\ periodic3 (ex_scheme3 m) g' /\
  run3 (periodic3 (ex_scheme3 m)) m (ex_scheme3 m) g' g'' /\ periodic3 (ex_scheme3 m) g''.
Proof.
  intro m. assert (Hl : nearby (s_lr (ex_scheme3 m))) by apply lr_states_nearby.
  destruct (C40_refill_3d m (ex_scheme3 m) ex_scratch3 ex_grid3 Hl ex_nonempty3 (ex_periodic3 m)) as (g' & A & B).
  assert (R1 : run3 (periodic3 (ex_scheme3 m)) m (ex_scheme3 m) ex_grid3 g') by (eapply run3_step; [apply run3_start|apply ex_periodic3|exact A]).
  destruct (C40_refill_3d m (ex_scheme3 m) ex_scratch3 g' Hl (run_nonempty _ _ _ _ _ R1 ex_nonempty3) B) as (g'' & A' & B').
  exists g', g''. refine (conj R1 (conj B (conj _ B'))). eapply run3_step; [apply run3_start|exact B|exact A'].
Qed.
(** The same cell in a larger Grid whose other cells hold something else. *)
Definition ex_big3 : grid3 :=
  Grid3 10 30 20 40 30 50 (1 / 10) 1 1 1 (-6) (-6) (-6)
    (fun k j i => if (within 36 44 k && within 26 34 j && within 16 24 i)%bool then ex_cell3 (k - 36) (j - 26) (i - 16) else Cons 7 7 7 7 7 0 0 0 (7 :: nil))
    (fun k j i => if within 17 24 i then if Z.even j then 1 else 2 else 9) (fun k j i => if within 27 34 j then if Z.even k then 3 else 4 else 9)
    (fun k _ _ => if within 37 44 k then 5 else 9) (fun _ _ _ => 0) (fun _ _ _ => 0) (fun _ _ _ => 0) (fun _ _ _ => 0).
Example ex_near3 : forall m, near3 (ex_scheme3 m) ex_grid3 ex_big3 4 4 4 40 30 20 (- nghost) nghost.
Proof.
  intro m. split; try reflexivity.
  - intros phi E x y w. injection E as <-. unfold ex_phi3, x1c, x2c, x3c. cbn [MinX1 MinX2 MinX3 dx1 dx2 dx3 is js ks ex_grid3 ex_big3].
    change (20 - 10)%Z with 10%Z. change (30 - 20)%Z with 10%Z. change (40 - 30)%Z with 10%Z. change (4 - 4)%Z with 0%Z.
    assert (P : forall t, PI * (-6 + (10 + half) * 1 + t) = PI * (0 + (0 + half) * 1 + t) + 2 * PI + 2 * PI) by (intro; ring).
    rewrite !P, !sin_plus, !cos_plus, sin_2PI, cos_2PI. ring.
  - intros dk dj di Hk Hj Hi. unfold nghost in *. cbn [U ex_grid3 ex_big3]. rewrite !within_in by lia. cbn [andb].
    replace (4 + dk)%Z with (40 + dk - 36)%Z by lia. replace (4 + dj)%Z with (30 + dj - 26)%Z by lia. replace (4 + di)%Z with (20 + di - 16)%Z by lia. reflexivity.
  - intros dk dj di Hk Hj Hi. unfold nghost in *. cbn [B1i ex_grid3 ex_big3]. rewrite !within_in by lia.
    replace (30 + dj)%Z with (4 + dj + 2 * 13)%Z by lia. rewrite Z.even_add, Z.even_mul. destruct (Z.even (4 + dj)); reflexivity.
  - intros dk dj di Hk Hj Hi. unfold nghost in *. cbn [B2i ex_grid3 ex_big3]. rewrite !within_in by lia.
    replace (40 + dk)%Z with (4 + dk + 2 * 18)%Z by lia. rewrite Z.even_add, Z.even_mul. destruct (Z.even (4 + dk)); reflexivity.
  - intros dk dj di Hk Hj Hi. unfold nghost in *. cbn [B3i ex_grid3 ex_big3]. rewrite !within_in by lia. reflexivity.
Qed.
Example ex_uniform3 : forall m, uniform3 (athena (GCfg true (Isothermal 1)) m O3 SHlle None None None (/ 10))
  (Grid3 4 9 4 9 4 9 (1 / 10) 1 1 1 0 0 0 (fun _ _ _ => Cons 1 2 3 4 0 5 6 7 nil) (fun _ _ _ => 5) (fun _ _ _ => 6) (fun _ _ _ => 7) (fun _ _ _ => 0)
     (fun _ _ _ => 0) (fun _ _ _ => 0) (fun _ _ _ => 0))
  (Cons 1 2 3 4 0 5 6 7 nil) 5 6 7.
Proof. intro m. split; [intros _; repeat split; reflexivity|]. intros k j i _. repeat split; reflexivity. Qed.
(** Two different Grids that agree near the edge: the inside cell differs. *)
Definition ex_mid3 (u : cons) : grid3 :=
  Grid3 4 12 4 12 4 12 (1 / 10) 1 1 1 0 0 0 (fun k j i => if (Z.eqb k 8 && Z.eqb j 8 && Z.eqb i 8)%bool then u else Cons 1 0 0 0 1 0 0 0 nil)
    (fun _ _ _ => 0) (fun _ _ _ => 0) (fun _ _ _ => 0) (fun _ _ _ => 0) (fun _ _ _ => 0) (fun _ _ _ => 0) (fun _ _ _ => 0).
Example ex_edge3 : forall m u u', same_edge (athena (GCfg false (Adiabatic (5 / 3))) m O2 SHlle None None None (/ 10)) (ex_mid3 u) (ex_mid3 u').
Proof.
  intros m u u'. unfold same_edge. repeat split; try reflexivity; try (intros; discriminate).
  intros dk dj di Hk Hj Hi. cbn [U ex_mid3]. cbn [is ie js je ks ke ex_mid3] in *. unfold nghost in *.
  destruct (Z.eqb_spec (k + dk) 8), (Z.eqb_spec (j + dj) 8), (Z.eqb_spec (i + di) 8); cbn [andb]; try reflexivity. lia.
Qed.
