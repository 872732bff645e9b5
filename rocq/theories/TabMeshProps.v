(** * C110: which tables are written *)
From Coq Require Import ZArith List Bool Reals Lia Lra.
From Verif Require Import CStr MeshModel SliceModel SliceSpec SliceProps VtkOneProps TabOneModel TabOneSpec TabOneProps TabMeshModel.
Import ListNotations.
Open Scope R_scope.

(** The rows do not depend on the range so far, and a call on a Grid always succeeds. *)
Lemma grid_works : forall wg ng num G o expr Nx, (0 <= ng)%Z -> sound_grid G -> accepted_output Nx o G ->
  exists f, forall g, exists g', output_tab_grid wg ng num G o expr g = Ok (f, g').
Proof.
  intros wg ng num G o expr Nx HN HS HA. unfold output_tab_grid.
  destruct (Z.eqb_spec (sl_ndim o) 3) as [E3|E3]; [|destruct (Z.eqb_spec (sl_ndim o) 2) as [E2|E2]; [|destruct (Z.eqb_spec (sl_ndim o) 1) as [E1|E1]; [|eauto]]].
  - destruct (C86_volume wg ng G o expr Nx HA E3) as (D & E & _). unfold output_tab_3d. rewrite E. cbn [bind]. eexists. intros g. eexists. reflexivity.
  - unfold output_tab_2d. assert (OK : exists r, OutData2 wg ng G o expr = Ok r).
    { destruct (C86_plane wg ng G o expr Nx HN HS HA E2) as (Q1 & Q2). pose proof HA as (_ & HX & _). destruct (Z.eq_dec (Nx X3) 1) as [N|N].
      - destruct (Q1 N) as (D & E & _). eauto.
      - destruct (Q2 ltac:(pose proof (HX X3); lia)) as (a & _ & _ & K). destruct (others a) as [b c]. destruct K as (K1 & K2).
        destruct (out_of_range G o a) eqn:O; [exists None; apply K1, oor; exact O|].
        destruct (K2 (proj1 (oor_false _ _ _) O)) as (ks & ke & D & _ & E & _). eauto. }
    destruct OK as ([[[n1 n2] D]|] & ->); cbn [bind]; eexists; intros g; eexists; reflexivity.
  - unfold output_tab_1d. assert (OK : exists r, OutData1 wg ng G o expr = Ok r).
    { destruct (C86_line wg ng G o expr Nx HN HS HA E1) as (Q1 & Q2). pose proof HA as (_ & HX & _). destruct (Z.eq_dec (Nx X2) 1) as [N|N].
      - destruct (Q1 N) as (D & E & _). eauto.
      - destruct (Q2 ltac:(pose proof (HX X2); lia)) as (a & _ & _ & _ & K). destruct (others a) as [b c]. destruct K as (K1 & K2).
        destruct (out_of_range G o b) eqn:O1; [exists None; apply K1; left; apply oor; exact O1|].
        destruct (out_of_range G o c) eqn:O2; [exists None; apply K1; right; apply oor; exact O2|].
        destruct (K2 (proj1 (oor_false _ _ _) O1) (proj1 (oor_false _ _ _) O2)) as (bs & be & cs & ce & D & _ & _ & E & _). eauto. }
    destruct OK as ([[n1 D]|] & ->); cbn [bind]; eexists; intros g; eexists; reflexivity.
Qed.

Section MeshProofs.
Variables (wg : bool) (ng : Z) (num : nat) (o : slice) (nlevel ndomain : Z) (expr : Z -> Z -> Z -> Z -> Z -> R) (Nx : axis -> Z).
Hypothesis (HN : (0 <= ng)%Z).
Notation good G := (sound_grid G /\ accepted_output Nx o G).
Definition written (G : ogrid) (nl nd : Z) (rows : list (list Z * R)) : Prop := exists r r', output_tab_grid wg ng num G o (expr nl nd) r = Ok (Some rows, r').
Lemma tab_one : forall nl nd d g, (forall G, d = Some G -> good G) -> exists fs g', tab_domain wg ng num o nlevel ndomain expr nl nd d g = Ok (fs, g') /\
  forall x y V, In (x, y, V) fs <-> x = nl /\ y = nd /\ exists G, d = Some G /\ asked nlevel nl /\ asked ndomain nd /\ written G nl nd V.
Proof.
  intros nl nd d g HG. unfold tab_domain. destruct d as [G|].
  2:{ exists [], g. split; [reflexivity|]. intros x y V. split; [intros []|]. intros (_ & _ & G & C & _). discriminate. }
  destruct (((nlevel =? -1) || (nlevel =? nl))%Z && ((ndomain =? -1) || (ndomain =? nd))%Z)%bool eqn:W.
  - destruct (HG G eq_refl) as (HS & HA). destruct (grid_works wg ng num G o (expr nl nd) Nx HN HS HA) as (f & F). destruct (F g) as (g' & E). rewrite E. cbn [bind].
    exists (match f with Some rows => [(nl, nd, rows)] | None => [] end), g'. split; [reflexivity|]. rewrite andb_true_iff, !orb_true_iff, !Z.eqb_eq in W. intros x y V. split.
    + intros I. destruct f as [rows|]; [|destruct I]. destruct I as [I|[]]. injection I as <- <- <-. split; [auto|]. split; [auto|]. exists G. unfold asked, written. split; [reflexivity|]. split; [tauto|]. split; [tauto|]. exists g, g'. exact E.
    + intros (-> & -> & G' & EG & _ & _ & r & r' & Q). injection EG as <-. destruct (F r) as (r'' & Q'). rewrite Q' in Q. injection Q as Q1 _. rewrite Q1. left. reflexivity.
  - exists [], g. split; [reflexivity|]. intros x y V. split; [intros []|]. intros (_ & _ & G' & _ & A1 & A2 & _). exfalso.
    assert (T : (((nlevel =? -1) || (nlevel =? nl))%Z && ((ndomain =? -1) || (ndomain =? nd))%Z)%bool = true) by (rewrite andb_true_iff, !orb_true_iff, !Z.eqb_eq; split; assumption).
    congruence.
Qed.
Lemma tab_dom : forall ds nl nd g, (forall G, In (Some G) ds -> good G) -> exists fs g', tab_domains wg ng num o nlevel ndomain expr nl nd ds g = Ok (fs, g') /\
  forall x y V, In (x, y, V) fs <-> x = nl /\ (nd <= y)%Z /\ exists G, nth_error ds (Z.to_nat (y - nd)) = Some (Some G) /\ asked nlevel nl /\ asked ndomain y /\ written G nl y V.
Proof.
  induction ds as [|d ds IH]; intros nl nd g HG; cbn [tab_domains].
  - exists [], g. split; [reflexivity|]. intros x y V. split; [intros []|]. intros (_ & _ & G & C & _). destruct (Z.to_nat (y - nd)); discriminate.
  - destruct (tab_one nl nd d g) as (f & r & -> & A1); [intros G ->; apply HG; left; reflexivity|]. cbn [bind].
    destruct (IH nl (nd + 1)%Z r) as (fs & r' & -> & B1); [intros G I; apply HG; right; exact I|]. cbn [bind]. eexists. eexists. split; [reflexivity|].
    intros x y V. rewrite in_app_iff, A1, B1. split.
    + intros [(-> & -> & G & -> & K)|(-> & L & G & EN & K)].
      * split; [auto|]. split; [lia|]. exists G. rewrite Z.sub_diag. split; [reflexivity|exact K].
      * split; [auto|]. split; [lia|]. exists G. replace (Z.to_nat (y - nd)) with (S (Z.to_nat (y - (nd + 1)))) by lia. split; [exact EN|exact K].
    + intros (-> & L & G & EN & K). destruct (Z.eq_dec y nd) as [->|NE].
      * left. rewrite Z.sub_diag in EN. injection EN as ->. eauto 10.
      * right. split; [auto|]. split; [lia|]. exists G. replace (Z.to_nat (y - nd)) with (S (Z.to_nat (y - (nd + 1)))) in EN by lia. split; [exact EN|exact K].
Qed.
Lemma tab_lev : forall mesh nl g, (forall ds G, In ds mesh -> In (Some G) ds -> good G) -> exists fs g', tab_levels wg ng num o nlevel ndomain expr nl mesh g = Ok (fs, g') /\
  forall x y V, In (x, y, V) fs <-> (nl <= x)%Z /\ (0 <= y)%Z /\ exists ds G, nth_error mesh (Z.to_nat (x - nl)) = Some ds /\ nth_error ds (Z.to_nat y) = Some (Some G) /\ asked nlevel x /\ asked ndomain y /\ written G x y V.
Proof.
  induction mesh as [|ds mesh IH]; intros nl g HG; cbn [tab_levels].
  - exists [], g. split; [reflexivity|]. intros x y V. split; [intros []|]. intros (_ & _ & ds & G & C & _). destruct (Z.to_nat (x - nl)); discriminate.
  - destruct (tab_dom ds nl 0%Z g) as (f & r & -> & A1); [intros G I; apply (HG ds); [left; auto|exact I]|]. cbn [bind].
    destruct (IH (nl + 1)%Z r) as (fs & r' & -> & B1); [intros ds' G I1 I2; apply (HG ds'); [right; auto|exact I2]|]. cbn [bind]. eexists. eexists. split; [reflexivity|].
    intros x y V. rewrite in_app_iff, A1, B1. split.
    + intros [(-> & L & G & EN & K)|(L & Ly & ds' & G & E & EN & K)].
      * split; [lia|]. split; [lia|]. exists ds, G. rewrite Z.sub_diag. split; [reflexivity|]. rewrite Z.sub_0_r in EN. split; [exact EN|exact K].
      * split; [lia|]. split; [lia|]. exists ds', G. replace (Z.to_nat (x - nl)) with (S (Z.to_nat (x - (nl + 1)))) by lia. split; [exact E|]. split; [exact EN|exact K].
    + intros (L & Ly & ds' & G & E & EN & K). destruct (Z.eq_dec x nl) as [->|NE].
      * left. rewrite Z.sub_diag in E. injection E as ->. split; [auto|]. split; [lia|]. exists G. rewrite Z.sub_0_r. split; [exact EN|exact K].
      * right. split; [lia|]. split; [lia|]. exists ds', G. replace (Z.to_nat (x - nl)) with (S (Z.to_nat (x - (nl + 1)))) in E by lia. split; [exact E|]. split; [exact EN|exact K].
Qed.
End MeshProofs.

(** A call never fails.  It writes a table for a Domain exactly when this process has a Grid of it, the output block asks for its level and number
    (-1 for any), and the slice meets the Grid; the table is the one C110_volume, C110_plane and C110_line describe. *)
Theorem C110_files : forall wg ng num o nlevel ndomain expr Nx mesh g, (0 <= ng)%Z ->
  (forall nl nd G, grid_of mesh nl nd G -> sound_grid G /\ accepted_output Nx o G) ->
  exists files g', output_tab wg ng num o nlevel ndomain expr mesh g = Ok (files, g') /\
  forall nl nd rows, In (nl, nd, rows) files <-> asked nlevel nl /\ asked ndomain nd /\
    exists G, grid_of mesh nl nd G /\ exists r r', output_tab_grid wg ng num G o (expr nl nd) r = Ok (Some rows, r').
Proof.
  intros wg ng num o nlevel ndomain expr Nx mesh g HN HG. unfold output_tab.
  destruct (tab_lev wg ng num o nlevel ndomain expr Nx HN mesh 0%Z g) as (fs & g' & E & A).
  { intros ds G I1 I2. apply In_nth_error in I1, I2. destruct I1 as (a & E1), I2 as (b & E2). apply (HG (Z.of_nat a) (Z.of_nat b)).
    split; [lia|]. split; [lia|]. exists ds. rewrite !Nat2Z.id. auto. }
  exists fs, g'. split; [exact E|]. intros nl nd V. rewrite A. rewrite Z.sub_0_r. unfold grid_of, written. split.
  - intros (L1 & L2 & ds & G & E1 & E2 & K1 & K2 & K3). split; [exact K1|]. split; [exact K2|]. exists G. split; [|exact K3]. eauto 6.
  - intros (K1 & K2 & G & (L1 & L2 & ds & E1 & E2) & K3). split; [exact L1|]. split; [exact L2|]. exists ds, G. auto.
Qed.
Print Assumptions C110_files.
(** Two levels with a Grid each; the output block asks for level 1: one table. *)
Example C110_files_case : forall expr g, exists rows g', output_tab false 4 1 all_slice 1 (-1) expr [[Some ex_grid]; [None; Some ex_grid]] g = Ok ([(1%Z, 1%Z, rows)], g').
Proof.
  intros expr g. destruct C107_volume_case as (HA & H3).
  destruct (C110_volume false 4 1 ex_grid all_slice (expr 1%Z 1%Z) (fun _ => 8%Z) g ltac:(lia) ex_sound HA ltac:(intros []; cbn; lia) H3) as (rows & g' & E & _).
  exists rows, g'. unfold output_tab. cbn [tab_levels tab_domains tab_domain]. change (0 + 1)%Z with 1%Z. cbn [Z.eqb Pos.eqb orb andb bind app]. rewrite E. reflexivity.
Qed.
