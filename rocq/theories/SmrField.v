(** * EMF correction: the field after RestrictCorrect is advanced by single-valued EMFs (C42) *)
From Coq Require Import Reals ZArith Bool Arith Lia Lra ZifyBool List.
From Verif Require Import CStr MeshModel SmrModel SmrOverlap SmrFacts SmrProps SmrApply SmrPaired SmrRestrict SmrPlane SmrTheorems.
Import ListNotations.
Open Scope Z_scope.
Local Open Scope R_scope.

(** ** Specification *)
(** The mean of the fine EMFs along a coarse edge; indices count from the beginning of the overlap. *)
Definition avgE1 (nDim : nat) (of : ovl) (e : field) (k j i : Z) : R :=
  mean (map (fun n => e (o_s of X3 + ratio nDim X3 * k)%Z (o_s of X2 + ratio nDim X2 * j)%Z n) (cover nDim (o_s of X1) X1 i)).
Definition avgE2 (nDim : nat) (of : ovl) (e : field) (k j i : Z) : R :=
  mean (map (fun n => e (o_s of X3 + ratio nDim X3 * k)%Z n (o_s of X1 + ratio nDim X1 * i)%Z) (cover nDim (o_s of X2) X2 j)).
Definition avgE3 (nDim : nat) (of : ovl) (e : field) (k j i : Z) : R :=
  mean (map (fun n => e n (o_s of X2 + ratio nDim X2 * j)%Z (o_s of X1 + ratio nDim X1 * i)%Z) (cover nDim (o_s of X3) X3 k)).
(** An edge of the overlap. *)
Definition onedge (oc : ovl) (a : axis) (k j i : Z) : bool :=
  match a with
  | X1 => btw (o_s oc X3) k (o_e oc X3 + 1) && btw (o_s oc X2) j (o_e oc X2 + 1) && inb oc X1 i
  | X2 => btw (o_s oc X3) k (o_e oc X3 + 1) && inb oc X2 j && btw (o_s oc X1) i (o_e oc X1 + 1)
  | X3 => inb oc X3 k && btw (o_s oc X2) j (o_e oc X2 + 1) && btw (o_s oc X1) i (o_e oc X1 + 1)
  end.
(** The EMF that counts: that of the fine Grid where there is one. *)
Definition Estar1 (nDim : nat) (oc of : ovl) (E e : field) : field := fun k j i =>
  if onedge oc X1 k j i then avgE1 nDim of e (k - o_s oc X3) (j - o_s oc X2) (i - o_s oc X1) else E k j i.
Definition Estar2 (nDim : nat) (oc of : ovl) (E e : field) : field := fun k j i =>
  if onedge oc X2 k j i then avgE2 nDim of e (k - o_s oc X3) (j - o_s oc X2) (i - o_s oc X1) else E k j i.
Definition Estar3 (nDim : nat) (oc of : ovl) (E e : field) : field := fun k j i =>
  if onedge oc X3 k j i then avgE3 nDim of e (k - o_s oc X3) (j - o_s oc X2) (i - o_s oc X1) else E k j i.
(** Three components. *)
Record vfield := VF { f1 : field; f2 : field; f3 : field }.
Definition Estar (nDim : nat) (oc of : ovl) (E e : vfield) : vfield :=
  VF (Estar1 nDim oc of (f1 E) (f1 e)) (Estar2 nDim oc of (f2 E) (f2 e)) (Estar3 nDim oc of (f3 E) (f3 e)).
(** What the integrators leave in myEMF1, myEMF2, myEMF3: the EMFs along the edges on the boundary of the overlap. *)
Definition stored_emf (nDim : nat) (o : ovl) (f : flx) (E : vfield) : Prop := forall s x y,
  (some (o_flx o X1 s) = true -> 0 <= x < len o X3 -> 0 <= y <= len o X2 -> f_emf3 f X1 s x y = f3 E (o_s o X3 + x) (o_s o X2 + y) (bface o X1 s))%Z /\
  (some (o_flx o X2 s) = true -> 0 <= x < len o X3 -> 0 <= y <= len o X1 -> f_emf3 f X2 s x y = f3 E (o_s o X3 + x) (bface o X2 s) (o_s o X1 + y))%Z /\
  (nDim = 3%nat ->
   (some (o_flx o X1 s) = true -> 0 <= x <= len o X3 -> 0 <= y < len o X2 -> f_emf2 f X1 s x y = f2 E (o_s o X3 + x) (o_s o X2 + y) (bface o X1 s))%Z /\
   (some (o_flx o X2 s) = true -> 0 <= x <= len o X3 -> 0 <= y < len o X1 -> f_emf1 f X2 s x y = f1 E (o_s o X3 + x) (bface o X2 s) (o_s o X1 + y))%Z /\
   (some (o_flx o X3 s) = true -> 0 <= x <= len o X2 -> 0 <= y < len o X1 -> f_emf1 f X3 s x y = f1 E (bface o X3 s) (o_s o X2 + x) (o_s o X1 + y))%Z /\
   (some (o_flx o X3 s) = true -> 0 <= x < len o X2 -> 0 <= y <= len o X1 -> f_emf2 f X3 s x y = f2 E (bface o X3 s) (o_s o X2 + x) (o_s o X1 + y))%Z).
(** Constrained transport: the change of the field in a step. *)
Definition curl1 (nDim : nat) (r2 r3 : R) (E : vfield) (k j i : Z) : R :=
  (if (nDim =? 3)%nat then r3 * (f2 E (k + 1)%Z j i - f2 E k j i) else 0) - r2 * (f3 E k (j + 1)%Z i - f3 E k j i).
Definition curl2 (nDim : nat) (r1 r3 : R) (E : vfield) (k j i : Z) : R :=
  r1 * (f3 E k j (i + 1)%Z - f3 E k j i) - (if (nDim =? 3)%nat then r3 * (f1 E (k + 1)%Z j i - f1 E k j i) else 0).
Definition curl3 (r1 r2 : R) (E : vfield) (k j i : Z) : R :=
  r2 * (f1 E k (j + 1)%Z i - f1 E k j i) - r1 * (f2 E k j (i + 1)%Z - f2 E k j i).
(** A face of the overlap that is not on a corrected boundary. *)
Definition taken (oc : ovl) (a : axis) (k j i : Z) : bool :=
  onface oc a k j i && negb (len oc a =? 0)%Z &&
  let x := match a with X1 => i | X2 => j | X3 => k end in
  negb ((x =? o_s oc a)%Z && some (o_flx oc a false)) && negb ((x =? o_e oc a + 1)%Z && some (o_flx oc a true)).
(** The field before the step: the average of the fine field on those faces. *)
Definition Bstart (nDim : nat) (oc of : ovl) (B b : vfield) : vfield :=
  VF (fun k j i => if taken oc X1 k j i then avgB1 nDim of (f1 b) (k - o_s oc X3) (j - o_s oc X2) (i - o_s oc X1) else f1 B k j i)
     (fun k j i => if taken oc X2 k j i then avgB2 nDim of (f2 b) (k - o_s oc X3) (j - o_s oc X2) (i - o_s oc X1) else f2 B k j i)
     (fun k j i => if taken oc X3 k j i then avgB3 nDim of (f3 b) (k - o_s oc X3) (j - o_s oc X2) (i - o_s oc X1) else f3 B k j i).
(** The field of the Grid [g] on the faces of the cells [first..last] is [B] advanced by [E]. *)
Definition transported (nDim : nat) (first last : vec) (r1 r2 r3 : R) (B E : vfield) (g : gst) : Prop :=
  (forall k j i, act first last X3 k -> act first last X2 j -> (first X1 <= i <= last X1 + 1)%Z -> gB1 g k j i = f1 B k j i + curl1 nDim r2 r3 E k j i) /\
  (forall k j i, act first last X3 k -> (first X2 <= j <= last X2 + 1)%Z -> act first last X1 i -> gB2 g k j i = f2 B k j i + curl2 nDim r1 r3 E k j i) /\
  (nDim = 3%nat -> forall k j i, (first X3 <= k <= last X3 + 1)%Z -> act first last X2 j -> act first last X1 i -> gB3 g k j i = f3 B k j i + curl3 r1 r2 E k j i).
(** The overlap is inside the Grid; the Grids touch in at most a face. *)
Definition facing (oc : ovl) : Prop := forall a b, len oc a = 0%Z -> len oc b = 0%Z -> a = b.

(** ** The stored EMFs give the means along the boundary edges *)
Ltac emfleaf ST e := repeat (match goal with
    | |- _ = e _ _ _ => first [etransitivity; [apply ST; [assumption|lia|lia]|f_equal; clear; lia]|fail 1]
    | |- _ => f_equal end).
Lemma bface_of : forall c nDim oc of a s, paired c nDim oc of -> (bface of a s = o_s of a + ratio nDim a * (bface oc a s - o_s oc a))%Z.
Proof. intros c nDim oc of a s P. destruct (pd_len _ _ _ _ P a) as [LA _]. unfold bface, len in *. destruct s; lia. Qed.
Ltac emfset P s :=
  dims P; let S := fresh "SF" in pose proof (fun a => some_flags _ _ a s (pd_flags _ _ _ _ P)) as S; 
  let B1 := fresh "B1" in let B2 := fresh "B2" in let B3 := fresh "B3" in
  pose proof (bface_of _ _ _ _ X1 s P) as B1; pose proof (bface_of _ _ _ _ X2 s P) as B2; pose proof (bface_of _ _ _ _ X3 s P) as B3;
  rewrite <- S.
Lemma emf_avg31 : forall c nDim oc of ff e s x y, paired c nDim oc of -> stored_emf nDim of ff e ->
  some (o_flx oc X1 s) = true -> (0 <= x < len oc X3)%Z -> (0 <= y <= len oc X2)%Z -> Ef3 nDim ff X1 s x y = avgE3 nDim of (f3 e) x y (bface oc X1 s - o_s oc X1).
Proof.
  intros c nDim oc of ff e s x y P ST. emfset P s. intros Q X Y. unfold Ef3, avgE_slow, avgE3. rewrite <- B1.
  assert (S : forall x y, (0 <= x < len of X3)%Z -> (0 <= y <= len of X2)%Z -> f_emf3 ff X1 s x y = f3 e (o_s of X3 + x)%Z (o_s of X2 + y)%Z (bface of X1 s)) by (intros; apply (ST s); assumption). clear ST Q.
  destruct (ratio_cases nDim D) as [(-> & R1 & R2 & R3)|[(-> & R1 & R2 & R3)|(-> & R1 & R2 & R3)]]; rewrite R1, R2, R3 in *; covers; means; rewrite !S by lia;
  repeat (match goal with |- f3 e _ _ _ = f3 e _ _ _ => f_equal; lia | |- _ => f_equal end).
Qed.
Lemma emf_avg32 : forall c nDim oc of ff e s x y, paired c nDim oc of -> stored_emf nDim of ff e ->
  some (o_flx oc X2 s) = true -> (0 <= x < len oc X3)%Z -> (0 <= y <= len oc X1)%Z -> Ef3 nDim ff X2 s x y = avgE3 nDim of (f3 e) x (bface oc X2 s - o_s oc X2) y.
Proof.
  intros c nDim oc of ff e s x y P ST. emfset P s. intros Q X Y. unfold Ef3, avgE_slow, avgE3. rewrite <- B2.
  assert (S : forall x y, (0 <= x < len of X3)%Z -> (0 <= y <= len of X1)%Z -> f_emf3 ff X2 s x y = f3 e (o_s of X3 + x)%Z (bface of X2 s) (o_s of X1 + y)%Z) by (intros; apply (ST s); assumption). clear ST Q.
  destruct (ratio_cases nDim D) as [(-> & R1 & R2 & R3)|[(-> & R1 & R2 & R3)|(-> & R1 & R2 & R3)]]; rewrite R1, R2, R3 in *; covers; means; rewrite !S by lia;
  repeat (match goal with |- f3 e _ _ _ = f3 e _ _ _ => f_equal; lia | |- _ => f_equal end).
Qed.
Lemma emf_avg21 : forall c oc of ff e s x y, paired c 3 oc of -> stored_emf 3 of ff e ->
  some (o_flx oc X1 s) = true -> (0 <= x <= len oc X3)%Z -> (0 <= y < len oc X2)%Z -> Ef2 3 ff X1 s x y = avgE2 3 of (f2 e) x y (bface oc X1 s - o_s oc X1).
Proof.
  intros c oc of ff e s x y P ST. emfset P s. intros Q X Y. unfold Ef2, avgE_fast, avgE2. rewrite <- B1.
  assert (S : forall x y, (0 <= x <= len of X3)%Z -> (0 <= y < len of X2)%Z -> f_emf2 ff X1 s x y = f2 e (o_s of X3 + x)%Z (o_s of X2 + y)%Z (bface of X1 s)) by (intros; apply (ST s); assumption || reflexivity). clear ST Q.
  destruct (ratio_cases 3 D) as [(NN & R1 & R2 & R3)|[(NN & R1 & R2 & R3)|(NN & R1 & R2 & R3)]]; try discriminate; rewrite R1, R2, R3 in *; covers; means; rewrite !S by lia;
  repeat (match goal with |- f2 e _ _ _ = f2 e _ _ _ => f_equal; lia | |- _ => f_equal end).
Qed.
Lemma emf_avg12 : forall c oc of ff e s x y, paired c 3 oc of -> stored_emf 3 of ff e ->
  some (o_flx oc X2 s) = true -> (0 <= x <= len oc X3)%Z -> (0 <= y < len oc X1)%Z -> Ef1 3 ff X2 s x y = avgE1 3 of (f1 e) x (bface oc X2 s - o_s oc X2) y.
Proof.
  intros c oc of ff e s x y P ST. emfset P s. intros Q X Y. unfold Ef1, avgE_fast, avgE1. rewrite <- B2.
  assert (S : forall x y, (0 <= x <= len of X3)%Z -> (0 <= y < len of X1)%Z -> f_emf1 ff X2 s x y = f1 e (o_s of X3 + x)%Z (bface of X2 s) (o_s of X1 + y)%Z) by (intros; apply (ST s); assumption || reflexivity). clear ST Q.
  destruct (ratio_cases 3 D) as [(NN & R1 & R2 & R3)|[(NN & R1 & R2 & R3)|(NN & R1 & R2 & R3)]]; try discriminate; rewrite R1, R2, R3 in *; covers; means; rewrite !S by lia;
  repeat (match goal with |- f1 e _ _ _ = f1 e _ _ _ => f_equal; lia | |- _ => f_equal end).
Qed.
Lemma emf_avg13 : forall c oc of ff e s x y, paired c 3 oc of -> stored_emf 3 of ff e ->
  some (o_flx oc X3 s) = true -> (0 <= x <= len oc X2)%Z -> (0 <= y < len oc X1)%Z -> Ef1 3 ff X3 s x y = avgE1 3 of (f1 e) (bface oc X3 s - o_s oc X3) x y.
Proof.
  intros c oc of ff e s x y P ST. emfset P s. intros Q X Y. unfold Ef1, avgE_fast, avgE1. rewrite <- B3.
  assert (S : forall x y, (0 <= x <= len of X2)%Z -> (0 <= y < len of X1)%Z -> f_emf1 ff X3 s x y = f1 e (bface of X3 s) (o_s of X2 + x)%Z (o_s of X1 + y)%Z) by (intros; apply (ST s); assumption || reflexivity). clear ST Q.
  destruct (ratio_cases 3 D) as [(NN & R1 & R2 & R3)|[(NN & R1 & R2 & R3)|(NN & R1 & R2 & R3)]]; try discriminate; rewrite R1, R2, R3 in *; covers; means; rewrite !S by lia;
  repeat (match goal with |- f1 e _ _ _ = f1 e _ _ _ => f_equal; lia | |- _ => f_equal end).
Qed.
Lemma emf_avg23 : forall c oc of ff e s x y, paired c 3 oc of -> stored_emf 3 of ff e ->
  some (o_flx oc X3 s) = true -> (0 <= x < len oc X2)%Z -> (0 <= y <= len oc X1)%Z -> Ef2 3 ff X3 s x y = avgE2 3 of (f2 e) (bface oc X3 s - o_s oc X3) x y.
Proof.
  intros c oc of ff e s x y P ST. emfset P s. intros Q X Y. unfold Ef2, avgE_slow, avgE2. rewrite <- B3.
  assert (S : forall x y, (0 <= x < len of X2)%Z -> (0 <= y <= len of X1)%Z -> f_emf2 ff X3 s x y = f2 e (bface of X3 s) (o_s of X2 + x)%Z (o_s of X1 + y)%Z) by (intros; apply (ST s); assumption || reflexivity). clear ST Q.
  destruct (ratio_cases 3 D) as [(NN & R1 & R2 & R3)|[(NN & R1 & R2 & R3)|(NN & R1 & R2 & R3)]]; try discriminate; rewrite R1, R2, R3 in *; covers; means; rewrite !S by lia;
  repeat (match goal with |- f2 e _ _ _ = f2 e _ _ _ => f_equal; lia | |- _ => f_equal end).
Qed.

(** ** Differences of coarse and fine EMFs *)
Definition del1 (nDim : nat) (oc of : ovl) (E e : vfield) (k j i : Z) : R := f1 E k j i - avgE1 nDim of (f1 e) (k - o_s oc X3) (j - o_s oc X2) (i - o_s oc X1).
Definition del2 (nDim : nat) (oc of : ovl) (E e : vfield) (k j i : Z) : R := f2 E k j i - avgE2 nDim of (f2 e) (k - o_s oc X3) (j - o_s oc X2) (i - o_s oc X1).
Definition del3 (nDim : nat) (oc of : ovl) (E e : vfield) (k j i : Z) : R := f3 E k j i - avgE3 nDim of (f3 e) (k - o_s oc X3) (j - o_s oc X2) (i - o_s oc X1).
Lemma Estar1_eq : forall nDim oc of E e k j i, f1 (Estar nDim oc of E e) k j i = f1 E k j i - ind (onedge oc X1 k j i) (del1 nDim oc of E e k j i).
Proof. intros. cbn [f1 Estar]. unfold Estar1, del1. destruct (onedge oc X1 k j i); cbn [ind]; lra. Qed.
Lemma Estar2_eq : forall nDim oc of E e k j i, f2 (Estar nDim oc of E e) k j i = f2 E k j i - ind (onedge oc X2 k j i) (del2 nDim oc of E e k j i).
Proof. intros. cbn [f2 Estar]. unfold Estar2, del2. destruct (onedge oc X2 k j i); cbn [ind]; lra. Qed.
Lemma Estar3_eq : forall nDim oc of E e k j i, f3 (Estar nDim oc of E e) k j i = f3 E k j i - ind (onedge oc X3 k j i) (del3 nDim oc of E e k j i).
Proof. intros. cbn [f3 Estar]. unfold Estar3, del3. destruct (onedge oc X3 k j i); cbn [ind]; lra. Qed.

Lemma ind_ext : forall b b' x x', b = b' -> (b = true -> x = x') -> ind b x = ind b' x'.
Proof. intros [] b' x x' <- H; cbn [ind]; [apply H; reflexivity|reflexivity]. Qed.
Lemma ind_neg : forall b x, ind b (- x) = - ind b x. Proof. intros [] x; cbn [ind]; lra. Qed.
Lemma ind_mul : forall b r x, ind b (r * x) = r * ind b x. Proof. intros [] r x; cbn [ind]; lra. Qed.
Lemma fl_flx : forall c nDim oc of a s, paired c nDim oc of -> c_mhd c = true -> (2 <= nDim)%nat -> fl oc a s = some (o_flx oc a s).
Proof. intros c nDim oc of a s P M TD. destruct (pd_same _ _ _ _ P TD M s) as (A & B & C). destruct a; cbn [fl]; assumption. Qed.

(** The hypotheses of [plane] for two axes. *)
Lemma plane_hyp : forall c nDim oc of first last a b d, paired c nDim oc of -> closed nDim first last oc -> facing oc ->
  a <> b -> a <> d -> b <> d -> ratio nDim a = 2%Z -> ratio nDim b = 2%Z -> len oc d <> 0%Z ->
  ((0 <= o_e oc a - o_s oc a + 1) /\ (0 <= o_e oc b - o_s oc b + 1) /\ first a <= last a /\ first b <= last b /\
  (some (o_flx oc a false) || some (o_flx oc a true) = true -> o_s oc b <= o_e oc b) /\
  (some (o_flx oc b false) || some (o_flx oc b true) = true -> o_s oc a <= o_e oc a) /\
  (some (o_flx oc a false) = true \/ o_s oc a = first a \/ o_e oc b < o_s oc b) /\
  (some (o_flx oc a true) = true \/ o_e oc a = last a \/ o_e oc b < o_s oc b) /\
  (some (o_flx oc b false) = true \/ o_s oc b = first b \/ o_e oc a < o_s oc a) /\
  (some (o_flx oc b true) = true \/ o_e oc b = last b \/ o_e oc a < o_s oc a) /\
  (o_s oc a <= o_e oc a \/ o_s oc b <= o_e oc b) /\
  (o_e oc a < o_s oc a -> some (o_flx oc a false) && some (o_flx oc a true) = false) /\
  (o_e oc b < o_s oc b -> some (o_flx oc b false) && some (o_flx oc b true) = false))%Z.
Proof.
  intros c nDim oc of first last a b d P [CL C] F AB AD BD RA RB LD.
  pose proof (pd_len _ _ _ _ P a) as [_ NA]. pose proof (pd_len _ _ _ _ P b) as [_ NB].
  assert (Z0 : forall x, x <> a -> len oc x = 0%Z -> x = b) by (intros x NX LX; destruct a, b, d, x; congruence).
  assert (Z1 : forall x, x <> b -> len oc x = 0%Z -> x = a) by (intros x NX LX; destruct a, b, d, x; congruence).
  assert (O1 := pd_one _ _ _ _ P a). assert (O2 := pd_one _ _ _ _ P b).
  assert (T : forall x y s, some (o_flx oc x s) = true -> y <> x -> (0 < len oc y)%Z) by (intros x y s Q1 Q2; exact (pd_tr _ _ _ _ P x s y Q1 Q2)).
  assert (FF := F a b).
  assert (C1 : forall s, some (o_flx oc a s) = true \/ (if s then o_e oc a = last a else o_s oc a = first a) \/ (o_e oc b < o_s oc b)%Z).
  { intros s. destruct (C a s RA) as [H|[H|(x & NE & H)]]; auto. right. right. apply Z0 in NE; [|exact H]. subst x. unfold len in *. lia. }
  assert (C2 : forall s, some (o_flx oc b s) = true \/ (if s then o_e oc b = last b else o_s oc b = first b) \/ (o_e oc a < o_s oc a)%Z).
  { intros s. destruct (C b s RB) as [H|[H|(x & NE & H)]]; auto. right. right. apply Z1 in NE; [|exact H]. subst x. unfold len in *. lia. }
  split; [exact NA|]. split; [exact NB|]. split; [apply CL|]. split; [apply CL|].
  split. { rewrite orb_true_iff. intros [H|H]; apply T with (y := b) in H; try congruence; unfold len in *; lia. }
  split. { rewrite orb_true_iff. intros [H|H]; apply T with (y := a) in H; try congruence; unfold len in *; lia. }
  split; [apply (C1 false)|]. split; [apply (C1 true)|]. split; [apply (C2 false)|]. split; [apply (C2 true)|].
  split. { destruct (Z_lt_dec (o_e oc a) (o_s oc a)); [|left; lia]. right. destruct (Z_lt_dec (o_e oc b) (o_s oc b)); [|lia]. exfalso. apply AB. apply FF; unfold len in *; lia. }
  split; intros; [apply O1|apply O2]; unfold len in *; lia.
Qed.

(** x1-faces and edges along x3. *)
Lemma B1E3 : forall c nDim oc of first last r2 fc ff E e k j i, paired c nDim oc of -> closed nDim first last oc -> facing oc -> c_mhd c = true -> (2 <= nDim)%nat -> stored_emf nDim oc fc E -> stored_emf nDim of ff e -> act first last X2 j -> taken oc X1 k j i = false ->
  let t s := ind (fl oc X1 s && inb oc X3 k && inb oc X2 j && (i =? bface oc X1 s)%Z) (r2 * d3 nDim fc ff X1 s (k' oc k) (j' oc j + 1) - r2 * d3 nDim fc ff X1 s (k' oc k) (j' oc j))
    + ind (fl oc X1 s && touch oc X1 && inb oc X3 k && (j =? o_s oc X2 - 1)%Z && (i =? bface oc X1 s)%Z) (r2 * d3 nDim fc ff X1 s (k' oc k) (0))
    - ind (fl oc X1 s && touch oc X1 && inb oc X3 k && (j =? o_e oc X2 + 1)%Z && (i =? bface oc X1 s)%Z) (r2 * d3 nDim fc ff X1 s (k' oc k) (len oc X2)) in
  t false + t true + (c12 nDim oc last r2 fc ff false k j i + c12 nDim oc last r2 fc ff true k j i) =
  r2 * ind (onedge oc X3 k (j + 1) i) (del3 nDim oc of E e k (j + 1)%Z i) - r2 * ind (onedge oc X3 k j i) (del3 nDim oc of E e k j i).
Proof.
  intros c nDim oc of first last r2 fc ff E e k j i P C F M TD SC SF AJ NT t. unfold t, c12. clear t. rewrite !(fl_flx c nDim oc of) by assumption.
  unfold l1. cbn [onedge]. destruct (pd_same _ _ _ _ P TD M true) as (-> & _ & _).
  destruct (inb oc X3 k) eqn:K.
  2:{ rewrite ?andb_false_r. cbn [andb]. rewrite ?andb_false_r. cbn [andb ind]. lra. }
  assert (D1 : forall s y, some (o_flx oc X1 s) = true -> (0 <= y <= len oc X2)%Z -> d3 nDim fc ff X1 s (k' oc k) (y) = del3 nDim oc of E e k (o_s oc X2 + y)%Z (bface oc X1 s)).
  { intros s y Q Y. unfold d3, del3, k'. rewrite (proj1 (SC s _ _)) by (try exact Q; unfold inb, len in *; lia). rewrite (emf_avg31 c nDim oc of ff e) by (try assumption; unfold inb, len in *; lia).
    f_equal; f_equal; lia. }
  assert (D2 : forall s y, some (o_flx oc X2 s) = true -> (0 <= y <= len oc X1)%Z -> d3 nDim fc ff X2 s (k' oc k) (y) = del3 nDim oc of E e k (bface oc X2 s) (o_s oc X1 + y)%Z).
  { intros s y Q Y. unfold d3, del3, k'. rewrite (proj1 (proj2 (SC s _ _))) by (try exact Q; unfold inb, len in *; lia). rewrite (emf_avg32 c nDim oc of ff e) by (try assumption; unfold inb, len in *; lia).
    f_equal; f_equal; lia. }
  clear SC SF.
  assert (R1 : ratio nDim X1 = 2%Z) by (rewrite ratio2 by apply (pd_dim _ _ _ _ P); reflexivity).
  assert (R2 : ratio nDim X2 = 2%Z) by (rewrite ratio2 by apply (pd_dim _ _ _ _ P); replace (2 <=? nDim)%nat with true by lia; reflexivity).
  destruct (plane_hyp c nDim oc of first last X1 X2 X3 P C F) as (H1 & H2 & H3 & H4 & H5 & H6 & H7 & H8 & H9 & H10 & H11 & H12 & H13); try congruence. { unfold inb, len in *; lia. }
  pose proof (plane (o_s oc X1) (o_e oc X1) (o_s oc X2) (o_e oc X2) (first X1) (last X1) (first X2) (last X2)
     (some (o_flx oc X1 false)) (some (o_flx oc X1 true)) (some (o_flx oc X2 false)) (some (o_flx oc X2 true)) r2 (fun b a => del3 nDim oc of E e k b a) j i H1 H2 H3 H4 AJ H5 H6 H7 H8 H9 H10 H11 H12 H13) as PL.
  assert (NB : btw (o_s oc X2) j (o_e oc X2) && btw (o_s oc X1) i (o_e oc X1 + 1) && (o_s oc X1 <=? o_e oc X1)%Z && negb ((i =? o_s oc X1)%Z && some (o_flx oc X1 false)) && negb ((i =? o_e oc X1 + 1)%Z && some (o_flx oc X1 true)) = false).
  { unfold taken in NT. cbn [onface] in NT. rewrite K in NT. rewrite ?andb_true_r in NT. cbn [andb] in NT. unfold inb in NT. unfold btw in *. unfold len in NT. clear - NT H1.
    destruct (some (o_flx oc X1 false)), (some (o_flx oc X1 true)); lia. }
  specialize (PL NB). cbv beta zeta in PL. clear NB H3 H4 H5 H6 H7 H8 H9 H10 H11 H12 H13 C F NT.
  match goal with |- ?l = ?r1 * ind ?b1 ?x1 - ?r1 * ind ?b2 ?x2 => match type of PL with ?r1' * ind ?b1' _ - _ * ind ?b2' _ = _ => replace b1 with b1' by (unfold inb, btw; rewrite ?andb_true_r; cbn [andb]; try reflexivity; lia); replace b2 with b2' by (unfold inb, btw; rewrite ?andb_true_r; cbn [andb]; try reflexivity; lia) end end.
  rewrite PL. clear PL. unfold touch.
  match goal with |- context [if ?b then (o_e oc X1 + 1)%Z else o_e oc X1] => set (la := if b then (o_e oc X1 + 1)%Z else o_e oc X1); assert (LA : (la <= o_e oc X1 + 1)%Z) by (subst la; destruct b; lia) end. clearbody la. rewrite ?andb_true_r. cbn [andb].
  assert (T1 : forall s, ind (some (o_flx oc X1 s) && inb oc X2 j && (i =? bface oc X1 s)%Z) (r2 * d3 nDim fc ff X1 s (k' oc k) (j' oc j + 1) - r2 * d3 nDim fc ff X1 s (k' oc k) (j' oc j)) = ind (some (o_flx oc X1 s) && btw (o_s oc X2) j (o_e oc X2) && (i =? bface oc X1 s)%Z) (r2 * del3 nDim oc of E e k (j + 1)%Z i - r2 * del3 nDim oc of E e k j i)).
  { intros s. apply ind_ext; [unfold inb, btw; clear; lia|]. rewrite !andb_true_iff. intros HQ. assert (Q : some (o_flx oc X1 s) = true) by tauto. assert (BB : inb oc X2 j = true) by tauto. assert (I : (i =? bface oc X1 s)%Z = true) by tauto. clear HQ. unfold j'. rewrite !D1 by (try exact Q; unfold inb, len in *; lia).
    replace (o_s oc X2 + (j - o_s oc X2 + 1))%Z with (j + 1)%Z by lia. replace (o_s oc X2 + (j - o_s oc X2))%Z with j by lia. apply Z.eqb_eq in I. rewrite <- I. reflexivity. }
  assert (T2 : forall s, ind (some (o_flx oc X1 s) && (o_e oc X1 <? o_s oc X1)%Z && (j =? o_s oc X2 - 1)%Z && (i =? bface oc X1 s)%Z) (r2 * d3 nDim fc ff X1 s (k' oc k) (0)) = ind (some (o_flx oc X1 s) && (o_e oc X1 <? o_s oc X1)%Z && (j =? o_s oc X2 - 1)%Z && (i =? bface oc X1 s)%Z) (r2 * del3 nDim oc of E e k (j + 1)%Z i)).
  { intros s. apply ind_ext; [clear; lia|]. rewrite !andb_true_iff. intros HQ. assert (Q : some (o_flx oc X1 s) = true) by tauto. assert (BB : (j =? o_s oc X2 - 1)%Z = true) by tauto. assert (I : (i =? bface oc X1 s)%Z = true) by tauto. clear HQ. rewrite !D1 by (try exact Q; unfold inb, len in *; lia). apply Z.eqb_eq in I. rewrite <- I.
    replace (o_s oc X2 + 0)%Z with (j + 1)%Z by lia. reflexivity. }
  assert (T3 : forall s, ind (some (o_flx oc X1 s) && (o_e oc X1 <? o_s oc X1)%Z && (j =? o_e oc X2 + 1)%Z && (i =? bface oc X1 s)%Z) (r2 * d3 nDim fc ff X1 s (k' oc k) (len oc X2)) = ind (some (o_flx oc X1 s) && (o_e oc X1 <? o_s oc X1)%Z && (j =? o_e oc X2 + 1)%Z && (i =? bface oc X1 s)%Z) (r2 * del3 nDim oc of E e k j i)).
  { intros s. apply ind_ext; [clear; lia|]. rewrite !andb_true_iff. intros HQ. assert (Q : some (o_flx oc X1 s) = true) by tauto. assert (BB : (j =? o_e oc X2 + 1)%Z = true) by tauto. assert (I : (i =? bface oc X1 s)%Z = true) by tauto. clear HQ. rewrite !D1 by (try exact Q; unfold inb, len in *; lia). apply Z.eqb_eq in I. rewrite <- I.
    replace (o_s oc X2 + len oc X2)%Z with j by (unfold len; lia). reflexivity. }
  assert (T4 : ind (some (o_flx oc X2 false) && (j =? side oc X2 false)%Z && btw (o_s oc X1) i la) (sgn false r2 * d3 nDim fc ff X2 false (k' oc k) (i' oc i)) = - ind (some (o_flx oc X2 false) && (j =? o_s oc X2 - 1)%Z && btw (o_s oc X1) i la) (r2 * del3 nDim oc of E e k (j + 1)%Z i)).
  { rewrite <- ind_neg. apply ind_ext; [cbn [side]; clear; lia|]. rewrite !andb_true_iff. cbn [side]. intros HQ. assert (Q : some (o_flx oc X2 false) = true) by tauto. assert (BB : (j =? o_s oc X2 - 1)%Z = true) by tauto. assert (I : btw (o_s oc X1) i la = true) by tauto. clear HQ. unfold i'. unfold btw in I. rewrite !D2 by (try exact Q; unfold len in *; lia).
    replace (o_s oc X1 + (i - o_s oc X1))%Z with i by lia. replace (bface oc X2 false) with (j + 1)%Z by (cbn [bface]; lia). cbn [sgn]. ring. }
  assert (T5 : ind (some (o_flx oc X2 true) && (j =? side oc X2 true)%Z && btw (o_s oc X1) i la) (sgn true r2 * d3 nDim fc ff X2 true (k' oc k) (i' oc i)) = ind (some (o_flx oc X2 true) && (j =? o_e oc X2 + 1)%Z && btw (o_s oc X1) i la) (r2 * del3 nDim oc of E e k j i)).
  { apply ind_ext; [cbn [side]; clear; lia|]. rewrite !andb_true_iff. cbn [side]. intros HQ. assert (Q : some (o_flx oc X2 true) = true) by tauto. assert (BB : (j =? o_e oc X2 + 1)%Z = true) by tauto. assert (I : btw (o_s oc X1) i la = true) by tauto. clear HQ. unfold i'. unfold btw in I. rewrite !D2 by (try exact Q; unfold len in *; lia).
    replace (o_s oc X1 + (i - o_s oc X1))%Z with i by lia. replace (bface oc X2 true) with j by (cbn [bface]; lia). cbn [sgn]. ring. }
  rewrite !T1, !T2, !T3, T4, T5. cbn [bface]. lra.
Qed.
(** x2-faces and edges along x3. *)
Lemma B2E3 : forall c nDim oc of first last r1 fc ff E e k j i, paired c nDim oc of -> closed nDim first last oc -> facing oc -> c_mhd c = true -> (2 <= nDim)%nat -> stored_emf nDim oc fc E -> stored_emf nDim of ff e -> act first last X1 i -> taken oc X2 k j i = false ->
  let t s := ind (fl oc X2 s && inb oc X3 k && (j =? bface oc X2 s)%Z && inb oc X1 i) (r1 * d3 nDim fc ff X2 s (k' oc k) (i' oc i + 1) - r1 * d3 nDim fc ff X2 s (k' oc k) (i' oc i))
    + ind (fl oc X2 s && touch oc X2 && inb oc X3 k && (i =? o_s oc X1 - 1)%Z && (j =? bface oc X2 s)%Z) (r1 * d3 nDim fc ff X2 s (k' oc k) (0))
    - ind (fl oc X2 s && touch oc X2 && inb oc X3 k && (i =? o_e oc X1 + 1)%Z && (j =? bface oc X2 s)%Z) (r1 * d3 nDim fc ff X2 s (k' oc k) (len oc X1)) in
  t false + t true - (c21 nDim oc last r1 fc ff false k j i + c21 nDim oc last r1 fc ff true k j i) =
  r1 * ind (onedge oc X3 k j (i + 1)) (del3 nDim oc of E e k j (i + 1)%Z) - r1 * ind (onedge oc X3 k j i) (del3 nDim oc of E e k j i).
Proof.
  intros c nDim oc of first last r1 fc ff E e k j i P C F M TD SC SF AJ NT t. unfold t, c21. clear t. rewrite !(fl_flx c nDim oc of) by assumption.
  unfold l2. cbn [onedge]. destruct (pd_same _ _ _ _ P TD M true) as (_ & -> & _).
  destruct (inb oc X3 k) eqn:K.
  2:{ rewrite ?andb_false_r. cbn [andb]. rewrite ?andb_false_r. cbn [andb ind]. lra. }
  assert (D1 : forall s y, some (o_flx oc X2 s) = true -> (0 <= y <= len oc X1)%Z -> d3 nDim fc ff X2 s (k' oc k) (y) = del3 nDim oc of E e k (bface oc X2 s) (o_s oc X1 + y)%Z).
  { intros s y Q Y. unfold d3, del3, k'. rewrite (proj1 (proj2 (SC s _ _))) by (try exact Q; unfold inb, len in *; lia). rewrite (emf_avg32 c nDim oc of ff e) by (try assumption; unfold inb, len in *; lia).
    f_equal; f_equal; lia. }
  assert (D2 : forall s y, some (o_flx oc X1 s) = true -> (0 <= y <= len oc X2)%Z -> d3 nDim fc ff X1 s (k' oc k) (y) = del3 nDim oc of E e k (o_s oc X2 + y)%Z (bface oc X1 s)).
  { intros s y Q Y. unfold d3, del3, k'. rewrite (proj1 (SC s _ _)) by (try exact Q; unfold inb, len in *; lia). rewrite (emf_avg31 c nDim oc of ff e) by (try assumption; unfold inb, len in *; lia).
    f_equal; f_equal; lia. }
  clear SC SF.
  assert (R1 : ratio nDim X1 = 2%Z) by (rewrite ratio2 by apply (pd_dim _ _ _ _ P); reflexivity).
  assert (R2 : ratio nDim X2 = 2%Z) by (rewrite ratio2 by apply (pd_dim _ _ _ _ P); replace (2 <=? nDim)%nat with true by lia; reflexivity).
  destruct (plane_hyp c nDim oc of first last X2 X1 X3 P C F) as (H1 & H2 & H3 & H4 & H5 & H6 & H7 & H8 & H9 & H10 & H11 & H12 & H13); try congruence. { unfold inb, len in *; lia. }
  pose proof (plane (o_s oc X2) (o_e oc X2) (o_s oc X1) (o_e oc X1) (first X2) (last X2) (first X1) (last X1)
     (some (o_flx oc X2 false)) (some (o_flx oc X2 true)) (some (o_flx oc X1 false)) (some (o_flx oc X1 true)) r1 (fun b a => del3 nDim oc of E e k a b) i j H1 H2 H3 H4 AJ H5 H6 H7 H8 H9 H10 H11 H12 H13) as PL.
  assert (NB : btw (o_s oc X1) i (o_e oc X1) && btw (o_s oc X2) j (o_e oc X2 + 1) && (o_s oc X2 <=? o_e oc X2)%Z && negb ((j =? o_s oc X2)%Z && some (o_flx oc X2 false)) && negb ((j =? o_e oc X2 + 1)%Z && some (o_flx oc X2 true)) = false).
  { unfold taken in NT. cbn [onface] in NT. rewrite K in NT. rewrite ?andb_true_r in NT. cbn [andb] in NT. unfold inb in NT. unfold btw in *. unfold len in NT. clear - NT H1.
    destruct (some (o_flx oc X2 false)), (some (o_flx oc X2 true)); lia. }
  specialize (PL NB). cbv beta zeta in PL. clear NB H3 H4 H5 H6 H7 H8 H9 H10 H11 H12 H13 C F NT.
  match goal with |- ?l = ?r1 * ind ?b1 ?x1 - ?r1 * ind ?b2 ?x2 => match type of PL with ?r1' * ind ?b1' _ - _ * ind ?b2' _ = _ => replace b1 with b1' by (unfold inb, btw; rewrite ?andb_true_r; cbn [andb]; try reflexivity; lia); replace b2 with b2' by (unfold inb, btw; rewrite ?andb_true_r; cbn [andb]; try reflexivity; lia) end end.
  rewrite PL. clear PL. unfold touch.
  match goal with |- context [if ?b then (o_e oc X2 + 1)%Z else o_e oc X2] => set (la := if b then (o_e oc X2 + 1)%Z else o_e oc X2); assert (LA : (la <= o_e oc X2 + 1)%Z) by (subst la; destruct b; lia) end. clearbody la. rewrite ?andb_true_r. cbn [andb].
  assert (T1 : forall s, ind (some (o_flx oc X2 s) && (j =? bface oc X2 s)%Z && inb oc X1 i) (r1 * d3 nDim fc ff X2 s (k' oc k) (i' oc i + 1) - r1 * d3 nDim fc ff X2 s (k' oc k) (i' oc i)) = ind (some (o_flx oc X2 s) && btw (o_s oc X1) i (o_e oc X1) && (j =? bface oc X2 s)%Z) (r1 * del3 nDim oc of E e k j (i + 1)%Z - r1 * del3 nDim oc of E e k j i)).
  { intros s. apply ind_ext; [unfold inb, btw; clear; lia|]. rewrite !andb_true_iff. intros HQ. assert (Q : some (o_flx oc X2 s) = true) by tauto. assert (BB : inb oc X1 i = true) by tauto. assert (I : (j =? bface oc X2 s)%Z = true) by tauto. clear HQ. unfold i'. rewrite !D1 by (try exact Q; unfold inb, len in *; lia).
    replace (o_s oc X1 + (i - o_s oc X1 + 1))%Z with (i + 1)%Z by lia. replace (o_s oc X1 + (i - o_s oc X1))%Z with i by lia. apply Z.eqb_eq in I. rewrite <- I. reflexivity. }
  assert (T2 : forall s, ind (some (o_flx oc X2 s) && (o_e oc X2 <? o_s oc X2)%Z && (i =? o_s oc X1 - 1)%Z && (j =? bface oc X2 s)%Z) (r1 * d3 nDim fc ff X2 s (k' oc k) (0)) = ind (some (o_flx oc X2 s) && (o_e oc X2 <? o_s oc X2)%Z && (i =? o_s oc X1 - 1)%Z && (j =? bface oc X2 s)%Z) (r1 * del3 nDim oc of E e k j (i + 1)%Z)).
  { intros s. apply ind_ext; [clear; lia|]. rewrite !andb_true_iff. intros HQ. assert (Q : some (o_flx oc X2 s) = true) by tauto. assert (BB : (i =? o_s oc X1 - 1)%Z = true) by tauto. assert (I : (j =? bface oc X2 s)%Z = true) by tauto. clear HQ. rewrite !D1 by (try exact Q; unfold inb, len in *; lia). apply Z.eqb_eq in I. rewrite <- I.
    replace (o_s oc X1 + 0)%Z with (i + 1)%Z by lia. reflexivity. }
  assert (T3 : forall s, ind (some (o_flx oc X2 s) && (o_e oc X2 <? o_s oc X2)%Z && (i =? o_e oc X1 + 1)%Z && (j =? bface oc X2 s)%Z) (r1 * d3 nDim fc ff X2 s (k' oc k) (len oc X1)) = ind (some (o_flx oc X2 s) && (o_e oc X2 <? o_s oc X2)%Z && (i =? o_e oc X1 + 1)%Z && (j =? bface oc X2 s)%Z) (r1 * del3 nDim oc of E e k j i)).
  { intros s. apply ind_ext; [clear; lia|]. rewrite !andb_true_iff. intros HQ. assert (Q : some (o_flx oc X2 s) = true) by tauto. assert (BB : (i =? o_e oc X1 + 1)%Z = true) by tauto. assert (I : (j =? bface oc X2 s)%Z = true) by tauto. clear HQ. rewrite !D1 by (try exact Q; unfold inb, len in *; lia). apply Z.eqb_eq in I. rewrite <- I.
    replace (o_s oc X1 + len oc X1)%Z with i by (unfold len; lia). reflexivity. }
  assert (T4 : ind (some (o_flx oc X1 false) && btw (o_s oc X2) j la && (i =? side oc X1 false)%Z) (sgn false r1 * d3 nDim fc ff X1 false (k' oc k) (j' oc j)) = - ind (some (o_flx oc X1 false) && (i =? o_s oc X1 - 1)%Z && btw (o_s oc X2) j la) (r1 * del3 nDim oc of E e k j (i + 1)%Z)).
  { rewrite <- ind_neg. apply ind_ext; [cbn [side]; clear; lia|]. rewrite !andb_true_iff. cbn [side]. intros HQ. assert (Q : some (o_flx oc X1 false) = true) by tauto. assert (BB : (i =? o_s oc X1 - 1)%Z = true) by tauto. assert (I : btw (o_s oc X2) j la = true) by tauto. clear HQ. unfold j'. unfold btw in I. rewrite !D2 by (try exact Q; unfold len in *; lia).
    replace (o_s oc X2 + (j - o_s oc X2))%Z with j by lia. replace (bface oc X1 false) with (i + 1)%Z by (cbn [bface]; lia). cbn [sgn]. ring. }
  assert (T5 : ind (some (o_flx oc X1 true) && btw (o_s oc X2) j la && (i =? side oc X1 true)%Z) (sgn true r1 * d3 nDim fc ff X1 true (k' oc k) (j' oc j)) = ind (some (o_flx oc X1 true) && (i =? o_e oc X1 + 1)%Z && btw (o_s oc X2) j la) (r1 * del3 nDim oc of E e k j i)).
  { apply ind_ext; [cbn [side]; clear; lia|]. rewrite !andb_true_iff. cbn [side]. intros HQ. assert (Q : some (o_flx oc X1 true) = true) by tauto. assert (BB : (i =? o_e oc X1 + 1)%Z = true) by tauto. assert (I : btw (o_s oc X2) j la = true) by tauto. clear HQ. unfold j'. unfold btw in I. rewrite !D2 by (try exact Q; unfold len in *; lia).
    replace (o_s oc X2 + (j - o_s oc X2))%Z with j by lia. replace (bface oc X1 true) with i by (cbn [bface]; lia). cbn [sgn]. ring. }
  rewrite !T1, !T2, !T3, T4, T5. cbn [bface]. lra.
Qed.
(** x1-faces and edges along x2. *)
Lemma B1E2 : forall c oc of first last r3 fc ff E e k j i, paired c 3 oc of -> closed 3 first last oc -> facing oc -> c_mhd c = true -> stored_emf 3 oc fc E -> stored_emf 3 of ff e -> act first last X3 k -> taken oc X1 k j i = false ->
  let t s := ind (fl oc X1 s && td 3 && inb oc X3 k && inb oc X2 j && (i =? bface oc X1 s)%Z) (r3 * d2 3 fc ff X1 s (k' oc k + 1) (j' oc j) - r3 * d2 3 fc ff X1 s (k' oc k) (j' oc j))
    + ind (fl oc X1 s && td 3 && touch oc X1 && inb oc X2 j && (k =? o_s oc X3 - 1)%Z && (i =? bface oc X1 s)%Z) (r3 * d2 3 fc ff X1 s (0) (j' oc j))
    - ind (fl oc X1 s && td 3 && touch oc X1 && inb oc X2 j && (k =? o_e oc X3 + 1)%Z && (i =? bface oc X1 s)%Z) (r3 * d2 3 fc ff X1 s (len oc X3) (j' oc j)) in
  t false + t true - (c13 3 oc last r3 fc ff false k j i + c13 3 oc last r3 fc ff true k j i) =
  r3 * ind (onedge oc X2 (k + 1) j i) (del2 3 oc of E e (k + 1)%Z j i) - r3 * ind (onedge oc X2 k j i) (del2 3 oc of E e k j i).
Proof.
  intros c oc of first last r3 fc ff E e k j i P C F M SC SF AJ NT t. assert (TD : (2 <= 3)%nat) by lia. unfold t, c13. clear t. change (td 3) with true. rewrite !(fl_flx c 3 oc of) by assumption.
  unfold l1. cbn [onedge]. destruct (pd_emf2 _ _ _ _ P eq_refl M true) as (Y1 & Y2 & Y3). rewrite Y1. clear Y1 Y2 Y3.
  destruct (inb oc X2 j) eqn:K.
  2:{ rewrite ?andb_false_r. cbn [andb]. rewrite ?andb_false_r. cbn [andb ind]. lra. }
  assert (D1 : forall s y, some (o_flx oc X1 s) = true -> (0 <= y <= len oc X3)%Z -> d2 3 fc ff X1 s (y) (j' oc j) = del2 3 oc of E e (o_s oc X3 + y)%Z j (bface oc X1 s)).
  { intros s y Q Y. unfold d2, del2, j'. rewrite (proj1 (proj2 (proj2 (SC s _ _)) eq_refl)) by (try exact Q; unfold inb, len in *; lia). rewrite (emf_avg21 c oc of ff e) by (try assumption; unfold inb, len in *; lia).
    f_equal; f_equal; lia. }
  assert (D2 : forall s y, some (o_flx oc X3 s) = true -> (0 <= y <= len oc X1)%Z -> d2 3 fc ff X3 s (j' oc j) (y) = del2 3 oc of E e (bface oc X3 s) j (o_s oc X1 + y)%Z).
  { intros s y Q Y. unfold d2, del2, j'. rewrite (proj2 (proj2 (proj2 (proj2 (proj2 (SC s _ _)) eq_refl)))) by (try exact Q; unfold inb, len in *; lia). rewrite (emf_avg23 c oc of ff e) by (try assumption; unfold inb, len in *; lia).
    f_equal; f_equal; lia. }
  clear SC SF.
  destruct (plane_hyp c 3 oc of first last X1 X3 X2 P C F) as (H1 & H2 & H3 & H4 & H5 & H6 & H7 & H8 & H9 & H10 & H11 & H12 & H13); try congruence; try reflexivity. { unfold inb, len in *; lia. }
  pose proof (plane (o_s oc X1) (o_e oc X1) (o_s oc X3) (o_e oc X3) (first X1) (last X1) (first X3) (last X3)
     (some (o_flx oc X1 false)) (some (o_flx oc X1 true)) (some (o_flx oc X3 false)) (some (o_flx oc X3 true)) r3 (fun b a => del2 3 oc of E e b j a) k i H1 H2 H3 H4 AJ H5 H6 H7 H8 H9 H10 H11 H12 H13) as PL.
  assert (NB : btw (o_s oc X3) k (o_e oc X3) && btw (o_s oc X1) i (o_e oc X1 + 1) && (o_s oc X1 <=? o_e oc X1)%Z && negb ((i =? o_s oc X1)%Z && some (o_flx oc X1 false)) && negb ((i =? o_e oc X1 + 1)%Z && some (o_flx oc X1 true)) = false).
  { unfold taken in NT. cbn [onface] in NT. rewrite K in NT. rewrite ?andb_true_r in NT. cbn [andb] in NT. unfold inb in NT. unfold btw in *. unfold len in NT. clear - NT H1.
    destruct (some (o_flx oc X1 false)), (some (o_flx oc X1 true)); lia. }
  specialize (PL NB). cbv beta zeta in PL. clear NB H3 H4 H5 H6 H7 H8 H9 H10 H11 H12 H13 C F NT.
  match goal with |- ?l = ?r1 * ind ?b1 ?x1 - ?r1 * ind ?b2 ?x2 => match type of PL with ?r1' * ind ?b1' _ - _ * ind ?b2' _ = _ => replace b1 with b1' by (unfold inb, btw; rewrite ?andb_true_r; cbn [andb]; try reflexivity; lia); replace b2 with b2' by (unfold inb, btw; rewrite ?andb_true_r; cbn [andb]; try reflexivity; lia) end end.
  rewrite PL. clear PL. unfold touch.
  match goal with |- context [if ?b then (o_e oc X1 + 1)%Z else o_e oc X1] => set (la := if b then (o_e oc X1 + 1)%Z else o_e oc X1); assert (LA : (la <= o_e oc X1 + 1)%Z) by (subst la; destruct b; lia) end. clearbody la. rewrite ?andb_true_r. cbn [andb].
  assert (T1 : forall s, ind (some (o_flx oc X1 s) && inb oc X3 k && (i =? bface oc X1 s)%Z) (r3 * d2 3 fc ff X1 s (k' oc k + 1) (j' oc j) - r3 * d2 3 fc ff X1 s (k' oc k) (j' oc j)) = ind (some (o_flx oc X1 s) && btw (o_s oc X3) k (o_e oc X3) && (i =? bface oc X1 s)%Z) (r3 * del2 3 oc of E e (k + 1)%Z j i - r3 * del2 3 oc of E e k j i)).
  { intros s. apply ind_ext; [unfold inb, btw; clear; lia|]. rewrite !andb_true_iff. intros HQ. assert (Q : some (o_flx oc X1 s) = true) by tauto. assert (BB : inb oc X3 k = true) by tauto. assert (I : (i =? bface oc X1 s)%Z = true) by tauto. clear HQ. unfold k'. rewrite !D1 by (try exact Q; unfold inb, len in *; lia).
    replace (o_s oc X3 + (k - o_s oc X3 + 1))%Z with (k + 1)%Z by lia. replace (o_s oc X3 + (k - o_s oc X3))%Z with k by lia. apply Z.eqb_eq in I. rewrite <- I. reflexivity. }
  assert (T2 : forall s, ind (some (o_flx oc X1 s) && (o_e oc X1 <? o_s oc X1)%Z && (k =? o_s oc X3 - 1)%Z && (i =? bface oc X1 s)%Z) (r3 * d2 3 fc ff X1 s (0) (j' oc j)) = ind (some (o_flx oc X1 s) && (o_e oc X1 <? o_s oc X1)%Z && (k =? o_s oc X3 - 1)%Z && (i =? bface oc X1 s)%Z) (r3 * del2 3 oc of E e (k + 1)%Z j i)).
  { intros s. apply ind_ext; [clear; lia|]. rewrite !andb_true_iff. intros HQ. assert (Q : some (o_flx oc X1 s) = true) by tauto. assert (BB : (k =? o_s oc X3 - 1)%Z = true) by tauto. assert (I : (i =? bface oc X1 s)%Z = true) by tauto. clear HQ. rewrite !D1 by (try exact Q; unfold inb, len in *; lia). apply Z.eqb_eq in I. rewrite <- I.
    replace (o_s oc X3 + 0)%Z with (k + 1)%Z by lia. reflexivity. }
  assert (T3 : forall s, ind (some (o_flx oc X1 s) && (o_e oc X1 <? o_s oc X1)%Z && (k =? o_e oc X3 + 1)%Z && (i =? bface oc X1 s)%Z) (r3 * d2 3 fc ff X1 s (len oc X3) (j' oc j)) = ind (some (o_flx oc X1 s) && (o_e oc X1 <? o_s oc X1)%Z && (k =? o_e oc X3 + 1)%Z && (i =? bface oc X1 s)%Z) (r3 * del2 3 oc of E e k j i)).
  { intros s. apply ind_ext; [clear; lia|]. rewrite !andb_true_iff. intros HQ. assert (Q : some (o_flx oc X1 s) = true) by tauto. assert (BB : (k =? o_e oc X3 + 1)%Z = true) by tauto. assert (I : (i =? bface oc X1 s)%Z = true) by tauto. clear HQ. rewrite !D1 by (try exact Q; unfold inb, len in *; lia). apply Z.eqb_eq in I. rewrite <- I.
    replace (o_s oc X3 + len oc X3)%Z with k by (unfold len; lia). reflexivity. }
  assert (T4 : ind (some (o_flx oc X3 false) && (k =? side oc X3 false)%Z && btw (o_s oc X1) i la) (sgn false r3 * d2 3 fc ff X3 false (j' oc j) (i' oc i)) = - ind (some (o_flx oc X3 false) && (k =? o_s oc X3 - 1)%Z && btw (o_s oc X1) i la) (r3 * del2 3 oc of E e (k + 1)%Z j i)).
  { rewrite <- ind_neg. apply ind_ext; [cbn [side]; clear; lia|]. rewrite !andb_true_iff. cbn [side]. intros HQ. assert (Q : some (o_flx oc X3 false) = true) by tauto. assert (BB : (k =? o_s oc X3 - 1)%Z = true) by tauto. assert (I : btw (o_s oc X1) i la = true) by tauto. clear HQ. unfold i'. unfold btw in I. rewrite !D2 by (try exact Q; unfold len in *; lia).
    replace (o_s oc X1 + (i - o_s oc X1))%Z with i by lia. replace (bface oc X3 false) with (k + 1)%Z by (cbn [bface]; lia). cbn [sgn]. ring. }
  assert (T5 : ind (some (o_flx oc X3 true) && (k =? side oc X3 true)%Z && btw (o_s oc X1) i la) (sgn true r3 * d2 3 fc ff X3 true (j' oc j) (i' oc i)) = ind (some (o_flx oc X3 true) && (k =? o_e oc X3 + 1)%Z && btw (o_s oc X1) i la) (r3 * del2 3 oc of E e k j i)).
  { apply ind_ext; [cbn [side]; clear; lia|]. rewrite !andb_true_iff. cbn [side]. intros HQ. assert (Q : some (o_flx oc X3 true) = true) by tauto. assert (BB : (k =? o_e oc X3 + 1)%Z = true) by tauto. assert (I : btw (o_s oc X1) i la = true) by tauto. clear HQ. unfold i'. unfold btw in I. rewrite !D2 by (try exact Q; unfold len in *; lia).
    replace (o_s oc X1 + (i - o_s oc X1))%Z with i by lia. replace (bface oc X3 true) with k by (cbn [bface]; lia). cbn [sgn]. ring. }
  rewrite !T1, !T2, !T3, T4, T5. cbn [bface]. lra.
Qed.
(** x2-faces and edges along x1. *)
Lemma B2E1 : forall c oc of first last r3 fc ff E e k j i, paired c 3 oc of -> closed 3 first last oc -> facing oc -> c_mhd c = true -> stored_emf 3 oc fc E -> stored_emf 3 of ff e -> act first last X3 k -> taken oc X2 k j i = false ->
  let t s := ind (fl oc X2 s && td 3 && inb oc X3 k && (j =? bface oc X2 s)%Z && inb oc X1 i) (r3 * d1 3 fc ff X2 s (k' oc k + 1) (i' oc i) - r3 * d1 3 fc ff X2 s (k' oc k) (i' oc i))
    + ind (fl oc X2 s && td 3 && touch oc X2 && inb oc X1 i && (k =? o_s oc X3 - 1)%Z && (j =? bface oc X2 s)%Z) (r3 * d1 3 fc ff X2 s (0) (i' oc i))
    - ind (fl oc X2 s && td 3 && touch oc X2 && inb oc X1 i && (k =? o_e oc X3 + 1)%Z && (j =? bface oc X2 s)%Z) (r3 * d1 3 fc ff X2 s (len oc X3) (i' oc i)) in
  t false + t true + (c23 3 oc last r3 fc ff false k j i + c23 3 oc last r3 fc ff true k j i) =
  r3 * ind (onedge oc X1 (k + 1) j i) (del1 3 oc of E e (k + 1)%Z j i) - r3 * ind (onedge oc X1 k j i) (del1 3 oc of E e k j i).
Proof.
  intros c oc of first last r3 fc ff E e k j i P C F M SC SF AJ NT t. assert (TD : (2 <= 3)%nat) by lia. unfold t, c23. clear t. change (td 3) with true. rewrite !(fl_flx c 3 oc of) by assumption.
  unfold l2. cbn [onedge]. destruct (pd_emf2 _ _ _ _ P eq_refl M true) as (Y1 & Y2 & Y3). rewrite Y2. clear Y1 Y2 Y3.
  destruct (inb oc X1 i) eqn:K.
  2:{ rewrite ?andb_false_r. cbn [andb]. rewrite ?andb_false_r. cbn [andb ind]. lra. }
  assert (D1 : forall s y, some (o_flx oc X2 s) = true -> (0 <= y <= len oc X3)%Z -> d1 3 fc ff X2 s (y) (i' oc i) = del1 3 oc of E e (o_s oc X3 + y)%Z (bface oc X2 s) i).
  { intros s y Q Y. unfold d1, del1, i'. rewrite (proj1 (proj2 (proj2 (proj2 (SC s _ _)) eq_refl))) by (try exact Q; unfold inb, len in *; lia). rewrite (emf_avg12 c oc of ff e) by (try assumption; unfold inb, len in *; lia).
    f_equal; f_equal; lia. }
  assert (D2 : forall s y, some (o_flx oc X3 s) = true -> (0 <= y <= len oc X2)%Z -> d1 3 fc ff X3 s (y) (i' oc i) = del1 3 oc of E e (bface oc X3 s) (o_s oc X2 + y)%Z i).
  { intros s y Q Y. unfold d1, del1, i'. rewrite (proj1 (proj2 (proj2 (proj2 (proj2 (SC s _ _)) eq_refl)))) by (try exact Q; unfold inb, len in *; lia). rewrite (emf_avg13 c oc of ff e) by (try assumption; unfold inb, len in *; lia).
    f_equal; f_equal; lia. }
  clear SC SF.
  destruct (plane_hyp c 3 oc of first last X2 X3 X1 P C F) as (H1 & H2 & H3 & H4 & H5 & H6 & H7 & H8 & H9 & H10 & H11 & H12 & H13); try congruence; try reflexivity. { unfold inb, len in *; lia. }
  pose proof (plane (o_s oc X2) (o_e oc X2) (o_s oc X3) (o_e oc X3) (first X2) (last X2) (first X3) (last X3)
     (some (o_flx oc X2 false)) (some (o_flx oc X2 true)) (some (o_flx oc X3 false)) (some (o_flx oc X3 true)) r3 (fun b a => del1 3 oc of E e b a i) k j H1 H2 H3 H4 AJ H5 H6 H7 H8 H9 H10 H11 H12 H13) as PL.
  assert (NB : btw (o_s oc X3) k (o_e oc X3) && btw (o_s oc X2) j (o_e oc X2 + 1) && (o_s oc X2 <=? o_e oc X2)%Z && negb ((j =? o_s oc X2)%Z && some (o_flx oc X2 false)) && negb ((j =? o_e oc X2 + 1)%Z && some (o_flx oc X2 true)) = false).
  { unfold taken in NT. cbn [onface] in NT. rewrite K in NT. rewrite ?andb_true_r in NT. cbn [andb] in NT. unfold inb in NT. unfold btw in *. unfold len in NT. clear - NT H1.
    destruct (some (o_flx oc X2 false)), (some (o_flx oc X2 true)); lia. }
  specialize (PL NB). cbv beta zeta in PL. clear NB H3 H4 H5 H6 H7 H8 H9 H10 H11 H12 H13 C F NT.
  match goal with |- ?l = ?r1 * ind ?b1 ?x1 - ?r1 * ind ?b2 ?x2 => match type of PL with ?r1' * ind ?b1' _ - _ * ind ?b2' _ = _ => replace b1 with b1' by (unfold inb, btw; rewrite ?andb_true_r; cbn [andb]; try reflexivity; lia); replace b2 with b2' by (unfold inb, btw; rewrite ?andb_true_r; cbn [andb]; try reflexivity; lia) end end.
  rewrite PL. clear PL. unfold touch.
  match goal with |- context [if ?b then (o_e oc X2 + 1)%Z else o_e oc X2] => set (la := if b then (o_e oc X2 + 1)%Z else o_e oc X2); assert (LA : (la <= o_e oc X2 + 1)%Z) by (subst la; destruct b; lia) end. clearbody la. rewrite ?andb_true_r. cbn [andb].
  assert (T1 : forall s, ind (some (o_flx oc X2 s) && inb oc X3 k && (j =? bface oc X2 s)%Z) (r3 * d1 3 fc ff X2 s (k' oc k + 1) (i' oc i) - r3 * d1 3 fc ff X2 s (k' oc k) (i' oc i)) = ind (some (o_flx oc X2 s) && btw (o_s oc X3) k (o_e oc X3) && (j =? bface oc X2 s)%Z) (r3 * del1 3 oc of E e (k + 1)%Z j i - r3 * del1 3 oc of E e k j i)).
  { intros s. apply ind_ext; [unfold inb, btw; clear; lia|]. rewrite !andb_true_iff. intros HQ. assert (Q : some (o_flx oc X2 s) = true) by tauto. assert (BB : inb oc X3 k = true) by tauto. assert (I : (j =? bface oc X2 s)%Z = true) by tauto. clear HQ. unfold k'. rewrite !D1 by (try exact Q; unfold inb, len in *; lia).
    replace (o_s oc X3 + (k - o_s oc X3 + 1))%Z with (k + 1)%Z by lia. replace (o_s oc X3 + (k - o_s oc X3))%Z with k by lia. apply Z.eqb_eq in I. rewrite <- I. reflexivity. }
  assert (T2 : forall s, ind (some (o_flx oc X2 s) && (o_e oc X2 <? o_s oc X2)%Z && (k =? o_s oc X3 - 1)%Z && (j =? bface oc X2 s)%Z) (r3 * d1 3 fc ff X2 s (0) (i' oc i)) = ind (some (o_flx oc X2 s) && (o_e oc X2 <? o_s oc X2)%Z && (k =? o_s oc X3 - 1)%Z && (j =? bface oc X2 s)%Z) (r3 * del1 3 oc of E e (k + 1)%Z j i)).
  { intros s. apply ind_ext; [clear; lia|]. rewrite !andb_true_iff. intros HQ. assert (Q : some (o_flx oc X2 s) = true) by tauto. assert (BB : (k =? o_s oc X3 - 1)%Z = true) by tauto. assert (I : (j =? bface oc X2 s)%Z = true) by tauto. clear HQ. rewrite !D1 by (try exact Q; unfold inb, len in *; lia). apply Z.eqb_eq in I. rewrite <- I.
    replace (o_s oc X3 + 0)%Z with (k + 1)%Z by lia. reflexivity. }
  assert (T3 : forall s, ind (some (o_flx oc X2 s) && (o_e oc X2 <? o_s oc X2)%Z && (k =? o_e oc X3 + 1)%Z && (j =? bface oc X2 s)%Z) (r3 * d1 3 fc ff X2 s (len oc X3) (i' oc i)) = ind (some (o_flx oc X2 s) && (o_e oc X2 <? o_s oc X2)%Z && (k =? o_e oc X3 + 1)%Z && (j =? bface oc X2 s)%Z) (r3 * del1 3 oc of E e k j i)).
  { intros s. apply ind_ext; [clear; lia|]. rewrite !andb_true_iff. intros HQ. assert (Q : some (o_flx oc X2 s) = true) by tauto. assert (BB : (k =? o_e oc X3 + 1)%Z = true) by tauto. assert (I : (j =? bface oc X2 s)%Z = true) by tauto. clear HQ. rewrite !D1 by (try exact Q; unfold inb, len in *; lia). apply Z.eqb_eq in I. rewrite <- I.
    replace (o_s oc X3 + len oc X3)%Z with k by (unfold len; lia). reflexivity. }
  assert (T4 : ind (some (o_flx oc X3 false) && (k =? side oc X3 false)%Z && btw (o_s oc X2) j la) (sgn false r3 * d1 3 fc ff X3 false (j' oc j) (i' oc i)) = - ind (some (o_flx oc X3 false) && (k =? o_s oc X3 - 1)%Z && btw (o_s oc X2) j la) (r3 * del1 3 oc of E e (k + 1)%Z j i)).
  { rewrite <- ind_neg. apply ind_ext; [cbn [side]; clear; lia|]. rewrite !andb_true_iff. cbn [side]. intros HQ. assert (Q : some (o_flx oc X3 false) = true) by tauto. assert (BB : (k =? o_s oc X3 - 1)%Z = true) by tauto. assert (I : btw (o_s oc X2) j la = true) by tauto. clear HQ. unfold j'. unfold btw in I. rewrite !D2 by (try exact Q; unfold len in *; lia).
    replace (o_s oc X2 + (j - o_s oc X2))%Z with j by lia. replace (bface oc X3 false) with (k + 1)%Z by (cbn [bface]; lia). cbn [sgn]. ring. }
  assert (T5 : ind (some (o_flx oc X3 true) && (k =? side oc X3 true)%Z && btw (o_s oc X2) j la) (sgn true r3 * d1 3 fc ff X3 true (j' oc j) (i' oc i)) = ind (some (o_flx oc X3 true) && (k =? o_e oc X3 + 1)%Z && btw (o_s oc X2) j la) (r3 * del1 3 oc of E e k j i)).
  { apply ind_ext; [cbn [side]; clear; lia|]. rewrite !andb_true_iff. cbn [side]. intros HQ. assert (Q : some (o_flx oc X3 true) = true) by tauto. assert (BB : (k =? o_e oc X3 + 1)%Z = true) by tauto. assert (I : btw (o_s oc X2) j la = true) by tauto. clear HQ. unfold j'. unfold btw in I. rewrite !D2 by (try exact Q; unfold len in *; lia).
    replace (o_s oc X2 + (j - o_s oc X2))%Z with j by lia. replace (bface oc X3 true) with k by (cbn [bface]; lia). cbn [sgn]. ring. }
  rewrite !T1, !T2, !T3, T4, T5. cbn [bface]. lra.
Qed.
(** x3-faces and edges along x2. *)
Lemma B3E2 : forall c oc of first last r1 fc ff E e k j i, paired c 3 oc of -> closed 3 first last oc -> facing oc -> c_mhd c = true -> stored_emf 3 oc fc E -> stored_emf 3 of ff e -> act first last X1 i -> taken oc X3 k j i = false ->
  let t s := ind (fl oc X3 s && (k =? bface oc X3 s)%Z && inb oc X2 j && inb oc X1 i) (r1 * d2 3 fc ff X3 s (j' oc j) (i' oc i + 1) - r1 * d2 3 fc ff X3 s (j' oc j) (i' oc i))
    + ind (fl oc X3 s && touch oc X3 && (k =? bface oc X3 s)%Z && inb oc X2 j && (i =? o_s oc X1 - 1)%Z) (r1 * d2 3 fc ff X3 s (j' oc j) (0))
    - ind (fl oc X3 s && touch oc X3 && (k =? bface oc X3 s)%Z && inb oc X2 j && (i =? o_e oc X1 + 1)%Z) (r1 * d2 3 fc ff X3 s (j' oc j) (len oc X1)) in
  t false + t true + (c31 3 oc last r1 fc ff false k j i + c31 3 oc last r1 fc ff true k j i) =
  r1 * ind (onedge oc X2 k j (i + 1)) (del2 3 oc of E e k j (i + 1)%Z) - r1 * ind (onedge oc X2 k j i) (del2 3 oc of E e k j i).
Proof.
  intros c oc of first last r1 fc ff E e k j i P C F M SC SF AJ NT t. assert (TD : (2 <= 3)%nat) by lia. unfold t, c31. clear t. change (td 3) with true. rewrite !(fl_flx c 3 oc of) by assumption.
  unfold l3. cbn [onedge]. destruct (pd_emf2 _ _ _ _ P eq_refl M true) as (Y1 & Y2 & Y3). rewrite Y3. clear Y1 Y2 Y3.
  destruct (inb oc X2 j) eqn:K.
  2:{ rewrite ?andb_false_r. cbn [andb]. rewrite ?andb_false_r. cbn [andb ind]. lra. }
  assert (D1 : forall s y, some (o_flx oc X3 s) = true -> (0 <= y <= len oc X1)%Z -> d2 3 fc ff X3 s (j' oc j) (y) = del2 3 oc of E e (bface oc X3 s) j (o_s oc X1 + y)%Z).
  { intros s y Q Y. unfold d2, del2, j'. rewrite (proj2 (proj2 (proj2 (proj2 (proj2 (SC s _ _)) eq_refl)))) by (try exact Q; unfold inb, len in *; lia). rewrite (emf_avg23 c oc of ff e) by (try assumption; unfold inb, len in *; lia).
    f_equal; f_equal; lia. }
  assert (D2 : forall s y, some (o_flx oc X1 s) = true -> (0 <= y <= len oc X3)%Z -> d2 3 fc ff X1 s (y) (j' oc j) = del2 3 oc of E e (o_s oc X3 + y)%Z j (bface oc X1 s)).
  { intros s y Q Y. unfold d2, del2, j'. rewrite (proj1 (proj2 (proj2 (SC s _ _)) eq_refl)) by (try exact Q; unfold inb, len in *; lia). rewrite (emf_avg21 c oc of ff e) by (try assumption; unfold inb, len in *; lia).
    f_equal; f_equal; lia. }
  clear SC SF.
  destruct (plane_hyp c 3 oc of first last X3 X1 X2 P C F) as (H1 & H2 & H3 & H4 & H5 & H6 & H7 & H8 & H9 & H10 & H11 & H12 & H13); try congruence; try reflexivity. { unfold inb, len in *; lia. }
  pose proof (plane (o_s oc X3) (o_e oc X3) (o_s oc X1) (o_e oc X1) (first X3) (last X3) (first X1) (last X1)
     (some (o_flx oc X3 false)) (some (o_flx oc X3 true)) (some (o_flx oc X1 false)) (some (o_flx oc X1 true)) r1 (fun b a => del2 3 oc of E e a j b) i k H1 H2 H3 H4 AJ H5 H6 H7 H8 H9 H10 H11 H12 H13) as PL.
  assert (NB : btw (o_s oc X1) i (o_e oc X1) && btw (o_s oc X3) k (o_e oc X3 + 1) && (o_s oc X3 <=? o_e oc X3)%Z && negb ((k =? o_s oc X3)%Z && some (o_flx oc X3 false)) && negb ((k =? o_e oc X3 + 1)%Z && some (o_flx oc X3 true)) = false).
  { unfold taken in NT. cbn [onface] in NT. rewrite K in NT. rewrite ?andb_true_r in NT. cbn [andb] in NT. unfold inb in NT. unfold btw in *. unfold len in NT. clear - NT H1.
    destruct (some (o_flx oc X3 false)), (some (o_flx oc X3 true)); lia. }
  specialize (PL NB). cbv beta zeta in PL. clear NB H3 H4 H5 H6 H7 H8 H9 H10 H11 H12 H13 C F NT.
  match goal with |- ?l = ?r1 * ind ?b1 ?x1 - ?r1 * ind ?b2 ?x2 => match type of PL with ?r1' * ind ?b1' _ - _ * ind ?b2' _ = _ => replace b1 with b1' by (unfold inb, btw; rewrite ?andb_true_r; cbn [andb]; try reflexivity; lia); replace b2 with b2' by (unfold inb, btw; rewrite ?andb_true_r; cbn [andb]; try reflexivity; lia) end end.
  rewrite PL. clear PL. unfold touch.
  match goal with |- context [if ?b then (o_e oc X3 + 1)%Z else o_e oc X3] => set (la := if b then (o_e oc X3 + 1)%Z else o_e oc X3); assert (LA : (la <= o_e oc X3 + 1)%Z) by (subst la; destruct b; lia) end. clearbody la. rewrite ?andb_true_r. cbn [andb].
  assert (T1 : forall s, ind (some (o_flx oc X3 s) && (k =? bface oc X3 s)%Z && inb oc X1 i) (r1 * d2 3 fc ff X3 s (j' oc j) (i' oc i + 1) - r1 * d2 3 fc ff X3 s (j' oc j) (i' oc i)) = ind (some (o_flx oc X3 s) && btw (o_s oc X1) i (o_e oc X1) && (k =? bface oc X3 s)%Z) (r1 * del2 3 oc of E e k j (i + 1)%Z - r1 * del2 3 oc of E e k j i)).
  { intros s. apply ind_ext; [unfold inb, btw; clear; lia|]. rewrite !andb_true_iff. intros HQ. assert (Q : some (o_flx oc X3 s) = true) by tauto. assert (BB : inb oc X1 i = true) by tauto. assert (I : (k =? bface oc X3 s)%Z = true) by tauto. clear HQ. unfold i'. rewrite !D1 by (try exact Q; unfold inb, len in *; lia).
    replace (o_s oc X1 + (i - o_s oc X1 + 1))%Z with (i + 1)%Z by lia. replace (o_s oc X1 + (i - o_s oc X1))%Z with i by lia. apply Z.eqb_eq in I. rewrite <- I. reflexivity. }
  assert (T2 : forall s, ind (some (o_flx oc X3 s) && (o_e oc X3 <? o_s oc X3)%Z && (k =? bface oc X3 s)%Z && (i =? o_s oc X1 - 1)%Z) (r1 * d2 3 fc ff X3 s (j' oc j) (0)) = ind (some (o_flx oc X3 s) && (o_e oc X3 <? o_s oc X3)%Z && (i =? o_s oc X1 - 1)%Z && (k =? bface oc X3 s)%Z) (r1 * del2 3 oc of E e k j (i + 1)%Z)).
  { intros s. apply ind_ext; [clear; lia|]. rewrite !andb_true_iff. intros HQ. assert (Q : some (o_flx oc X3 s) = true) by tauto. assert (BB : (i =? o_s oc X1 - 1)%Z = true) by tauto. assert (I : (k =? bface oc X3 s)%Z = true) by tauto. clear HQ. rewrite !D1 by (try exact Q; unfold inb, len in *; lia). apply Z.eqb_eq in I. rewrite <- I.
    replace (o_s oc X1 + 0)%Z with (i + 1)%Z by lia. reflexivity. }
  assert (T3 : forall s, ind (some (o_flx oc X3 s) && (o_e oc X3 <? o_s oc X3)%Z && (k =? bface oc X3 s)%Z && (i =? o_e oc X1 + 1)%Z) (r1 * d2 3 fc ff X3 s (j' oc j) (len oc X1)) = ind (some (o_flx oc X3 s) && (o_e oc X3 <? o_s oc X3)%Z && (i =? o_e oc X1 + 1)%Z && (k =? bface oc X3 s)%Z) (r1 * del2 3 oc of E e k j i)).
  { intros s. apply ind_ext; [clear; lia|]. rewrite !andb_true_iff. intros HQ. assert (Q : some (o_flx oc X3 s) = true) by tauto. assert (BB : (i =? o_e oc X1 + 1)%Z = true) by tauto. assert (I : (k =? bface oc X3 s)%Z = true) by tauto. clear HQ. rewrite !D1 by (try exact Q; unfold inb, len in *; lia). apply Z.eqb_eq in I. rewrite <- I.
    replace (o_s oc X1 + len oc X1)%Z with i by (unfold len; lia). reflexivity. }
  assert (T4 : ind (some (o_flx oc X1 false) && btw (o_s oc X3) k la && (i =? side oc X1 false)%Z) (sgn false r1 * d2 3 fc ff X1 false (k' oc k) (j' oc j)) = - ind (some (o_flx oc X1 false) && (i =? o_s oc X1 - 1)%Z && btw (o_s oc X3) k la) (r1 * del2 3 oc of E e k j (i + 1)%Z)).
  { rewrite <- ind_neg. apply ind_ext; [cbn [side]; clear; lia|]. rewrite !andb_true_iff. cbn [side]. intros HQ. assert (Q : some (o_flx oc X1 false) = true) by tauto. assert (BB : (i =? o_s oc X1 - 1)%Z = true) by tauto. assert (I : btw (o_s oc X3) k la = true) by tauto. clear HQ. unfold k'. unfold btw in I. rewrite !D2 by (try exact Q; unfold len in *; lia).
    replace (o_s oc X3 + (k - o_s oc X3))%Z with k by lia. replace (bface oc X1 false) with (i + 1)%Z by (cbn [bface]; lia). cbn [sgn]. ring. }
  assert (T5 : ind (some (o_flx oc X1 true) && btw (o_s oc X3) k la && (i =? side oc X1 true)%Z) (sgn true r1 * d2 3 fc ff X1 true (k' oc k) (j' oc j)) = ind (some (o_flx oc X1 true) && (i =? o_e oc X1 + 1)%Z && btw (o_s oc X3) k la) (r1 * del2 3 oc of E e k j i)).
  { apply ind_ext; [cbn [side]; clear; lia|]. rewrite !andb_true_iff. cbn [side]. intros HQ. assert (Q : some (o_flx oc X1 true) = true) by tauto. assert (BB : (i =? o_e oc X1 + 1)%Z = true) by tauto. assert (I : btw (o_s oc X3) k la = true) by tauto. clear HQ. unfold k'. unfold btw in I. rewrite !D2 by (try exact Q; unfold len in *; lia).
    replace (o_s oc X3 + (k - o_s oc X3))%Z with k by lia. replace (bface oc X1 true) with i by (cbn [bface]; lia). cbn [sgn]. ring. }
  rewrite !T1, !T2, !T3, T4, T5. cbn [bface]. lra.
Qed.
(** x3-faces and edges along x1. *)
Lemma B3E1 : forall c oc of first last r2 fc ff E e k j i, paired c 3 oc of -> closed 3 first last oc -> facing oc -> c_mhd c = true -> stored_emf 3 oc fc E -> stored_emf 3 of ff e -> act first last X2 j -> taken oc X3 k j i = false ->
  let t s := ind (fl oc X3 s && (k =? bface oc X3 s)%Z && inb oc X2 j && inb oc X1 i) (r2 * d1 3 fc ff X3 s (j' oc j + 1) (i' oc i) - r2 * d1 3 fc ff X3 s (j' oc j) (i' oc i))
    + ind (fl oc X3 s && touch oc X3 && (k =? bface oc X3 s)%Z && (j =? o_s oc X2 - 1)%Z && inb oc X1 i) (r2 * d1 3 fc ff X3 s (0) (i' oc i))
    - ind (fl oc X3 s && touch oc X3 && (k =? bface oc X3 s)%Z && (j =? o_e oc X2 + 1)%Z && inb oc X1 i) (r2 * d1 3 fc ff X3 s (len oc X2) (i' oc i)) in
  t false + t true - (c32 3 oc last r2 fc ff false k j i + c32 3 oc last r2 fc ff true k j i) =
  r2 * ind (onedge oc X1 k (j + 1) i) (del1 3 oc of E e k (j + 1)%Z i) - r2 * ind (onedge oc X1 k j i) (del1 3 oc of E e k j i).
Proof.
  intros c oc of first last r2 fc ff E e k j i P C F M SC SF AJ NT t. assert (TD : (2 <= 3)%nat) by lia. unfold t, c32. clear t. change (td 3) with true. rewrite !(fl_flx c 3 oc of) by assumption.
  unfold l3. cbn [onedge]. destruct (pd_same _ _ _ _ P TD M true) as (_ & _ & ->).
  destruct (inb oc X1 i) eqn:K.
  2:{ rewrite ?andb_false_r. cbn [andb]. rewrite ?andb_false_r. cbn [andb ind]. lra. }
  assert (D1 : forall s y, some (o_flx oc X3 s) = true -> (0 <= y <= len oc X2)%Z -> d1 3 fc ff X3 s (y) (i' oc i) = del1 3 oc of E e (bface oc X3 s) (o_s oc X2 + y)%Z i).
  { intros s y Q Y. unfold d1, del1, i'. rewrite (proj1 (proj2 (proj2 (proj2 (proj2 (SC s _ _)) eq_refl)))) by (try exact Q; unfold inb, len in *; lia). rewrite (emf_avg13 c oc of ff e) by (try assumption; unfold inb, len in *; lia).
    f_equal; f_equal; lia. }
  assert (D2 : forall s y, some (o_flx oc X2 s) = true -> (0 <= y <= len oc X3)%Z -> d1 3 fc ff X2 s (y) (i' oc i) = del1 3 oc of E e (o_s oc X3 + y)%Z (bface oc X2 s) i).
  { intros s y Q Y. unfold d1, del1, i'. rewrite (proj1 (proj2 (proj2 (proj2 (SC s _ _)) eq_refl))) by (try exact Q; unfold inb, len in *; lia). rewrite (emf_avg12 c oc of ff e) by (try assumption; unfold inb, len in *; lia).
    f_equal; f_equal; lia. }
  clear SC SF.
  destruct (plane_hyp c 3 oc of first last X3 X2 X1 P C F) as (H1 & H2 & H3 & H4 & H5 & H6 & H7 & H8 & H9 & H10 & H11 & H12 & H13); try congruence; try reflexivity. { unfold inb, len in *; lia. }
  pose proof (plane (o_s oc X3) (o_e oc X3) (o_s oc X2) (o_e oc X2) (first X3) (last X3) (first X2) (last X2)
     (some (o_flx oc X3 false)) (some (o_flx oc X3 true)) (some (o_flx oc X2 false)) (some (o_flx oc X2 true)) r2 (fun b a => del1 3 oc of E e a b i) j k H1 H2 H3 H4 AJ H5 H6 H7 H8 H9 H10 H11 H12 H13) as PL.
  assert (NB : btw (o_s oc X2) j (o_e oc X2) && btw (o_s oc X3) k (o_e oc X3 + 1) && (o_s oc X3 <=? o_e oc X3)%Z && negb ((k =? o_s oc X3)%Z && some (o_flx oc X3 false)) && negb ((k =? o_e oc X3 + 1)%Z && some (o_flx oc X3 true)) = false).
  { unfold taken in NT. cbn [onface] in NT. rewrite K in NT. rewrite ?andb_true_r in NT. cbn [andb] in NT. unfold inb in NT. unfold btw in *. unfold len in NT. clear - NT H1.
    destruct (some (o_flx oc X3 false)), (some (o_flx oc X3 true)); lia. }
  specialize (PL NB). cbv beta zeta in PL. clear NB H3 H4 H5 H6 H7 H8 H9 H10 H11 H12 H13 C F NT.
  match goal with |- ?l = ?r1 * ind ?b1 ?x1 - ?r1 * ind ?b2 ?x2 => match type of PL with ?r1' * ind ?b1' _ - _ * ind ?b2' _ = _ => replace b1 with b1' by (unfold inb, btw; rewrite ?andb_true_r; cbn [andb]; try reflexivity; lia); replace b2 with b2' by (unfold inb, btw; rewrite ?andb_true_r; cbn [andb]; try reflexivity; lia) end end.
  rewrite PL. clear PL. unfold touch.
  match goal with |- context [if ?b then (o_e oc X3 + 1)%Z else o_e oc X3] => set (la := if b then (o_e oc X3 + 1)%Z else o_e oc X3); assert (LA : (la <= o_e oc X3 + 1)%Z) by (subst la; destruct b; lia) end. clearbody la. rewrite ?andb_true_r. cbn [andb].
  assert (T1 : forall s, ind (some (o_flx oc X3 s) && (k =? bface oc X3 s)%Z && inb oc X2 j) (r2 * d1 3 fc ff X3 s (j' oc j + 1) (i' oc i) - r2 * d1 3 fc ff X3 s (j' oc j) (i' oc i)) = ind (some (o_flx oc X3 s) && btw (o_s oc X2) j (o_e oc X2) && (k =? bface oc X3 s)%Z) (r2 * del1 3 oc of E e k (j + 1)%Z i - r2 * del1 3 oc of E e k j i)).
  { intros s. apply ind_ext; [unfold inb, btw; clear; lia|]. rewrite !andb_true_iff. intros HQ. assert (Q : some (o_flx oc X3 s) = true) by tauto. assert (BB : inb oc X2 j = true) by tauto. assert (I : (k =? bface oc X3 s)%Z = true) by tauto. clear HQ. unfold j'. rewrite !D1 by (try exact Q; unfold inb, len in *; lia).
    replace (o_s oc X2 + (j - o_s oc X2 + 1))%Z with (j + 1)%Z by lia. replace (o_s oc X2 + (j - o_s oc X2))%Z with j by lia. apply Z.eqb_eq in I. rewrite <- I. reflexivity. }
  assert (T2 : forall s, ind (some (o_flx oc X3 s) && (o_e oc X3 <? o_s oc X3)%Z && (k =? bface oc X3 s)%Z && (j =? o_s oc X2 - 1)%Z) (r2 * d1 3 fc ff X3 s (0) (i' oc i)) = ind (some (o_flx oc X3 s) && (o_e oc X3 <? o_s oc X3)%Z && (j =? o_s oc X2 - 1)%Z && (k =? bface oc X3 s)%Z) (r2 * del1 3 oc of E e k (j + 1)%Z i)).
  { intros s. apply ind_ext; [clear; lia|]. rewrite !andb_true_iff. intros HQ. assert (Q : some (o_flx oc X3 s) = true) by tauto. assert (BB : (j =? o_s oc X2 - 1)%Z = true) by tauto. assert (I : (k =? bface oc X3 s)%Z = true) by tauto. clear HQ. rewrite !D1 by (try exact Q; unfold inb, len in *; lia). apply Z.eqb_eq in I. rewrite <- I.
    replace (o_s oc X2 + 0)%Z with (j + 1)%Z by lia. reflexivity. }
  assert (T3 : forall s, ind (some (o_flx oc X3 s) && (o_e oc X3 <? o_s oc X3)%Z && (k =? bface oc X3 s)%Z && (j =? o_e oc X2 + 1)%Z) (r2 * d1 3 fc ff X3 s (len oc X2) (i' oc i)) = ind (some (o_flx oc X3 s) && (o_e oc X3 <? o_s oc X3)%Z && (j =? o_e oc X2 + 1)%Z && (k =? bface oc X3 s)%Z) (r2 * del1 3 oc of E e k j i)).
  { intros s. apply ind_ext; [clear; lia|]. rewrite !andb_true_iff. intros HQ. assert (Q : some (o_flx oc X3 s) = true) by tauto. assert (BB : (j =? o_e oc X2 + 1)%Z = true) by tauto. assert (I : (k =? bface oc X3 s)%Z = true) by tauto. clear HQ. rewrite !D1 by (try exact Q; unfold inb, len in *; lia). apply Z.eqb_eq in I. rewrite <- I.
    replace (o_s oc X2 + len oc X2)%Z with j by (unfold len; lia). reflexivity. }
  assert (T4 : ind (some (o_flx oc X2 false) && btw (o_s oc X3) k la && (j =? side oc X2 false)%Z) (sgn false r2 * d1 3 fc ff X2 false (k' oc k) (i' oc i)) = - ind (some (o_flx oc X2 false) && (j =? o_s oc X2 - 1)%Z && btw (o_s oc X3) k la) (r2 * del1 3 oc of E e k (j + 1)%Z i)).
  { rewrite <- ind_neg. apply ind_ext; [cbn [side]; clear; lia|]. rewrite !andb_true_iff. cbn [side]. intros HQ. assert (Q : some (o_flx oc X2 false) = true) by tauto. assert (BB : (j =? o_s oc X2 - 1)%Z = true) by tauto. assert (I : btw (o_s oc X3) k la = true) by tauto. clear HQ. unfold k'. unfold btw in I. rewrite !D2 by (try exact Q; unfold len in *; lia).
    replace (o_s oc X3 + (k - o_s oc X3))%Z with k by lia. replace (bface oc X2 false) with (j + 1)%Z by (cbn [bface]; lia). cbn [sgn]. ring. }
  assert (T5 : ind (some (o_flx oc X2 true) && btw (o_s oc X3) k la && (j =? side oc X2 true)%Z) (sgn true r2 * d1 3 fc ff X2 true (k' oc k) (i' oc i)) = ind (some (o_flx oc X2 true) && (j =? o_e oc X2 + 1)%Z && btw (o_s oc X3) k la) (r2 * del1 3 oc of E e k j i)).
  { apply ind_ext; [cbn [side]; clear; lia|]. rewrite !andb_true_iff. cbn [side]. intros HQ. assert (Q : some (o_flx oc X2 true) = true) by tauto. assert (BB : (j =? o_e oc X2 + 1)%Z = true) by tauto. assert (I : btw (o_s oc X3) k la = true) by tauto. clear HQ. unfold k'. unfold btw in I. rewrite !D2 by (try exact Q; unfold len in *; lia).
    replace (o_s oc X3 + (k - o_s oc X3))%Z with k by lia. replace (bface oc X2 true) with j by (cbn [bface]; lia). cbn [sgn]. ring. }
  rewrite !T1, !T2, !T3, T4, T5. cbn [bface]. lra.
Qed.
