(** * C10, C11: output file names *)
From Coq Require Import String Ascii NArith ZArith Bool Arith Lia List.
From Verif Require Import CStr CStrFacts FnameModel.
Import ListNotations.

(** ** Specification: [path/]basename[-lev][-dom][.dddd][.id].ext *)
Definition with_slash (p : str) : str :=
  match rev p with
  | c :: _ => if Ascii.eqb c "/"%char then p else p ++ ["/"%char]
  | [] => p
  end.
Definition path_part (path : option str) : str :=
  match path with Some p => with_slash p | None => [] end.
Definition opt (pre : str) (o : option str) : str :=
  match o with Some s => pre ++ s | None => [] end.
Definition name_form (path : option str) (basename : str) (lev dom num id : option str) (ext : str) : str :=
  path_part path ++
  basename ++ opt (S_ "-") lev ++ opt (S_ "-") dom ++ opt (S_ ".") num ++ opt (S_ ".") id ++
  S_ "." ++ ext.
(** [ds] is the number [n] in decimal, zero-padded to at least [w] digits. *)
Definition padded (w : Z) (n : Z) (ds : str) : Prop :=
  Forall (fun c => isdigit c = true) ds /\ atoi ds = n /\ (w <= Z.of_nat (length ds))%Z /\
  ((w < Z.of_nat (length ds))%Z -> forall r, ds <> "0"%char :: r).

Lemma put_ok : forall n b s, length b + length s + 1 <= n -> put n b s = Ok (b ++ s).
Proof. intros. unfold put. rewrite (proj2 (Nat.leb_le _ _)); auto. Qed.

Lemma dec_pad_len : forall w n k, (n < 10 ^ N.of_nat k)%N -> length (dec_pad w n) <= Nat.max w (Nat.max k 1).
Proof.
  intros w n k H. unfold dec_pad. rewrite app_length, repeat_length.
  assert (length (dec_N n) <= Nat.max 1 k) by (apply dec_N_length; auto). lia.
Qed.

Definition number (dlen idump : Z) : option str :=
  if ((0 <? dlen) && (0 <=? idump))%Z then Some (num_str dlen idump) else None.

Lemma fname_form : forall path basename lev dom dlen idump id ext,
  path <> Some [] -> (idump < 10000000000)%Z ->
  ath_fname path basename lev dom dlen idump id ext =
    Ok (name_form path basename lev dom (number dlen idump) id ext) /\
  length (name_form path basename lev dom (number dlen idump) id ext) + 1 <=
    fname_size path basename lev dom dlen id ext.
Proof.
  intros path basename lev dom dlen idump id ext NP HI.
  assert (HN : length (opt (S_ ".") (number dlen idump)) <=
     (if (0 <? dlen)%Z then Z.to_nat (if (10 <? dlen)%Z then dlen else 10) + 1 else 0)).
  { unfold number. destruct (Z.ltb_spec 0 dlen); [|simpl; lia].
    destruct (Z.leb_spec 0 idump); cbn [andb opt]; [|simpl; lia].
    rewrite app_length. change (length (S_ ".")) with 1. unfold num_str.
    assert (L := dec_pad_len (Z.to_nat dlen) (Z.to_N idump) 10).
    assert (X : (Z.to_N idump < 10 ^ N.of_nat 10)%N) by (change (10 ^ N.of_nat 10)%N with 10000000000%N; lia).
    specialize (L X). destruct (Z.ltb_spec 10 dlen); lia. }
  assert (HP : length (path_part path) <= opt_len 1 path).
  { unfold path_part. destruct path as [p|]; simpl; [|lia]. unfold with_slash. destruct (rev p); [lia|].
    destruct (Ascii.eqb _ _); [lia|]. rewrite app_length. simpl; lia. }
  assert (HL : forall o, length (opt (S_ "-") o) = opt_len 1 o) by (intros [o|]; reflexivity).
  assert (HD : forall o, length (opt (S_ ".") o) = opt_len 1 o) by (intros [o|]; reflexivity).
  assert (LEN : length (name_form path basename lev dom (number dlen idump) id ext) + 1 <=
    fname_size path basename lev dom dlen id ext).
  { unfold name_form, fname_size. rewrite !app_length, !HL, (HD id). change (length (S_ ".")) with 1. lia. }
  split; [|exact LEN].
  remember (fname_size path basename lev dom dlen id ext) as size eqn:ES.
  unfold ath_fname. rewrite <- ES.
  unfold name_form in LEN. rewrite !app_length, !HL, (HD id) in LEN. change (length (S_ ".")) with 1 in LEN.
  assert (E1 : put_path size path = Ok (path_part path)).
  { unfold put_path, path_part in *. destruct path as [p|]; [|reflexivity].
    assert (LP : length p <= length (with_slash p)).
    { unfold with_slash. destruct (rev p); [lia|]. destruct (Ascii.eqb _ _); [lia|]. rewrite app_length; lia. }
    rewrite put_ok by (simpl; lia). cbn [app bind]. unfold with_slash in LEN |- *.
    destruct (rev p) as [|c r] eqn:ER.
    - apply (f_equal (@rev ascii)) in ER. rewrite rev_involutive in ER. simpl in ER. congruence.
    - unfold chSLASH. destruct (Ascii.eqb c "/"); [reflexivity|]. rewrite app_length in LEN. apply put_ok.
      simpl in LEN |- *. lia. }
  rewrite E1. cbn [bind]. clear E1.
  remember (path_part path) as pre.
  rewrite put_ok by lia. cbn [bind].
  assert (PD : forall o b, length b + opt_len 1 o + 1 <= size -> put_dash size b o = Ok (b ++ opt (S_ "-") o)).
  { intros [s|] b L; cbn [put_dash opt]; [|rewrite app_nil_r; reflexivity].
    simpl in L. rewrite put_ok by (simpl; lia). cbn [bind]. rewrite put_ok by (rewrite app_length; simpl; lia).
    rewrite <- app_assoc. reflexivity. }
  rewrite PD by (rewrite app_length; lia). cbn [bind].
  rewrite PD by (rewrite !app_length, HL; lia). cbn [bind].
  assert (EN : (if ((0 <? dlen) && (0 <=? idump))%Z then chDOT :: num_str dlen idump else []) =
               opt (S_ ".") (number dlen idump)).
  { unfold number. destruct (_ && _)%bool; reflexivity. }
  rewrite EN. unfold name_form. rewrite <- Heqpre. destruct id as [i|]; cbn [opt] in *; simpl opt_len in LEN.
  - rewrite put_ok.
    + f_equal. rewrite <- !app_assoc. reflexivity.
    + rewrite !app_length, !HL. cbn [length]. rewrite app_length. cbn [length]. lia.
  - rewrite put_ok.
    + f_equal. rewrite <- !app_assoc. reflexivity.
    + rewrite !app_length, !HL. cbn [length]. lia.
Qed.

Lemma dec_N_lead : forall n r, dec_N n = "0"%char :: r -> n = 0%N /\ r = [].
Proof.
  (* a number with a leading 0 digit and further digits would have a value smaller than its length allows *)
  assert (G : forall f n acc, (n < 2 ^ N.of_nat f)%N -> (0 < n)%N -> 0 < f ->
     exists d r, digits_fuel f n acc = digit_char d :: r /\ (0 < d < 10)%N).
  { induction f as [|f IH]; intros n acc Hn Hp Hf; [lia|]. cbn [digits_fuel].
    destruct (N.ltb_spec n 10) as [L|L]; [exists n, acc; split; [reflexivity|lia]|].
    assert (B : (2 ^ N.of_nat (S f) = 2 * 2 ^ N.of_nat f)%N) by (rewrite Nat2N.inj_succ, N.pow_succ_r'; reflexivity).
    destruct f as [|f]; [change (2 ^ N.of_nat 1)%N with 2%N in Hn; lia|].
    apply IH; [|apply N.div_str_pos; lia|lia].
    apply N.div_lt_upper_bound; lia. }
  intros n r H. destruct (N.eq_0_gt_0_cases n) as [->|P].
  - vm_compute in H. inversion H. auto.
  - destruct (G (S (N.size_nat n)) n [] (size_nat_bound n) P ltac:(lia)) as (d & r' & E & D).
    unfold dec_N in H. rewrite H in E. inversion E as [[E1 E2]].
    assert (N_of_ascii (digit_char d) = 48 + d)%N by (apply digit_char_N; lia).
    rewrite <- E1 in H0. change (N_of_ascii "0"%char) with 48%N in H0. lia.
Qed.

Lemma num_str_padded : forall w n, (0 < w)%Z -> (0 <= n)%Z -> padded w n (num_str w n).
Proof.
  intros w n Hw Hn. unfold padded, num_str. split; [apply dec_pad_digits|]. split; [|split].
  - assert (D := dec_pad_digits (Z.to_nat w) (Z.to_N n)). assert (V := dec_pad_value (Z.to_nat w) (Z.to_N n)).
    unfold atoi. destruct (dec_pad (Z.to_nat w) (Z.to_N n)) as [|c l] eqn:E.
    + exfalso. unfold dec_pad in E. apply app_eq_nil in E. destruct E as [_ E]. apply dec_N_nonempty in E. auto.
    + inversion D; subst. cbn [skip_space]. rewrite (digit_not_space c) by auto.
      destruct (Ascii.eqb_spec c "-"%char) as [->|]; [discriminate|].
      destruct (Ascii.eqb_spec c "+"%char) as [->|]; [discriminate|]. rewrite V. lia.
  - unfold dec_pad. rewrite app_length, repeat_length. lia.
  - intros L r E. unfold dec_pad in L, E. rewrite app_length, repeat_length in L.
    replace (Z.to_nat w - length (dec_N (Z.to_N n))) with 0 in E by lia. cbn [repeat app] in E.
    destruct (dec_N_lead _ _ E) as [E1 E2]. subst. rewrite E in L. simpl in L. lia.
Qed.

(** ** C10 *)
Theorem C10_name_fits_and_has_form : forall path basename lev dom dlen idump id ext,
  path <> Some [] -> (idump < 2 ^ 31)%Z ->
  exists s num,
    ath_fname path basename lev dom dlen idump id ext = Ok s /\
    s = name_form path basename lev dom num id ext /\
    length s + 1 <= fname_size path basename lev dom dlen id ext /\
    ((0 < dlen /\ 0 <= idump)%Z -> exists ds, num = Some ds /\ padded dlen idump ds) /\
    (~ (0 < dlen /\ 0 <= idump)%Z -> num = None).
Proof.
  intros path basename lev dom dlen idump id ext NP HI.
  destruct (fname_form path basename lev dom dlen idump id ext NP) as [A B]; [lia|].
  exists (name_form path basename lev dom (number dlen idump) id ext), (number dlen idump).
  split; [exact A|]. split; [reflexivity|]. split; [exact B|]. unfold number. split.
  - intros [D I]. rewrite (proj2 (Z.ltb_lt _ _) D), (proj2 (Z.leb_le _ _) I). cbn [andb].
    exists (num_str dlen idump). split; [reflexivity|]. apply num_str_padded; auto.
  - intros N. destruct (Z.ltb_spec 0 dlen); [|reflexivity]. destruct (Z.leb_spec 0 idump); [|reflexivity].
    elim N; auto.
Qed.
Print Assumptions C10_name_fits_and_has_form.
Example C10_example :
  ath_fname (Some (S_ "lev1")) (S_ "Sod") (Some (S_ "lev1")) None 4 17 (Some (S_ "d")) (S_ "vtk") =
    Ok (S_ "lev1/Sod-lev1.0017.d.vtk") /\
  name_form (Some (S_ "lev1")) (S_ "Sod") (Some (S_ "lev1")) None (Some (S_ "0017")) (Some (S_ "d")) (S_ "vtk") =
    S_ "lev1/Sod-lev1.0017.d.vtk".
Proof. split; vm_compute; reflexivity. Qed.

(** An empty path makes the code read the byte before its buffer. *)
Theorem C10_empty_path_refuted : forall basename lev dom dlen idump id ext,
  ath_fname (Some []) basename lev dom dlen idump id ext = UB.
Proof.
  intros. unfold ath_fname, put_path. rewrite put_ok; [reflexivity|]. unfold fname_size. simpl. lia.
Qed.
Print Assumptions C10_empty_path_refuted.

(** ** C11 *)
Lemma opt_inj : forall pre a b, pre <> [] -> opt pre a = opt pre b -> a = b.
Proof.
  intros pre [a|] [b|] N E; cbn [opt] in E; auto.
  - f_equal. eapply app_inv_head; eauto.
  - apply app_eq_nil in E. tauto.
  - symmetry in E. apply app_eq_nil in E. tauto.
Qed.
Lemma name_cut : forall path basename lev dom num id ext,
  name_form path basename lev dom num id ext =
  (path_part path ++ basename ++ opt (S_ "-") lev) ++
   opt (S_ "-") dom ++ opt (S_ ".") num ++ (opt (S_ ".") id ++ S_ "." ++ ext).
Proof. intros. unfold name_form. rewrite <- !app_assoc. reflexivity. Qed.

Theorem C11_dumps_distinct : forall path basename lev dom dlen id ext i j,
  path <> Some [] -> (0 < dlen)%Z -> (0 <= i < 2 ^ 31)%Z -> (0 <= j < 2 ^ 31)%Z -> i <> j ->
  exists s t, ath_fname path basename lev dom dlen i id ext = Ok s /\
              ath_fname path basename lev dom dlen j id ext = Ok t /\ s <> t.
Proof.
  intros path basename lev dom dlen id ext i j NP D I J NE.
  destruct (fname_form path basename lev dom dlen i id ext NP) as [A _]; [lia|].
  destruct (fname_form path basename lev dom dlen j id ext NP) as [B _]; [lia|].
  eexists _, _. split; [exact A|]. split; [exact B|]. intros E. apply NE.
  rewrite !name_cut in E. apply app_inv_head in E. apply app_inv_head in E. apply app_inv_tail in E.
  apply opt_inj in E; [|discriminate]. unfold number in E.
  rewrite (proj2 (Z.ltb_lt _ _) D), (proj2 (Z.leb_le 0 i)), (proj2 (Z.leb_le 0 j)) in E by lia.
  cbn [andb] in E. injection E as E. apply dec_pad_inj in E. lia.
Qed.
Print Assumptions C11_dumps_distinct.

(** Different level or domain strings give different names. *)
Theorem C11_components_distinct : forall path basename lev dom lev' dom' dlen idump id ext s t,
  path <> Some [] -> (idump < 2 ^ 31)%Z ->
  ath_fname path basename lev dom dlen idump id ext = Ok s ->
  (ath_fname path basename lev' dom dlen idump id ext = Ok t -> lev <> lev' -> s <> t) /\
  (ath_fname path basename lev dom' dlen idump id ext = Ok t -> dom <> dom' -> s <> t).
Proof.
  intros path basename lev dom lev' dom' dlen idump id ext s t NP HI A.
  destruct (fname_form path basename lev dom dlen idump id ext NP) as [A' _]; [lia|].
  rewrite A' in A. injection A as <-.
  destruct (fname_form path basename lev' dom dlen idump id ext NP) as [B _]; [lia|].
  destruct (fname_form path basename lev dom' dlen idump id ext NP) as [C _]; [lia|].
  rewrite B, C. split; intros T NE; injection T as <-; intros E; apply NE.
  - unfold name_form in E. apply app_inv_head in E. apply app_inv_head in E.
    apply app_inv_tail in E. apply opt_inj in E; [auto|discriminate].
  - rewrite !name_cut in E. apply app_inv_head in E. apply app_inv_tail in E. apply opt_inj in E; [auto|discriminate].
Qed.
Print Assumptions C11_components_distinct.

(** The Domains of one dump: with two levels each having two Domains, two Domains
    of the second level are written to the same file, because the domain string
    of the previous level is not reset. *)
Theorem C11_domains_distinct_refuted : exists l n1 n2 f,
  dump_files (S_ "Sod") (S_ "vtk") 4 0 [1; 2; 2] = Ok l /\
  In (2, n1, f) l /\ In (2, n2, f) l /\ n1 <> n2.
Proof.
  eexists _, 0, 1, (S_ "lev2/Sod-lev2-dom1.0000.vtk").
  split; [vm_compute; reflexivity|]. split; [|split; [|discriminate]]; simpl; tauto.
Qed.
Print Assumptions C11_domains_distinct_refuted.

(** When at most one level has several Domains, all files of a dump differ. *)
Definition several (dpl : list nat) (l : nat) : Prop := 2 <= nth l dpl 0.

Lemma NoDup_app_intro : forall (A : Type) (a b : list A), NoDup a -> NoDup b ->
  (forall x, In x a -> ~ In x b) -> NoDup (a ++ b).
Proof.
  induction a as [|x a IH]; intros b NA NB D; auto. inversion NA; subst. simpl. constructor.
  - intros I. apply in_app_or in I. destruct I as [I|I]; [auto|apply (D x); [left; auto|auto]].
  - apply IH; auto. intros y Hy. apply D. right; auto.
Qed.
Lemma NoDup_map_inj_in : forall (A B : Type) (f : A -> B) l, NoDup l ->
  (forall x y, In x l -> In y l -> f x = f y -> x = y) -> NoDup (map f l).
Proof.
  induction l as [|x l IH]; intros N I; simpl; [constructor|]. inversion N; subst. constructor.
  - intros X. apply in_map_iff in X. destruct X as (y & E & HY). assert (x = y) by (apply I; simpl; auto).
    subst; auto.
  - apply IH; auto. intros; apply I; simpl; auto.
Qed.

Section Doms.
Variables (base ext : str) (dlen num : Z).
Hypothesis HNUM : (num < 2 ^ 31)%Z.

Definition levopt (nl : nat) : option str := if 0 <? nl then Some (lev_name nl) else None.
Definition domopt (stale : option str) (nd : nat) : option str :=
  if 0 <? nd then Some (dom_name nd) else stale.
Definition nm (nl : nat) (pdom : option str) : str :=
  name_form (levopt nl) base (levopt nl) pdom (number dlen num) None ext.

Lemma dump_one_ok : forall nl nd pl pd f st', (nl = 0 -> pl = None) ->
  dump_one base ext dlen num nl nd (pl, pd) = Ok (f, st') ->
  f = nm nl (domopt pd nd) /\ st' = (levopt nl, domopt pd nd).
Proof.
  intros nl nd pl pd f st' PL H. unfold dump_one in H.
  assert (A : forall x, (if 0 <? nl then (s <- put8 (lev_name nl);; Ok (Some s)) else Ok (fst (pl, pd))) = Ok x ->
     x = levopt nl).
  { intros x X. unfold levopt. destruct (Nat.ltb_spec 0 nl).
    - unfold put8 in X. destruct (_ <=? 8); cbn [bind] in X; inversion X; auto.
    - simpl in X. rewrite PL in X by lia. inversion X; auto. }
  destruct (if 0 <? nl then _ else _) as [x| |] eqn:E; cbn [bind] in H; try discriminate.
  specialize (A x eq_refl). subst x. clear E.
  assert (B : forall x, (if 0 <? nd then (s <- put8 (dom_name nd);; Ok (Some s)) else Ok (snd (pl, pd))) = Ok x ->
     x = domopt pd nd).
  { intros x X. unfold domopt. destruct (Nat.ltb_spec 0 nd).
    - unfold put8 in X. destruct (_ <=? 8); cbn [bind] in X; inversion X; auto.
    - simpl in X. inversion X; auto. }
  destruct (if 0 <? nd then _ else _) as [x| |] eqn:E; cbn [bind] in H; try discriminate.
  specialize (B x eq_refl). subst x. clear E.
  destruct (fname_form (levopt nl) base (levopt nl) (domopt pd nd) dlen num None ext) as [F _].
  - unfold levopt. destruct (0 <? nl); discriminate.
  - lia.
  - rewrite F in H. cbn [bind] in H. inversion H; subst. auto.
Qed.

Lemma dump_doms_ok : forall n nl nd pl pd r st', (nl = 0 -> pl = None) ->
  dump_doms base ext dlen num nl nd n (pl, pd) = Ok (r, st') ->
  r = map (fun k => (nl, k, nm nl (domopt pd k))) (seq nd n) /\
  (nl = 0 -> fst st' = None) /\
  (n <= 1 -> nd = 0 -> snd st' = pd).
Proof.
  induction n as [|n IH]; intros nl nd pl pd r st' PL H; cbn [dump_doms] in H.
  - inversion H; subst. simpl. repeat split; auto; intros; lia.
  - destruct (dump_one _ _ _ _ _ _ _) as [[f st1]| |] eqn:E; cbn [bind] in H; try discriminate.
    apply dump_one_ok in E; auto. destruct E as [-> ->].
    destruct (dump_doms _ _ _ _ _ _ _ _) as [[r2 st2]| |] eqn:E; cbn [bind] in H; try discriminate.
    inversion H; subst. clear H.
    assert (E' := E). apply IH in E; [|intros ->; reflexivity]. destruct E as (-> & A & B).
    split; [|split].
    + cbn [seq map]. f_equal. apply map_ext_in. intros k Hk. apply in_seq in Hk.
      unfold domopt. destruct (Nat.ltb_spec 0 k); [reflexivity|lia].
    + exact A.
    + intros N1 ->. assert (n = 0) by lia. subst n. inversion E'; subst. reflexivity.
Qed.

Lemma digits_sep : forall a b c r r', Forall (fun x => isdigit x = true) a ->
  Forall (fun x => isdigit x = true) b -> isdigit c = false ->
  a ++ c :: r = b ++ c :: r' -> a = b.
Proof.
  induction a as [|x a IH]; intros [|y b] c r r' A B C E; auto; simpl in E; inversion E; subst.
  - inversion B; congruence.
  - inversion A; congruence.
  - inversion A; inversion B; subst. f_equal. eapply IH; eauto.
Qed.
Lemma dec_N_inj : forall n m, dec_N n = dec_N m -> n = m.
Proof. intros n m E. assert (A := atoi_digits_dec_N n). rewrite E, atoi_digits_dec_N in A. lia. Qed.
Lemma slash_lev : forall n, with_slash (lev_name n) = lev_name n ++ ["/"%char].
Proof.
  intros n. unfold with_slash. destruct (rev (lev_name n)) as [|c r] eqn:E.
  - apply (f_equal (@length _)) in E. rewrite rev_length in E. simpl in E. lia.
  - destruct (Ascii.eqb_spec c "/"%char) as [->|]; [|reflexivity]. exfalso.
    assert (I : In "/"%char (lev_name n)) by (apply in_rev; rewrite E; left; auto).
    unfold lev_name in I. apply in_app_or in I. destruct I as [I|I].
    + vm_compute in I. destruct I as [I|[I|[I|[]]]]; discriminate.
    + assert (D := dec_N_digits (N.of_nat n)). rewrite Forall_forall in D. apply D in I. discriminate.
Qed.

Lemma nm_level : forall l l' d d', l <> l' -> (l = 0 -> d = None) -> (l' = 0 -> d' = None) ->
  nm l d <> nm l' d'.
Proof.
  assert (Z : forall l d, l <> 0 -> nm 0 None <> nm l d).
  { intros l d L E. apply (f_equal (@length _)) in E. unfold nm, name_form, levopt, path_part in E.
    destruct (Nat.ltb_spec 0 l); [|lia]. change (0 <? 0) with false in E. cbv iota in E.
    rewrite slash_lev in E. rewrite !app_length in E. cbn [opt length] in E. rewrite app_length in E.
    cbn [length] in E. lia. }
  intros l l' d d' NE D D' E.
  destruct (Nat.eq_dec l 0) as [->|L]; [rewrite D in E by auto; eapply Z; [|exact E]; lia|].
  destruct (Nat.eq_dec l' 0) as [->|L']; [rewrite D' in E by auto; symmetry in E; eapply Z; [|exact E]; lia|].
  unfold nm, name_form, levopt, path_part in E.
  destruct (Nat.ltb_spec 0 l); [|lia]. destruct (Nat.ltb_spec 0 l'); [|lia].
  rewrite !slash_lev in E. unfold lev_name at 1 3 in E. rewrite <- !app_assoc in E. apply app_inv_head in E.
  cbn [app] in E. apply digits_sep in E; try apply dec_N_digits; auto. apply dec_N_inj in E. lia.
Qed.
Lemma nm_dom : forall l d d', nm l d = nm l d' -> d = d'.
Proof.
  intros l d d' E. unfold nm in E. rewrite !name_cut in E. apply app_inv_head in E. apply app_inv_tail in E.
  apply opt_inj in E; [auto|discriminate].
Qed.
Lemma dom_name_inj : forall a b, dom_name a = dom_name b -> a = b.
Proof. intros a b E. unfold dom_name in E. apply app_inv_head in E. apply dec_N_inj in E. lia. Qed.

Lemma dump_levels_ok : forall dpl nl pl pd l, (nl = 0 -> pl = None /\ pd = None /\ nth 0 dpl 0 <= 1) ->
  dump_levels base ext dlen num nl dpl (pl, pd) = Ok l ->
  (forall i j, several dpl i -> several dpl j -> i = j) ->
  (pd <> None -> forall i, ~ several dpl i) ->
  map fst l = flat_map (fun k => map (fun d => (nl + k, d)) (seq 0 (nth k dpl 0))) (seq 0 (length dpl)) /\
  (forall a d f, In (a, d, f) l -> nl <= a /\ exists p, f = nm a p /\ (a = 0 -> p = None)) /\
  NoDup (map snd l).
Proof.
  induction dpl as [|n dpl IH]; intros nl pl pd l PL H S1 S2; cbn [dump_levels] in H.
  - inversion H; subst. simpl. split; [reflexivity|]. split; [intros ? ? ? []|constructor].
  - destruct (dump_doms _ _ _ _ _ _ _ _) as [[a st1]| |] eqn:E; cbn [bind] in H; try discriminate.
    apply dump_doms_ok in E; [|intros X; apply PL in X; tauto]. destruct E as (-> & A1 & A2).
    destruct (dump_levels _ _ _ _ _ _ _) as [b| |] eqn:E; cbn [bind] in H; try discriminate.
    inversion H; subst. clear H. destruct st1 as [pl1 pd1].
    destruct (IH (S nl) pl1 pd1 b) as (B1 & B2 & B3); auto.
    + intros; lia.
    + intros i j Hi Hj. assert (S i = S j); [|lia]. apply S1; auto.
    + (* either this level had several Domains, or pd1 is pd *)
      intros P i Hi. destruct (Nat.le_gt_cases 2 n) as [L|L].
      * assert (0 = S i) by (apply S1; auto). lia.
      * simpl in A2. rewrite A2 in P by lia. exact (S2 P (S i) Hi).
    + split; [|split].
      * rewrite map_app, map_map, B1. cbn [length seq flat_map nth fst].
        rewrite Nat.add_0_r. f_equal. rewrite <- seq_shift, flat_map_concat_map, flat_map_concat_map, map_map.
        f_equal. apply map_ext. intros k. cbn [nth]. apply map_ext. intros d. f_equal. lia.
      * intros a d f HI. apply in_app_or in HI. destruct HI as [HI|HI].
        -- apply in_map_iff in HI. destruct HI as (k & EQ & HK). inversion EQ; subst. split; [lia|].
           exists (domopt pd d). split; [reflexivity|]. intros ->. destruct (PL eq_refl) as (_ & -> & L).
           apply in_seq in HK. simpl in L. unfold domopt. destruct (Nat.ltb_spec 0 d); [lia|reflexivity].
        -- apply B2 in HI. destruct HI as [L P]. split; [lia|exact P].
      * rewrite map_app, map_map. cbn [snd]. apply NoDup_app_intro; auto.
        -- apply NoDup_map_inj_in; [apply seq_NoDup|]. intros x y Hx Hy EQ. apply in_seq in Hx, Hy.
           apply nm_dom in EQ. unfold domopt in EQ.
           destruct (Nat.ltb_spec 0 x), (Nat.ltb_spec 0 y); try lia.
           ++ apply dom_name_inj. congruence.
           ++ assert (S' : several (n :: dpl) 0) by (unfold several; simpl; lia).
              destruct pd as [p|]; [|discriminate]. elim (S2 ltac:(discriminate) 0 S').
           ++ assert (S' : several (n :: dpl) 0) by (unfold several; simpl; lia).
              destruct pd as [p|]; [|discriminate]. elim (S2 ltac:(discriminate) 0 S').
        -- intros f HF HG. apply in_map_iff in HF. destruct HF as (k & EQ & HK). subst f.
           apply in_map_iff in HG. destruct HG as ([[a d] f] & EQ & HG). cbn [snd] in EQ. subst f.
           destruct (B2 _ _ _ HG) as (L & p & EQ & P). symmetry in EQ.
           apply (nm_level a nl p (domopt pd k)); auto; [lia|].
           intros ->. destruct (PL eq_refl) as (_ & -> & L0). apply in_seq in HK. simpl in L0.
           unfold domopt. destruct (Nat.ltb_spec 0 k); [lia|reflexivity].
Qed.
End Doms.

Theorem C11_domains_distinct_partial : forall base ext dlen num dpl l,
  (num < 2 ^ 31)%Z -> nth 0 dpl 0 <= 1 ->                       (* one root Domain *)
  (forall i j, several dpl i -> several dpl j -> i = j) ->
  dump_files base ext dlen num dpl = Ok l ->
  map fst l = flat_map (fun nl => map (fun nd => (nl, nd)) (seq 0 (nth nl dpl 0))) (seq 0 (length dpl)) /\
  NoDup (map snd l).
Proof.
  intros base ext dlen num dpl l HN H0 S1 H.
  destruct (dump_levels_ok base ext dlen num HN dpl 0 None None l) as (A & _ & B); auto.
Qed.
Print Assumptions C11_domains_distinct_partial.
Example C11_example : exists l, dump_files (S_ "Sod") (S_ "vtk") 4 12 [1; 3; 1] = Ok l /\
  (forall i j, several [1; 3; 1] i -> several [1; 3; 1] j -> i = j).
Proof.
  eexists. split; [vm_compute; reflexivity|].
  assert (X : forall i, several [1; 3; 1] i -> i = 1)
    by (intros [|[|[|[|i]]]] H; unfold several in H; simpl in H; lia).
  intros i j A B. rewrite (X i A), (X j B). reflexivity.
Qed.
