(** Restart files: levels, the parameters at the start, and the whole file. *)
From Coq Require Import String Ascii NArith ZArith Bool Arith Lia List.
From Verif Require Import CStr ParModel UtilModel ResModel ResSpec ResFacts ResWrite ResRead ResBack ResAll.
Import ListNotations.
Open Scope Z_scope.

Section Lev.
Context {R : Type} (M : mach R) (c : rcfg).
Hypothesis OK : mach_ok M.
Hypothesis NS : r_nscal c <= 10 ^ 8.

Fixpoint levrel (time dt : R) (b : wide) (l l0 l' : list (option (grid R))) : Prop :=
  match l, l0, l' with
  | [], [], [] => True
  | None :: l, None :: l0, None :: l' => levrel time dt b l l0 l'
  | Some g :: l, Some g0 :: l0, Some g' :: l' =>
      grid_back M c time dt (next_wide c g b) g g0 g' /\ levrel time dt (next_wide c g b) l l0 l'
  | _, _, _ => False
  end.
Lemma levrel_app : forall time dt l l0 l' b k k0 k', levrel time dt b l l0 l' -> levrel time dt (doms_wide c l b) k k0 k' ->
  levrel time dt b (l ++ k) (l0 ++ k0) (l' ++ k').
Proof.
  intros time dt.
  induction l as [|[g|] l IH]; intros [|[g0|] l0] [|[g'|] l'] b k k0 k' A B; cbn in *; try tauto.
  - destruct A. split; auto.
  - auto.
Qed.
(** the table of types is that of the last Grid *)
Definition lastg (prev : option (grid R)) (l : list (option (grid R))) : option (grid R) :=
  fold_left (fun a o => match o with Some g => Some g | None => a end) l prev.
Definition TB (t T0 : glob R) (prev : option (grid R)) (t' : glob R) : Prop :=
  if r_part c then match prev with Some g => types_back c t t' g | None => t' = T0 end else t' = T0.

Lemma read_level_ok : forall m t T0 l l0 prev b t0 line rest, Forall2 same_place l l0 ->
  (forall g, In (Some g) l -> parts_ok c t T0 g) -> kept T0 t0 -> TB t T0 prev t0 ->
  exists r, map_st (read_domain M c m) l0 (b, (t0, (line, doms_text M c t l b ++ rest))) = Ok r /\
    fst (snd r) = doms_wide c l b /\ snd (snd (snd (snd r))) = rest /\
    levrel (m_time m) (m_dt m) b l l0 (fst r) /\ kept T0 (fst (snd (snd r))) /\ TB t T0 (lastg prev l) (fst (snd (snd r))).
Proof.
  intros m t T0 l l0 prev b t0 line rest F. revert prev b t0 line. 
  induction F as [|o o0 l l0 S F IH]; intros prev b t0 line P K T.
  - eexists. split; [reflexivity|]. cbn. auto.
  - destruct o as [g|], o0 as [g0|]; cbn in S; try contradiction.
    + cbn [doms_text map_st doms_wide lastg fold_left]. rewrite <- app_assoc.
      destruct (read_grid_ok M c OK NS m g g0 b t t0 line (doms_text M c t l (next_wide c g b) ++ rest) S) as
        (((g' & b') & (t' & (line' & s'))) & E & Eb & Es & GB & K' & T').
      { intros PC. destruct (P g (or_introl eq_refl) PC) as (A & B & C). split; auto. split; auto.
        destruct K as (K & _). rewrite K. exact C. }
      cbn [fst snd] in *. subst b' s'.
      edestruct (IH (Some g) (next_wide c g b) t' line') as (r & E2 & R1 & R2 & R3 & R4 & R5).
      { intros; apply P; right; auto. }
      { destruct K as (? & ? & ?), K' as (? & ? & ?). repeat split; congruence. }
      { unfold TB in *. destruct (r_part c); congruence. }
      eapply bind_ex.
      { unfold read_domain. cbn [fst snd]. rewrite E. cbn [bind]. reflexivity. }
      cbv beta iota. eapply bind_ex; [exact E2|]. cbv beta iota. destruct r as (ys & s). cbn [fst snd] in *.
      eexists. split; [reflexivity|]. cbn [fst snd levrel]. auto.
    + cbn [doms_text map_st doms_wide lastg fold_left].
      edestruct (IH prev b t0 line) as (r & E2 & R1 & R2 & R3 & R4 & R5); [intros; apply P; right; auto|exact K|exact T|].
      cbn [read_domain bind]. eapply bind_ex; [exact E2|]. cbv beta iota. destruct r as (ys & s). cbn [fst snd] in *.
      eexists. split; [reflexivity|]. cbn [fst snd levrel]. auto.
Qed.
Lemma read_levels_ok : forall m t T0 ls ls0 prev b t0 line rest, Forall2 (Forall2 same_place) ls ls0 ->
  (forall g, In (Some g) (concat ls) -> parts_ok c t T0 g) -> kept T0 t0 -> TB t T0 prev t0 ->
  exists r, map_st (map_st (read_domain M c m)) ls0 (b, (t0, (line, doms_text M c t (concat ls) b ++ rest))) = Ok r /\
    snd (snd (snd (snd r))) = rest /\
    levrel (m_time m) (m_dt m) b (concat ls) (concat ls0) (concat (fst r)) /\
    map (@length _) (fst r) = map (@length _) ls /\
    kept T0 (fst (snd (snd r))) /\ TB t T0 (lastg prev (concat ls)) (fst (snd (snd r))).
Proof.
  intros m t T0 ls ls0 prev b t0 line rest F. revert prev b t0 line.
  induction F as [|l l0 ls ls0 S F IH]; intros prev b t0 line P K T.
  - eexists. split; [reflexivity|]. cbn. repeat (split; [auto; fail|]). exact T.
  - cbn [concat map_st map]. rewrite doms_text_app, <- app_assoc.
    destruct (read_level_ok m t T0 l l0 prev b t0 line (doms_text M c t (concat ls) (doms_wide c l b) ++ rest) S)
      as ((lev & (b1 & (t1 & (line1 & s1)))) & E & Eb & Es & LR & K1 & T1).
    { intros; apply P; cbn; apply in_app_iff; auto. } { exact K. } { exact T. }
    cbn [fst snd] in *. subst b1 s1.
    edestruct (IH (lastg prev l) (doms_wide c l b) t1 line1) as (r & E2 & R1 & R2 & R3 & R4 & R5).
    { intros; apply P; cbn; apply in_app_iff; auto. } { exact K1. } { exact T1. }
    eapply bind_ex; [exact E|]. cbv beta iota. eapply bind_ex; [exact E2|]. cbv beta iota. destruct r as (ys & s). cbn [fst snd] in *.
    eexists. split; [reflexivity|]. cbn [fst snd concat map]. split; [exact R1|]. split; [apply levrel_app; auto|].
    split; [f_equal; auto|]. 2:{ split; [exact R4|]. unfold lastg in *. rewrite fold_left_app. exact R5. }
    clear - LR. revert l0 lev b LR. induction l as [|[g|] l IH]; intros [|[g0|] l0] [|[g'|] lev] b LR; cbn in *; try tauto; f_equal.
    + eapply IH. apply LR.
    + eapply IH. apply LR.
Qed.

(** The head *)
Lemma read_head_ok : forall m m0 t t0 line rest, fits_in 31 (m_nstep m) -> (r_sts c = true -> fits_in 31 (n_sts t)) ->
  exists r, read_head M c m0 t0 (line, head_txt M c t m ++ rest) = Ok r /\ snd (snd r) = rest /\
    (let m' := fst (fst r) in m_nstep m' = m_nstep m /\ m_time m' = m_time m /\ m_dt m' = m_dt m /\
       m_diff m' = (if r_sts c then m_diff m else m_diff m0) /\ m_dom m' = m_dom m0) /\
    (let t' := snd (fst r) in
       t' = Glob (t_n t0) (t_alloc t0) (t_r t0) (t_integ t0) (t_num t0) (t_alam t0)
          (if r_sts c then n_sts t else n_sts t0) (if r_sts c then nu_sts t else nu_sts t0)).
Proof.
  intros m m0 t t0 line rest FN FS. unfold read_head, head_txt.
  assert (CR : codec_ok (cR M) (fun _ => True)) by apply OK.
  assert (CI : codec_ok (cI M) (fits_in 31)) by apply OK.
  rewrite <- !app_assoc.
  change (S_ "N_STEP" ++ [LF] ++ ?x) with (S_ "N_STEP" ++ LF :: x).
  rewrite get_line_ok by plain_tac. cbn [fst]. rewrite prefixb_app. cbn [negb].
  rewrite (fread_ok _ _ _ _ _ _ _ CI FN).
  eapply bind_ex; [apply label_ok; [plain_tac|apply prefixb_app]|]. cbv beta.
  rewrite (fread_ok _ _ _ _ _ _ _ CR I).
  eapply bind_ex; [apply label_ok; [plain_tac|apply prefixb_app]|]. cbv beta.
  rewrite (fread_ok _ _ _ _ _ _ _ CR I).
  destruct (r_sts c).
  - rewrite <- !app_assoc. rewrite (fread_ok _ _ _ _ _ _ _ CR I), (fread_ok _ _ _ _ _ _ _ CI (FS eq_refl)), (fread_ok _ _ _ _ _ _ _ CR I).
    eexists. split; [reflexivity|]. cbn. auto 10.
  - eexists. split; [reflexivity|]. cbn. destruct t0; auto 10.
Qed.
End Lev.

(** ** Skipping the parameters *)
Lemma fgets_n_in : forall n p rest, exists p1 p2, p ++ [LF] = p1 ++ p2 /\
  fgets_n n ((p ++ [LF]) ++ rest) = (p1, p2 ++ rest) /\ (p2 = [] \/ exists q, p2 = q ++ [LF]) /\ (n <> 0%nat -> p1 <> []).
Proof.
  induction n as [|n IH]; intros p rest.
  - exists [], (p ++ [LF]). cbn. split; [auto|]. split; [destruct (p ++ [LF]); reflexivity|]. split; [right; eauto|congruence].
  - destruct p as [|x p].
    + exists [LF], []. cbn. repeat split; auto. discriminate.
    + cbn [app fgets_n]. destruct (Ascii.eqb x LF) eqn:E.
      * apply Ascii.eqb_eq in E. subst x. exists [LF], (p ++ [LF]). repeat split; eauto. discriminate.
      * destruct (IH p rest) as (p1 & p2 & A & B & C & _). rewrite B. exists (x :: p1), p2.
        cbn [app]. rewrite A. repeat split; auto. discriminate.
Qed.
Lemma prefixb_sub : forall a b, prefixb a b = true -> exists y, b = a ++ y.
Proof.
  induction a as [|x a IH]; intros b H; [exists b; reflexivity|].
  destruct b as [|y b]; [discriminate|]. cbn in H. apply andb_prop in H. destruct H as (E & H).
  apply Ascii.eqb_eq in E. subst. destruct (IH b H) as (z & ->). exists z. reflexivity.
Qed.
Lemma skip_ok : forall fuel pre rest, (pre = [] \/ exists q, pre = q ++ [LF]) -> ~ has_sub PAR_END pre ->
  (length pre <= fuel)%nat ->
  skip_par fuel (pre ++ PAR_END ++ [LF] ++ rest) = Returns (Ok (PAR_END ++ [LF], rest)).
Proof.
  assert (END : forall fuel rest, skip_par fuel (PAR_END ++ [LF] ++ rest) = Returns (Ok (PAR_END ++ [LF], rest))).
  { intros fuel rest. assert (E : fgets (PAR_END ++ [LF] ++ rest) = Some (PAR_END ++ [LF], rest)).
    { pose proof (get_line_ok PAR_END [] rest) as G. unfold get_line in G. cbn [snd] in G.
      change (PAR_END ++ LF :: rest) with (PAR_END ++ [LF] ++ rest) in G.
      destruct (fgets (PAR_END ++ [LF] ++ rest)) as [(l & r)|] eqn:F; [|discriminate].
      rewrite <- G by plain_tac. reflexivity. }
    destruct fuel; cbn [skip_par]; rewrite E; rewrite prefixb_app; reflexivity. }
  induction fuel as [|fuel IH]; intros pre rest PE NS LE.
  - destruct pre as [|x pre]; [|cbn in LE; lia]. apply END.
  - destruct PE as [->|(q & ->)]; [apply END|].
    destruct (fgets_n_in (MAXLEN - 1) q (PAR_END ++ [LF] ++ rest)) as (p1 & p2 & A & B & C & D).
    assert (D' : p1 <> []) by (apply D; discriminate).
    assert (F : fgets ((q ++ [LF]) ++ PAR_END ++ [LF] ++ rest) = Some (p1, p2 ++ PAR_END ++ [LF] ++ rest)).
    { rewrite <- B. unfold fgets. destruct ((q ++ [LF]) ++ PAR_END ++ [LF] ++ rest) eqn:E; [destruct q; discriminate|reflexivity]. }
    cbn [skip_par]. rewrite F.
    destruct (prefixb PAR_END p1) eqn:P.
    + exfalso. apply NS. destruct (prefixb_sub _ _ P) as (y & ->). exists [], (y ++ p2). rewrite A, <- app_assoc. reflexivity.
    + apply IH; auto.
      * intros (u & v & ->). apply NS. exists (p1 ++ u), v. rewrite A, <- app_assoc. reflexivity.
      * rewrite A, app_length in LE. destruct p1; [congruence|]. cbn in LE. lia.
Qed.
Lemma dump_ends : forall bs, flat_map dump_block bs = [] \/ exists q, flat_map dump_block bs = q ++ [LF].
Proof.
  intros bs. destruct bs as [|b bs] using rev_ind; [left; reflexivity|right].
  rewrite flat_map_app. cbn [flat_map]. rewrite app_nil_r. unfold dump_block.
  eexists. rewrite !app_comm_cons, !app_assoc. reflexivity.
Qed.
