(** Restart files: Grids, levels and the whole file. *)
From Coq Require Import String Ascii NArith ZArith Bool Arith Lia List.
From Verif Require Import CStr CStrFacts ParModel UtilModel ResModel ResSpec ResFacts ResWrite ResRead ResBack.
Import ListNotations.
Open Scope Z_scope.

Section All.
Context {R : Type} (M : mach R) (c : rcfg).
Hypothesis OK : mach_ok M.
Hypothesis NS : r_nscal c <= 10 ^ 8.

Lemma scalar_plain : forall n, 0 <= n < 10 ^ 8 -> plain (scalar_label n).
Proof.
  intros n H. unfold scalar_label, plain.
  assert (DZ : dec_Z n = dec_N (Z.to_N n)) by (destruct n; auto; lia). rewrite DZ. split.
  - rewrite in_app_iff. intros [X|X]; [vm_compute in X; intuition discriminate|].
    pose proof (dec_N_digits (Z.to_N n)) as D. rewrite Forall_forall in D. specialize (D _ X). discriminate.
  - rewrite app_length.
    pose proof (dec_N_length 8 (Z.to_N n)) as D. change (length (S_ "SCALAR ")) with 7%nat.
    assert (length (dec_N (Z.to_N n)) <= 8)%nat by (apply D; lia). lia.
Qed.
Lemma prefix_firstn : forall n a b, prefixb (firstn n a) (a ++ b) = true.
Proof. intros n a b. rewrite <- (firstn_skipn n a) at 2. rewrite <- app_assoc. apply prefixb_app. Qed.

Definition scal_fld (n : Z) (f : fld) : Prop := exists k, f = FS k /\ 0 <= k < n.

Lemma read_scalars_ok : forall g l u0 line rest, (forall n, In n l -> 0 <= n < 10 ^ 8) ->
  exists us, fold_left (fun s n => us <- s;; read_fld M (firstn 8 (scalar_label n)) (FS n) (g_ks g) (g_ke g) (g_js g) (g_je g) (g_is g) (g_ie g) us)
      l (Ok (u0, (line, flat_map (fun n => cells_text M (scalar_label n) (FS n) g) l ++ rest))) = Ok us /\
    snd (snd us) = rest /\
    (forall n, In n l -> forall k j i, zone g 0 0 0 k j i -> fst us (FS n) k j i = g_u g (FS n) k j i) /\
    (forall f k j i, ~ (exists n, f = FS n /\ In n l /\ zone g 0 0 0 k j i) -> fst us f k j i = u0 f k j i).
Proof.
  intros g l. induction l as [|n l IH]; intros u0 line rest B.
  - eexists. split; [reflexivity|]. cbn. split; [reflexivity|]. split; [intros ? []|auto].
  - cbn [flat_map]. rewrite <- app_assoc.
    destruct (read_fld_ok M OK (firstn 8 (scalar_label n)) (scalar_label n) (FS n) (g_ks g) (g_ke g) (g_js g) (g_je g) (g_is g) (g_ie g)
       (g_u g) u0 line (flat_map (fun n => cells_text M (scalar_label n) (FS n) g) l ++ rest)) as (u1 & E1 & O1 & O1').
    { apply scalar_plain. apply B. left; auto. } { apply prefix_firstn. }
    destruct (IH u1 (scalar_label n ++ [LF]) rest) as (us & E & S & A & F); [intros; apply B; right; auto|].
    exists us. split; [eapply fold_step; [exact E1|exact E]|]. split; [exact S|]. unfold zone in *. split.
    + intros n' [<-|Hn] k j i Z; [|auto]. destruct (in_dec Z.eq_dec n l) as [Y|Y]; [apply A; auto|].
      rewrite F by (intros (n' & X & Y' & _); inversion X; subst; auto). apply O1. apply cells_in. lia.
    + intros f k j i N. rewrite F by (intros (n' & X & Y & Z); apply N; exists n'; cbn; auto).
      apply O1'. intros (-> & X). apply N. exists n. apply cells_in in X. cbn. split; [auto|]. split; [auto|lia].
Qed.

(** One Grid *)
Definition parts_ok (t t0 : glob R) (g : grid R) : Prop :=
  r_part c = true -> glob_fits c t /\ grid_fits c t g /\ t_n t <= t_alloc t0.
Definition kept (t0 t' : glob R) : Prop := t_alloc t' = t_alloc t0 /\ n_sts t' = n_sts t0 /\ nu_sts t' = nu_sts t0.
Lemma read_grid_ok : forall m g g0 b t t0 line rest, same_box g g0 -> parts_ok t t0 g ->
  exists r, read_grid M c m g0 b (t0, (line, grid_text M c t g b ++ rest)) = Ok r /\
    snd (fst r) = next_wide c g b /\ snd (snd (snd r)) = rest /\
    grid_back M c (m_time m) (m_dt m) (next_wide c g b) g g0 (fst (fst r)) /\
    kept t0 (fst (snd r)) /\ (if r_part c then types_back c t (fst (snd r)) g else fst (snd r) = t0).
Proof.
  intros m g g0 b t t0 line rest SB PO. pose proof SB as SB'. unfold same_box in SB'.
  injection SB' as B1 B2 B3 B4 B5 B6.
  unfold read_grid, grid_text. cbv beta zeta.
  change (widen (set_clock (m_time m) (m_dt m) g0) b) with (widen g0 b).
  change (g_u (set_clock (m_time m) (m_dt m) g0)) with (g_u g0).
  change (g_ks (set_clock (m_time m) (m_dt m) g0)) with (g_ks g0). change (g_ke (set_clock (m_time m) (m_dt m) g0)) with (g_ke g0).
  change (g_js (set_clock (m_time m) (m_dt m) g0)) with (g_js g0). change (g_je (set_clock (m_time m) (m_dt m) g0)) with (g_je g0).
  change (g_is (set_clock (m_time m) (m_dt m) g0)) with (g_is g0). change (g_ie (set_clock (m_time m) (m_dt m) g0)) with (g_ie g0).
  assert (WB : widen g0 b = widen g b) by (unfold widen; rewrite B1, B2, B3, B4, B5, B6; reflexivity).
  rewrite WB. rewrite <- B1, <- B2, <- B3, <- B4, <- B5, <- B6, <- !app_assoc.
  edestruct (read_fld_ok M OK (S_ "DENSITY") (S_ "DENSITY") FD) as (u1 & E1 & O1 & O1'); [plain_tac|reflexivity|].
  eapply bind_ex; [exact E1|]. cbv beta. clear E1.
  edestruct (read_fld_ok M OK (S_ "1-MOMENTUM") (S_ "1-MOMENTUM") FM1) as (u2 & E1 & O2 & O2'); [plain_tac|reflexivity|].
  eapply bind_ex; [exact E1|]. cbv beta. clear E1.
  edestruct (read_fld_ok M OK (S_ "2-MOMENTUM") (S_ "2-MOMENTUM") FM2) as (u3 & E1 & O3 & O3'); [plain_tac|reflexivity|].
  eapply bind_ex; [exact E1|]. cbv beta. clear E1.
  edestruct (read_fld_ok M OK (S_ "3-MOMENTUM") (S_ "3-MOMENTUM") FM3) as (u4 & E1 & O4 & O4'); [plain_tac|reflexivity|].
  eapply bind_ex; [exact E1|]. cbv beta. clear E1.
  set (T1 := (if r_mhd c then field_text M g (widen g b) else []) ++ _).
  set (l4 := S_ "3-MOMENTUM" ++ [LF]).
  assert (W : exists us, (if r_baro c then Ok (u4, (l4, (if r_baro c then [] else cells_text M (S_ "ENERGY") FE g) ++ T1)) else
       read_fld M (S_ "ENERGY") FE (g_ks g) (g_ke g) (g_js g) (g_je g) (g_is g) (g_ie g) 
         (u4, (l4, (if r_baro c then [] else cells_text M (S_ "ENERGY") FE g) ++ T1))) = Ok us /\
     (snd (snd us) = T1 /\ (forall k j i, r_baro c = false -> zone g 0 0 0 k j i -> fst us FE k j i = g_u g FE k j i) /\
     (forall f k j i, ~ (r_baro c = false /\ f = FE /\ zone g 0 0 0 k j i) -> fst us f k j i = u4 f k j i))).
  { destruct (r_baro c).
    - eexists. split; [reflexivity|]. split; [reflexivity|]. split; [discriminate|auto].
    - edestruct (read_fld_ok M OK (S_ "ENERGY") (S_ "ENERGY") FE) as (u5 & E1 & O5 & O5'); [plain_tac|reflexivity|].
      eexists. split; [exact E1|]. split; [reflexivity|]. unfold zone. split.
      + intros k j i _ Z. apply O5. apply cells_in. lia.
      + intros f k j i N. apply O5'. intros (-> & X). apply N. split; auto. split; auto. apply cells_in in X. lia. }
  destruct W as ((u5 & (l5 & s5)) & E5 & S5 & O5 & O5'). cbn [fst snd] in S5, O5, O5'. subst s5.
  eapply bind_ex; [exact E5|]. clear E5. cbv beta. subst T1.
  set (T2 := flat_map _ _ ++ _). fold (next_wide c g b).
  assert (W : exists us, (if r_mhd c then read_field M (set_clock (m_time m) (m_dt m) g0) (next_wide c g b) (u5, (l5,
        (if r_mhd c then field_text M g (widen g b) else []) ++ T2)) else
       Ok (u5, (l5, (if r_mhd c then field_text M g (widen g b) else []) ++ T2))) = Ok us /\
     (snd (snd us) = T2 /\
     (r_mhd c = true ->
     (forall k j i, zone g 0 0 (b2z (w1 (next_wide c g b))) k j i -> fst us FB1i k j i = g_u g FB1i k j i) /\
     (forall k j i, zone g 0 (b2z (w2 (next_wide c g b))) 0 k j i -> fst us FB2i k j i = g_u g FB2i k j i) /\
     (forall k j i, zone g (b2z (w3 (next_wide c g b))) 0 0 k j i -> fst us FB3i k j i = g_u g FB3i k j i) /\
     centred M (next_wide c g b) g (fst us)) /\
     (forall f k j i,
       ~ (r_mhd c = true /\ (f = FB1c \/ f = FB2c \/ f = FB3c) /\ zone g 0 0 0 k j i) ->
       ~ (r_mhd c = true /\ f = FB1i /\ zone g 0 0 (b2z (w1 (next_wide c g b))) k j i) ->
       ~ (r_mhd c = true /\ f = FB2i /\ zone g 0 (b2z (w2 (next_wide c g b))) 0 k j i) ->
       ~ (r_mhd c = true /\ f = FB3i /\ zone g (b2z (w3 (next_wide c g b))) 0 0 k j i) -> fst us f k j i = u5 f k j i))).
  { unfold next_wide. destruct (r_mhd c).
    - destruct (read_field_ok M OK g (set_clock (m_time m) (m_dt m) g0) (widen g b) u5 l5 T2 SB) as (us & E & S & F1 & F2 & F3 & F4 & F5).
      exists us. split; [exact E|]. rewrite S. split; [reflexivity|]. split; [auto|].
      intros f k j i N1 N2 N3 N4. apply F5; tauto.
    - eexists. split; [reflexivity|]. split; [reflexivity|]. split; [discriminate|auto]. }
  destruct W as ((u6 & (l6 & s6)) & E6 & S6 & O6 & O6'). cbn [fst snd] in S6, O6, O6'. subst s6.
  eapply bind_ex; [exact E6|]. clear E6. cbv beta. subst T2.
  destruct (read_scalars_ok g (zrange 0 (r_nscal c)) u6 l6 ((if r_part c then parts_text M c t g else []) ++ rest))
    as ((u7 & (l7 & s7)) & E7 & S7 & O7 & O7').
  { intros n Hn. apply zrange_in in Hn. lia. }
  cbn [fst snd] in S7, O7, O7'. subst s7.
  eapply bind_ex; [rewrite fori_fold; exact E7|]. clear E7. cbv beta iota zeta.
  (* the data *)
  assert (CV : forall f, cell_var c f -> f <> FB1c /\ f <> FB2c /\ f <> FB3c /\ f <> FB1i /\ f <> FB2i /\ f <> FB3i).
  { intros [] Hf; cbn in Hf; try tauto; repeat split; discriminate. }
  assert (DATA : data_back M c (next_wide c g b) g (g_u g0) u7).
  { split; [|split].
    - intros f Hf k j i Z. pose proof (CV f Hf) as CVf.
      assert (IN : In (k, j, i) (cells (g_ks g) (g_ke g) (g_js g) (g_je g) (g_is g) (g_ie g))) by (unfold zone in Z; apply cells_in; lia).
      destruct f; cbn in Hf; try tauto.
      + rewrite O7' by (intros (? & X & _); discriminate). rewrite O6' by (intros (_ & X & _); intuition discriminate).
        rewrite O5' by (intros (_ & X & _); discriminate). rewrite O4', O3', O2' by (intros (X & _); discriminate). auto.
      + rewrite O7' by (intros (? & X & _); discriminate). rewrite O6' by (intros (_ & X & _); intuition discriminate).
        rewrite O5' by (intros (_ & X & _); discriminate). rewrite O4', O3' by (intros (X & _); discriminate). auto.
      + rewrite O7' by (intros (? & X & _); discriminate). rewrite O6' by (intros (_ & X & _); intuition discriminate).
        rewrite O5' by (intros (_ & X & _); discriminate). rewrite O4' by (intros (X & _); discriminate). auto.
      + rewrite O7' by (intros (? & X & _); discriminate). rewrite O6' by (intros (_ & X & _); intuition discriminate).
        rewrite O5' by (intros (_ & X & _); discriminate). auto.
      + rewrite O7' by (intros (? & X & _); discriminate). rewrite O6' by (intros (_ & X & _); intuition discriminate). auto.
      + apply O7; auto. apply zrange_in. lia.
    - intros MHD. destruct (O6 MHD) as (F1 & F2 & F3 & F4). repeat split.
      + intros. rewrite O7' by (intros (? & X & _); discriminate). auto.
      + intros. rewrite O7' by (intros (? & X & _); discriminate). auto.
      + intros. rewrite O7' by (intros (? & X & _); discriminate). auto.
      + rewrite !O7' by (intros (? & X & _); discriminate). apply F4; auto.
      + rewrite !O7' by (intros (? & X & _); discriminate). apply F4; auto.
      + rewrite !O7' by (intros (? & X & _); discriminate). apply F4; auto.
    - intros f k j i N1 N2 N3 N4 N5.
      rewrite O7'. 2:{ intros (n & -> & X & Z). apply N1. split; auto. cbn. apply zrange_in in X. lia. }
      rewrite O6' by auto.
      rewrite O5' by (intros (X & -> & Z); apply N1; split; auto).
      rewrite O4' by (intros (-> & Z); apply N1; split; [exact I|unfold zone; apply cells_in in Z; lia]).
      rewrite O3' by (intros (-> & Z); apply N1; split; [exact I|unfold zone; apply cells_in in Z; lia]).
      rewrite O2' by (intros (-> & Z); apply N1; split; [exact I|unfold zone; apply cells_in in Z; lia]).
      rewrite O1' by (intros (-> & Z); apply N1; split; [exact I|unfold zone; apply cells_in in Z; lia]). reflexivity. }
  clear O1 O1' O2 O2' O3 O3' O4 O4' O5 O5' O6 O6' O7 O7'.
  unfold grid_back, parts_ok in *. destruct (r_part c) eqn:PC.
  - destruct (PO eq_refl) as (GT & GF & AL).
    edestruct (read_parts_ok M c OK PC g (set_u u7 (set_clock (m_time m) (m_dt m) g0)) t t0) as (((g8 & t8) & (l8 & s8)) & E8 & S8 & SH & PB & TB & K1 & K2 & K3);
      [exact GT|exact GF|exact AL|].
    eapply bind_ex; [exact E8|]. cbn [fst snd] in *. eexists. split; [reflexivity|]. cbn [fst snd].
    split; [reflexivity|]. split; [exact S8|]. unfold shell in SH. cbn in SH.
    injection SH as H1 H2 H3 H4 H5 H6 H7 H8 H9. rewrite H1, H2, H3, H4, H5, H6, H7, H8, H9.
    split; [repeat (split; [reflexivity|]); split; [exact DATA|exact PB]|]. split; [repeat split; auto|exact TB].
  - eapply bind_ex; [reflexivity|]. eexists. split; [reflexivity|]. cbn [fst snd].
    split; [reflexivity|]. split; [reflexivity|].
    split; [repeat (split; [reflexivity|]); split; [exact DATA|repeat split; reflexivity]|].
    split; [repeat split|reflexivity].
Qed.
End All.
