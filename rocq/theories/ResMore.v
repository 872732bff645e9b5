(** Restart files: the parameters, and an example of the theorems of C44. *)
From Coq Require Import String Ascii NArith ZArith Bool Arith Lia List.
From Verif Require Import CStr CStrFacts ParModel ParSpec ParDbProofs ParProps UtilModel ResModel ResSpec ResFacts ResWrite ResRead ResBack ResAll ResFile ResCut ResProps.
Import ListNotations.
Open Scope Z_scope.

Lemma run_app : forall a b s, ParSpec.run s (a ++ b) = (s' <- ParSpec.run s a;; ParSpec.run s' b).
Proof.
  induction a as [|o a IH]; intros b s; [reflexivity|]. cbn [app ParSpec.run].
  destruct (step s o); cbn [bind]; auto.
Qed.
Lemma set_times_run : forall R s (m : mesh R) txt s', set_times s m txt = Ok s' -> reachable s -> reachable s'.
Proof.
  intros R s m txt s' E (ops & H).
  exists (ops ++ [OpSetd (S_ "time") (S_ "time") txt (Some (S_ "Current Simulation Time"));
                  OpSeti (S_ "time") (S_ "nstep") (m_nstep m) (Some (S_ "Current Simulation Time Step"))]).
  rewrite run_app, H. cbn [bind]. unfold set_times in E. cbn [ParSpec.run step].
  destruct (par_setd s (S_ "time") (S_ "time") txt (Some (S_ "Current Simulation Time"))); cbn [bind] in *; auto; discriminate.
Qed.

(** A restart file is a parameter file: opening it gives back the parameters of the run, with the number of
    the step in time/nstep and the printed time in time/time. *)
Theorem C44_reopen : forall R (M : mach R) c s txt t m user file s' fname,
  mach_ok M -> reachable s -> now_open s = true ->
  dump_restart M c s txt t m user = Ok (file, s') ->
  db_printable (view_of (blocks s')) ->
  (forall l, is_line (par_dump2 s') l -> (length l + 2 <= MAXLEN)%nat) ->
  exists s'', par_open init_state fname (Some file) = Ok s'' /\ now_open s'' = true /\
    view_of (blocks s'') = view_of (blocks s') /\
    par_geti s'' (S_ "time") (S_ "nstep") = Ok (m_nstep m) /\ par_gets s'' (S_ "time") (S_ "time") = Ok txt /\
    forall b n e, (b, n) <> (S_ "time", S_ "time") -> (b, n) <> (S_ "time", S_ "nstep") ->
      (holds (view_of (blocks s'')) b n e <-> holds (view_of (blocks s)) b n e).
Proof.
  intros R M c s txt t m user file s' fname OK RS OS D PR LN.
  destruct (dump_inv M c s txt t m user file s' OK D) as (ST & ->).
  pose proof (set_times_run _ _ _ _ _ ST RS) as RS'.
  destruct (C06_dump_reopen s' fname (body_text M c t m ++ head_text (S_ "USER_DATA") ++ user) RS' PR LN) as (s'' & E & O & V).
  exists s''. split; [exact E|]. split; [exact O|]. split; [exact V|].
  unfold set_times in ST. destruct (par_setd s (S_ "time") (S_ "time") txt (Some (S_ "Current Simulation Time"))) as [s1| |] eqn:E1;
    cbn [bind] in ST; try discriminate. injection ST as <-.
  unfold par_setd in E1. destruct (length txt <? MAXLEN)%nat; [|discriminate]. injection E1 as <-.
  set (s1 := par_sets s (S_ "time") (S_ "time") txt (Some (S_ "Current Simulation Time"))) in *.
  assert (R1 : reachable s1).
  { destruct RS as (ops & H). exists (ops ++ [OpSets (S_ "time") (S_ "time") txt (Some (S_ "Current Simulation Time"))]).
    rewrite run_app, H. reflexivity. }
  assert (O1 : now_open s1 = true) by (unfold s1, par_sets; exact OS).
  assert (U : uniq (blocks s'')).
  { apply reachable_uniq. exists [OpOpen fname (Some (par_dump2 (par_seti s1 (S_ "time") (S_ "nstep") (m_nstep m) (Some (S_ "Current Simulation Time Step"))) ++
      body_text M c t m ++ head_text (S_ "USER_DATA") ++ user))]. cbn [ParSpec.run step]. rewrite E. reflexivity. }
  pose proof (C01_set_then_get s (S_ "time") (S_ "time") txt (Some (S_ "Current Simulation Time")) RS OS) as (G1 & _). fold s1 in G1.
  pose proof (C01_set_then_get s1 (S_ "time") (S_ "nstep") (dec_Z (m_nstep m)) (Some (S_ "Current Simulation Time Step")) R1 O1) as (G2 & _).
  unfold par_seti in *.
  set (s2 := par_sets s1 (S_ "time") (S_ "nstep") (dec_Z (m_nstep m)) (Some (S_ "Current Simulation Time Step"))) in *.
  assert (O2 : now_open s2 = true) by exact O1.
  split; [|split].
  - assert (G : par_gets s'' (S_ "time") (S_ "nstep") = Ok (dec_Z (m_nstep m))).
    { apply gets_holds; auto. rewrite V. apply gets_holds; auto. apply reachable_uniq; auto. }
    unfold par_geti. unfold par_gets in G. rewrite G. cbn [bind]. rewrite atoi_dec_Z. reflexivity.
  - apply gets_holds; auto. rewrite V. apply gets_holds in G1; [|apply reachable_uniq; auto|exact O1]. destruct G1 as (cm & G1).
    exists cm. apply sets_other; [|exact G1]. intros X. apply (f_equal snd) in X. vm_compute in X. discriminate.
  - intros b n e N1 N2. rewrite V.
    destruct (C02_others_untouched s1 (S_ "time") (S_ "nstep") (dec_Z (m_nstep m)) (Some (S_ "Current Simulation Time Step")) R1) as (A & _).
    destruct (C02_others_untouched s (S_ "time") (S_ "time") txt (Some (S_ "Current Simulation Time")) RS) as (B & _). fold s1 in B.
    fold s2 in A. rewrite (A b n e N2). apply B. exact N1.
Qed.
Print Assumptions C44_reopen.

(** A file that has no <par_end> at all keeps the program reading for ever. *)
Theorem C44_hangs_refuted : forall R (M : mach R) c file m t, file <> [] -> ~ has_sub PAR_END file ->
  restart_grids M c (Some file) m t = Loops.
Proof.
  intros R M c file m t NE NS. unfold restart_grids. destruct file; [congruence|]. rewrite skip_loops; auto.
Qed.
Print Assumptions C44_hangs_refuted.

(** ** An example: a float of four bytes and little-endian integers *)
Fixpoint le (n : nat) (z : Z) : str :=
  match n with O => [] | S n => ascii_of_N (Z.to_N (z mod 256)) :: le n (z / 256) end.
Fixpoint un (s : str) : Z := match s with [] => 0 | a :: s => Z.of_N (N_of_ascii a) + 256 * un s end.
Definition signed (n : nat) (s : str) : Z :=
  if un s <? 2 ^ (8 * Z.of_nat n - 1) then un s else un s - 2 ^ (8 * Z.of_nat n).
Definition le_codec (n : nat) : codec Z := Codec Z n (le n) (signed n) (fun z _ => z).
Lemma le_length : forall n z, length (le n z) = n.
Proof. induction n; intros; cbn; auto. Qed.
Lemma un_le : forall n z, un (le n z) = z mod 256 ^ (Z.of_nat n).
Proof.
  induction n as [|n IH]; intros z.
  - cbn. rewrite Z.mod_1_r. reflexivity.
  - cbn [le un]. rewrite IH.
    assert (B : 0 <= z mod 256 < 256) by (apply Z.mod_pos_bound; lia).
    rewrite N_ascii_embedding by lia. rewrite Z2N.id by lia.
    rewrite Nat2Z.inj_succ, Z.pow_succ_r by lia. rewrite Z.rem_mul_r by lia. reflexivity.
Qed.
Lemma le_ok : forall n, (1 <= n <= 16)%nat -> codec_ok (le_codec n) (fits_in (8 * Z.of_nat n - 1)).
Proof.
  intros n B. split; [exact B|]. intros z F. split; [apply le_length|].
  cbn [le_codec c_enc c_dec]. unfold signed. rewrite un_le.
  change 256 with (2 ^ 8). rewrite <- Z.pow_mul_r by lia. unfold fits_in in F.
  assert (P : 2 ^ (8 * Z.of_nat n) = 2 * 2 ^ (8 * Z.of_nat n - 1)) by (rewrite <- Z.pow_succ_r by lia; f_equal; lia).
  assert (0 < 2 ^ (8 * Z.of_nat n - 1)) by (apply Z.pow_pos_nonneg; lia).
  set (h := 2 ^ (8 * Z.of_nat n - 1)) in *. rewrite P. clearbody h. clear P.
  destruct (Z.ltb_spec z 0) as [N|N].
  - assert (E : z mod (2 * h) = z + 2 * h) by (symmetry; apply (Z.mod_unique z (2 * h) (-1)); lia).
    rewrite E. destruct (Z.ltb_spec (z + 2 * h) h); lia.
  - rewrite Z.mod_small by lia. destruct (Z.ltb_spec z h); lia.
Qed.
Definition float4 := (ascii * ascii * (ascii * ascii))%type.
Definition f_enc (x : float4) : str := [fst (fst x); snd (fst x); fst (snd x); snd (snd x)].
Definition f_dec (s : str) : float4 := ((nth 0 s LF, nth 1 s LF), (nth 2 s LF, nth 3 s LF)).
Definition ex_mach : mach float4 :=
  Mach _ (Codec _ 4 f_enc f_dec (fun x _ => x)) (le_codec 4) (le_codec 8) (le_codec 2)
    (fun _ a b => a) (fun _ a b => b) (fun _ a b => (fst a, snd b)).
Example ex_mach_ok : mach_ok ex_mach.
Proof.
  split; [split; [cbn; lia|intros ((a1 & a2) & (a3 & a4)) _; split; reflexivity]|].
  split; [apply (le_ok 4); lia|]. split; [apply (le_ok 8); lia|apply (le_ok 2); lia].
Qed.
Definition byte (z : Z) : ascii := ascii_of_N (Z.to_N (z mod 256)).
Definition num (f : fld) : Z :=
  match f with FD => 1 | FM1 => 2 | FM2 => 3 | FM3 => 4 | FE => 5 | FS n => 10 + n | FB1i => 20 | FB2i => 21 | FB3i => 22
  | FB1c => 20 | FB2c => 21 | FB3c => 22 end.
(** the fields at the centres follow the formulas of [ex_mach] *)
Definition ex_u (f : fld) (k j i : Z) : float4 :=
  let j := match f with FB2c => j + 1 | _ => j end in ((byte (num f), byte k), (byte j, byte i)).
Definition ex_part (p : Z) : part float4 :=
  Part (fun f => ((byte p, LF), (byte (match f with X1 => 0 | X2 => 1 | X3 => 2 | V1 => 3 | V2 => 4 | V3 => 5 end), LF)))
       (p mod 2) (100 + p) 0 (if p =? 1 then 0 else 1).
Definition ex_grid (is_ ie js je : Z) (np : Z) : grid float4 :=
  Grid is_ ie js je 0 0 ((LF, LF), (LF, LF)) ((LF, LF), (LF, LF)) ex_u np 10 ex_part.
Definition ex_mesh : mesh float4 :=
  Mesh 7 ((byte 1, byte 2), (byte 3, byte 4)) ((byte 5, LF), (LF, LF)) ((LF, LF), (byte 9, LF))
    [[Some (ex_grid 4 7 4 5 3)]; [None; Some (ex_grid 4 9 4 7 0)]].
Definition zero : float4 := ((LF, LF), (LF, LF)).
Definition blank (is_ ie js je : Z) : grid float4 :=
  Grid is_ ie js je 0 0 zero zero (fun _ _ _ _ => zero) 0 1 (fun _ => Part (fun _ => zero) 0 0 0 0).
Definition ex_mesh0 : mesh float4 := Mesh 0 zero zero zero [[Some (blank 4 7 4 5)]; [None; Some (blank 4 9 4 7)]].
Definition ex_glob : glob float4 :=
  Glob 2 2 (fun _ i => ((byte i, LF), (LF, LF))) (fun i => 1 + i) (fun _ => 0) zero 3 zero.
Definition ex_glob0 : glob float4 := Glob 1 2 (fun _ _ => zero) (fun _ => 0) (fun _ => 0) zero 0 zero.
Definition ex_cfg (part : bool) : rcfg := RCfg true false 1 part true true true.
Lemma ex_cent : forall is_ ie js je np, is_ < ie -> js < je ->
  centred ex_mach (own_wide (ex_grid is_ ie js je np)) (ex_grid is_ ie js je np) ex_u.
Proof.
  intros is_ ie js je np H1 H2 k j i Z. unfold own_wide. cbn [g_ie g_is g_je g_js g_ke g_ks ex_grid w1 w2 w3].
  rewrite (proj2 (Z.gtb_lt ie is_) H1), (proj2 (Z.gtb_lt je js) H2). repeat split.
Qed.
Fixpoint subb (a s : str) : bool := prefixb a s || match s with [] => false | _ :: s => subb a s end.
Lemma subb_ok : forall a s, subb a s = false -> ~ has_sub a s.
Proof.
  intros a s H (x & y & E). revert s H E. induction x as [|b x IH]; intros s H E.
  - subst s. assert (P : prefixb a ([] ++ a ++ y) = true) by exact (prefixb_app a y).
    destruct ([] ++ a ++ y); cbn [subb] in H; rewrite P in H; discriminate.
  - subst s. cbn [app subb] in H. apply orb_false_elim in H. destruct H as (_ & H). eapply IH; eauto.
Qed.
Definition ex_txt : str := S_ "1.500000e+00".
Definition ex_s' : pstate := match set_times ex_state ex_mesh ex_txt with Ok s => s | _ => init_state end.
Example C44_hypotheses : forall p,
  mach_ok ex_mach /\ writable (ex_cfg p) ex_mesh ex_glob /\ same_layout ex_mesh ex_mesh0 /\ t_n ex_glob <= t_alloc ex_glob0 /\
  (exists file, dump_restart ex_mach (ex_cfg p) ex_state ex_txt ex_glob ex_mesh (S_ "the end") = Ok (file, ex_s')) /\
  ~ has_sub PAR_END (flat_map dump_block (blocks ex_s')) /\
  (forall g g1, In g (grids ex_mesh) -> In g1 (grids ex_mesh) -> own_wide g = own_wide g1) /\
  (forall g, In g (grids ex_mesh) -> centred ex_mach (own_wide g) g (g_u g)) /\
  reachable ex_state /\ now_open ex_state = true /\ db_printable (view_of (blocks ex_s')) /\
  (forall l, is_line (par_dump2 ex_s') l -> (length l + 2 <= MAXLEN)%nat).
Proof.
  intros p. split; [exact ex_mach_ok|]. split.
  { split; [split; vm_compute; congruence|]. split; [vm_compute; congruence|]. split.
    - split; [intros _; split; vm_compute; congruence|]. intros _. split; [vm_compute; congruence|]. split; [split; vm_compute; congruence|].
      intros i I. cbn [ex_glob t_n t_integ] in *. unfold fits_in. assert (i = 0 \/ i = 1) as [->| ->] by lia; split; vm_compute; congruence.
    - intros g G. cbn in G. destruct G as [<- |[<- |[]]]; intros _; cbn [ex_grid g_np g_part ex_glob t_n].
      + split; [split; vm_compute; congruence|]. intros q Q _. assert (q = 0 \/ q = 1 \/ q = 2) as [->|[->| ->]] by lia;
          (split; [split; vm_compute; congruence|]; split; [split; vm_compute; congruence|]; split; [split; vm_compute; congruence|]; intros _; split; vm_compute; congruence).
      + split; [split; vm_compute; congruence|]. intros q Q. lia. }
  split; [repeat constructor|]. split; [vm_compute; congruence|]. split.
  { eexists. apply dump_ok; [exact ex_mach_ok|]. vm_compute. reflexivity. }
  split; [apply subb_ok; vm_compute; reflexivity|]. split.
  { intros g g1 G G1. cbn in G, G1. destruct G as [<- |[<- |[]]], G1 as [<- |[<- |[]]]; reflexivity. }
  split. { intros g G. cbn in G. destruct G as [<- |[<- |[]]]; apply ex_cent; lia. }
  split; [exact ex_reachable|]. split; [exact ex_open|]. split; [apply printableb_ok; vm_compute; reflexivity|].
  intros l (a & b & E & N & HA). apply (lines_fitb_ok a 0 l b); auto.
  + rewrite <- E. vm_compute. reflexivity.
  + destruct HA; auto.
Qed.
(** and it is read back *)
Example C44_example : exists file m' t',
  dump_restart ex_mach (ex_cfg true) ex_state ex_txt ex_glob ex_mesh (S_ "the end") = Ok (file, ex_s') /\
  restart_grids ex_mach (ex_cfg true) (Some file) ex_mesh0 ex_glob0 = Returns (Ok (m', t', S_ "the end")) /\
  mesh_back ex_mach (ex_cfg true) ex_mesh ex_mesh0 m' /\ glob_back (ex_cfg true) ex_mesh ex_glob ex_glob0 t'.
Proof.
  destruct (C44_hypotheses true) as (A & B & C & D & (file & E) & F & _).
  destruct (C44_round_trip _ _ _ _ _ _ _ _ _ _ ex_mesh0 ex_glob0 A B C (fun _ => D) E F) as (m' & t' & G & H & I).
  exists file, m', t'. auto.
Qed.
