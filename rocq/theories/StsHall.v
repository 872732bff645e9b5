(** * Super-timestepping with the Hall term: later substeps use other diffusivities *)
From Coq Require Import Reals ZArith List Bool Lia Lra.
From Verif Require Import GasModel ConvProps IntegModel IntegSpec IntegFacts Ctu3Model Integ3Spec CondModel DiffSpec CondProps CondRate OhmModel OhmSpec OhmUniform.
Open Scope R_scope.

(** The diffusivities are those of the cells (get_eta() with eta_standard()). *)
Definition etas_of_cells (c : dcfg) (g : grid3) (e : etas) : Prop :=
  forall k j i, active3 g k j i -> eta_standard c (U g k j i) (e_H e k j i) (e_A e k j i) = (e_O e k j i, e_H e k j i, e_A e k j i).
(** After one substep in a uniform field, which changes nothing in the cells, the diffusivities
    that the next substep works with are no longer those of the cells. *)
Definition sh_grid : grid3 :=
  Grid3 4 5 4 5 4 5 (1 / 10) 1 1 1 0 0 0 (fun _ _ _ => Cons 1 2 0 0 40 0 0 2 nil) (fun _ _ _ => 0) (fun _ _ _ => 0) (fun _ _ _ => 2)
    (fun _ _ _ => 0) (fun _ _ _ => 0) (fun _ _ _ => 0) (fun _ _ _ => 0).
Definition sh_etas : etas := Etas (fun _ _ _ => 1) (fun _ _ _ => 4) (fun _ _ _ => 12).
Theorem C83_hall_refuted : exists c h z e g, shaped c g /\ field_is c g 0 0 2 /\ etas_of_cells c g e /\
  (forall k j i, active3 g k j i -> U (resistivity c h z e g) k j i = U g k j i) /\
  ~ etas_of_cells c (resistivity c h z e g) (etas_after c e g).
Proof.
  set (z0 := fun _ _ _ : Z => 0). exists ex_ocfg, 1, (RScratch z0 z0 z0 z0 z0 z0 z0 z0 z0 z0 z0 z0 z0 z0 z0 z0 z0 z0), sh_etas, sh_grid.
  assert (S : shaped ex_ocfg sh_grid) by exact ex_dshaped. assert (F : field_is ex_ocfg sh_grid 0 0 2) by (intros k j i _; cbn; repeat split; reflexivity).
  assert (U0 : forall k j i, active3 sh_grid k j i -> U (resistivity ex_ocfg 1 (RScratch z0 z0 z0 z0 z0 z0 z0 z0 z0 z0 z0 z0 z0 z0 z0 z0 z0 z0) sh_etas sh_grid) k j i = U sh_grid k j i) by (intros k j i A; apply (C80_uniform ex_ocfg 1 _ sh_etas sh_grid 0 0 2 S F k j i A)).
  assert (Es : forall h a, eta_standard ex_ocfg (U sh_grid 4 4 4) h a = (1, 4, 12)).
  { intros h a. unfold eta_standard. cbn [U sh_grid Q_Hall Q_AD d_ind eta_Ohm ex_ocfg cB1 cB2 cB3 cd]. destruct (Rlt_dec 0 2); [|lra]. cbn [orb].
    replace (0 * 0 + 0 * 0 + 2 * 2) with (2 * 2) by ring. rewrite sqrt_square by lra. rewrite ?Rplus_0_r, ?Rpower_O, ?Rpower_1 by lra. repeat f_equal; field. }
  split; [exact S|]. split; [exact F|]. split; [|split; [exact U0|]].
  - intros k j i _. exact (Es _ _).
  - intros H. assert (A : active3 sh_grid 4 4 4) by (unfold active3; cbn; lia). specialize (H 4%Z 4%Z 4%Z A). rewrite U0 in H by exact A. rewrite Es in H. apply (f_equal (fun p => snd (fst p))) in H. cbn [fst snd] in H. rename H into E.
    cbn [e_H etas_after] in E. unfold hall, eH in E. cbn [Q_Hall ex_ocfg] in E. destruct (Rlt_dec 0 2); [|lra]. rewrite loop3_in in E by (cbn; lia).
    cbn in E. replace (0 * 0 + 0 * 0 + 2 * 2) with (2 * 2) in E by ring. rewrite sqrt_square in E by lra. assert (T : 0 < TINY_NUMBER) by (unfold TINY_NUMBER; apply Rinv_0_lt_compat; lra).
    assert (4 * (2 + TINY_NUMBER) = 4) by (rewrite E at 1; field; lra). lra.
Qed.
Print Assumptions C83_hall_refuted.
