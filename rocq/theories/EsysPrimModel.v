(** * Eigensystems in the primitive variables: src/reconstruction/esystem_prim.c

    Entries commented out in the C code are the zeros set by the callers
    (lr_states_plm.c:93-98).  Division and square root are total here;
    EsysPrimProps.v assumes d > 0 and a positive sound speed, under which every
    divisor and radicand is positive (esys_divisors). *)
From Coq Require Import Reals List.
From Verif Require Import GasModel ReconModel.
Import ListNotations.
Open Scope R_scope.

(** right_eigenmatrix and left_eigenmatrix as lists of rows. *)
Definition mat (l : list (list R)) (m n : nat) : R := nth n (nth m l []) 0.

(** esys_prim_iso_hyd, lines 50-105.  [cs] is Iso_csound. *)
Definition esys_prim_iso_hyd (cs d v1 : R) : esystem :=
  Esystem (fun n => nth n [v1 - cs; v1; v1; v1 + cs] 0)
    (mat [[half; - half * d / cs; 0; 0];
          [0; 0; 1; 0];
          [0; 0; 0; 1];
          [half; half * d / cs; 0; 0]])
    (mat [[1; 0; 0; 1];
          [- cs / d; 0; 0; cs / d];
          [0; 1; 0; 0];
          [0; 0; 1; 0]]).

(** esys_prim_adb_hyd, lines 118-197.  [rho_a2] is Gamma*P. *)
Definition esys_prim_adb_hyd (d v1 rho_a2 : R) : esystem :=
  let asq := rho_a2 / d in
  let a := sqrt asq in
  let r10 := - a / d in
  let l01 := - half * d / a in
  let l04 := half / asq in
  Esystem (fun n => nth n [v1 - a; v1; v1; v1; v1 + a] 0)
    (mat [[0; l01; 0; 0; l04];
          [1; 0; 0; 0; -1 / asq];
          [0; 0; 1; 0; 0];
          [0; 0; 0; 1; 0];
          [0; - l01; 0; 0; l04]])
    (mat [[1; 1; 0; 0; 1];
          [r10; 0; 0; 0; - r10];
          [0; 0; 1; 0; 0];
          [0; 0; 0; 1; 0];
          [asq; 0; 0; 0; asq]]).

(** The quantities common to both MHD systems: lines 222-275 (isothermal, with
    asq = Iso_csound2) and 400-457. *)
Record pq := Pq { p_cf : R; p_cs : R; p_vax : R; p_bet2 : R; p_bet3 : R; p_af : R; p_as : R }.
Definition prim_alphas (asq cfsq cssq dif : R) : R * R :=
  if Req_EM_T dif 0 then (1, 0)
  else if Rle_dec (asq - cssq) 0 then (0, 1)
  else if Rle_dec (cfsq - asq) 0 then (1, 0)
  else (sqrt ((asq - cssq) / dif), sqrt ((cfsq - asq) / dif)).
(** [iso] selects the divisor in the alphas: cfsq - cssq (lines 258-270) or
    cf2_cs2 (lines 427-439). *)
Definition prim_pq (iso : bool) (asq d b1 b2 b3 : R) : pq :=
  let di := 1 / d in
  let btsq := b2 * b2 + b3 * b3 in
  let vaxsq := b1 * b1 * di in
  let ct2 := btsq * di in
  let tsum := vaxsq + ct2 + asq in
  let tdif := vaxsq + ct2 - asq in
  let cf2_cs2 := sqrt (tdif * tdif + 4 * asq * ct2) in
  let cfsq := half * (tsum + cf2_cs2) in
  let cf := sqrt cfsq in
  let cssq := asq * vaxsq / cfsq in
  let cs := sqrt cssq in
  let bt := sqrt btsq in
  let bet2 := if Req_EM_T bt 0 then 1 else b2 / bt in
  let bet3 := if Req_EM_T bt 0 then 0 else b3 / bt in
  let al := prim_alphas asq cfsq cssq (if iso then cfsq - cssq else cf2_cs2) in
  let vax := sqrt vaxsq in
  Pq cf cs vax bet2 bet3 (fst al) (snd al).

(** esys_prim_iso_mhd, lines 272-383. [a] is Iso_csound. *)
Definition esys_prim_iso_mhd (a d v1 b1 b2 b3 : R) : esystem :=
  let asq := a * a in
  let q := prim_pq true asq d b1 b2 b3 in
  let cf := p_cf q in let cs := p_cs q in let vax := p_vax q in
  let bet2 := p_bet2 q in let bet3 := p_bet3 q in let alpha_f := p_af q in let alpha_s := p_as q in
  let di := 1 / d in
  let sqrtd := sqrt d in
  let s := SIGN b1 in
  let qf := cf * alpha_f * s in
  let qs := cs * alpha_s * s in
  let af := a * alpha_f * sqrtd in
  let as_ := a * alpha_s * sqrtd in
  let norm := half / asq in
  let qf' := norm * qf in
  let qs' := norm * qs in
  let af' := norm * af * di in
  let as' := norm * as_ * di in
  Esystem (fun n => nth n [v1 - cf; v1 - vax; v1 - cs; v1 + cs; v1 + vax; v1 + cf] 0)
    (mat [[norm * alpha_f * asq * di; - norm * cf * alpha_f; qs' * bet2; qs' * bet3; as' * bet2; as' * bet3];
          [0; 0; - half * bet3; half * bet2; - half * bet3 * s / sqrtd; half * bet2 * s / sqrtd];
          [norm * alpha_s * asq * di; - norm * cs * alpha_s; - qf' * bet2; - qf' * bet3; - af' * bet2; - af' * bet3];
          [norm * alpha_s * asq * di; - (- norm * cs * alpha_s); - (- qf' * bet2); - (- qf' * bet3); - af' * bet2; - af' * bet3];
          [0; 0; - (- half * bet3); - (half * bet2); - half * bet3 * s / sqrtd; half * bet2 * s / sqrtd];
          [norm * alpha_f * asq * di; - (- norm * cf * alpha_f); - (qs' * bet2); - (qs' * bet3); as' * bet2; as' * bet3]])
    (mat [[d * alpha_f; 0; d * alpha_s; d * alpha_s; 0; d * alpha_f];
          [- cf * alpha_f; 0; - cs * alpha_s; - (- cs * alpha_s); 0; - (- cf * alpha_f)];
          [qs * bet2; - bet3; - qf * bet2; - (- qf * bet2); bet3; - (qs * bet2)];
          [qs * bet3; bet2; - qf * bet3; - (- qf * bet3); - bet2; - (qs * bet3)];
          [as_ * bet2; - bet3 * s * sqrtd; - af * bet2; - af * bet2; - bet3 * s * sqrtd; as_ * bet2];
          [as_ * bet3; bet2 * s * sqrtd; - af * bet3; - af * bet3; bet2 * s * sqrtd; as_ * bet3]]).

(** esys_prim_adb_mhd, lines 441-586. *)
Definition esys_prim_adb_mhd (d v1 rho_a2 b1 b2 b3 : R) : esystem :=
  let asq := rho_a2 * (1 / d) in
  let q := prim_pq false asq d b1 b2 b3 in
  let cf := p_cf q in let cs := p_cs q in let vax := p_vax q in
  let bet2 := p_bet2 q in let bet3 := p_bet3 q in let alpha_f := p_af q in let alpha_s := p_as q in
  let di := 1 / d in
  let sqrtd := sqrt d in
  let s := SIGN b1 in
  let a := sqrt asq in
  let qf := cf * alpha_f * s in
  let qs := cs * alpha_s * s in
  let af := a * alpha_f * sqrtd in
  let as_ := a * alpha_s * sqrtd in
  let na := half / asq in
  let qf' := na * qf in
  let qs' := na * qs in
  let af' := na * af * di in
  let as' := na * as_ * di in
  Esystem (fun n => nth n [v1 - cf; v1 - vax; v1 - cs; v1; v1 + cs; v1 + vax; v1 + cf] 0)
    (mat [[0; - na * cf * alpha_f; qs' * bet2; qs' * bet3; na * alpha_f * di; as' * bet2; as' * bet3];
          [0; 0; - half * bet3; half * bet2; 0; - half * bet3 * s / sqrtd; half * bet2 * s / sqrtd];
          [0; - na * cs * alpha_s; - qf' * bet2; - qf' * bet3; na * alpha_s * di; - af' * bet2; - af' * bet3];
          [1; 0; 0; 0; -1 / asq; 0; 0];
          [0; - (- na * cs * alpha_s); - (- qf' * bet2); - (- qf' * bet3); na * alpha_s * di; - af' * bet2; - af' * bet3];
          [0; 0; - (- half * bet3); - (half * bet2); 0; - half * bet3 * s / sqrtd; half * bet2 * s / sqrtd];
          [0; - (- na * cf * alpha_f); - (qs' * bet2); - (qs' * bet3); na * alpha_f * di; as' * bet2; as' * bet3]])
    (mat [[d * alpha_f; 0; d * alpha_s; 1; d * alpha_s; 0; d * alpha_f];
          [- cf * alpha_f; 0; - cs * alpha_s; 0; - (- cs * alpha_s); 0; - (- cf * alpha_f)];
          [qs * bet2; - bet3; - qf * bet2; 0; - (- qf * bet2); bet3; - (qs * bet2)];
          [qs * bet3; bet2; - qf * bet3; 0; - (- qf * bet3); - bet2; - (qs * bet3)];
          [d * asq * alpha_f; 0; d * asq * alpha_s; 0; d * asq * alpha_s; 0; d * asq * alpha_f];
          [as_ * bet2; - bet3 * s * sqrtd; - af * bet2; 0; - af * bet2; - bet3 * s * sqrtd; as_ * bet2];
          [as_ * bet3; bet2 * s * sqrtd; - af * bet3; 0; - af * bet3; bet2 * s * sqrtd; as_ * bet3]]).
