(** * Super-timestepping: new_dt.c and the loop in main.c, with STS *)
From Coq Require Import Reals List Arith.
Import ListNotations.
Open Scope R_scope.

(** new_dt.c:258-262 (decimal constants as exact fractions) *)
Definition Ratio : list R :=
  [ 100000000 / 10 ^ 8; 308215298 / 10 ^ 8; 688968591 / 10 ^ 8; 1222069494 / 10 ^ 8; 1907497343 / 10 ^ 8;
    2745247186 / 10 ^ 8; 3735317345 / 10 ^ 8; 4877707124 / 10 ^ 8; 6172416193 / 10 ^ 8; 7619444378 / 10 ^ 8;
    9218791578 / 10 ^ 8; 1097045774 / 10 ^ 7; 1287444282 / 10 ^ 7; 1493074679 / 10 ^ 7; 1713936964 / 10 ^ 7; 1950031136 / 10 ^ 7 ].
(** the loop at new_dt.c:267-268, from entry i of the table on (the loop cannot leave the table:
    i < 12) *)
Fixpoint scan (dt_ratio : R) (l : list R) (i : nat) : nat :=
  match l with
  | [] => i
  | r :: l' => if Rlt_dec r dt_ratio then if Nat.ltb i 12 then scan dt_ratio l' (S i) else i else i
  end.
(** get_N_STS(), new_dt.c:255-271 *)
Definition get_N_STS (dt_MHD dt_Diff : R) : nat := S (scan (dt_MHD / dt_Diff) Ratio 0).

(** What new_dt() sets: Mesh.dt, N_STS, nu_STS and Mesh.diff_dt. *)
Record sts := Sts { s_dt : R; s_N : nat; s_nu : R; s_diff : R }.
(** new_dt.c:212-230, from the timestep dt of the integrators and the limit diff_dt of the
    diffusion (pow(x,2.0*N_STS) is x^(2 N_STS)) *)
Definition sts_setup (dt diff_dt : R) : sts :=
  let N := get_N_STS dt diff_dt in
  let '(N, dt) := if Nat.ltb 12 N then (12%nat, 1097045774 / 10 ^ 7 * diff_dt) else (N, dt) in
  if Nat.eqb N 1 then Sts dt N 0 dt
  else
    let nu_sqrt := (1 / 2) / INR N in
    let p := (1 + nu_sqrt) ^ (2 * N) in let m := (1 - nu_sqrt) ^ (2 * N) in
    Sts dt N ((1 / 4) / (INR N * INR N)) (2 * dt * nu_sqrt / INR N * (p + m) / (p - m)).
(** STS_dt in pass i of the loop, main.c:519-521 *)
Definition STS_dt (s : sts) (i : nat) : R :=
  s_diff s / (1 + s_nu s - (1 - s_nu s) * cos (1 / 2 * PI * (2 * INR i + 1) / INR (s_N s))).
(** The timesteps that integrate_diff() is called with, one after the other. *)
Definition substeps (s : sts) : list R := map (STS_dt s) (seq 0 (s_N s)).
