(** * The Poisson solver with open boundaries in 3D: src/gravity/selfg_fft_obc.c

    No star particles.  As in [GravModel], the Fourier transform of ath_fft.c/FFTW is what [dft3] computes, and entries of
    [work] are addressed by (i-is, j-js, k-ks).  The Domain is the root Domain. *)
From Coq Require Import Reals ZArith Bool List.
From Verif Require Import IntegSpec GravModel.
Import ListNotations.
Open Scope R_scope.

Section ThreeD.
Variables (four_pi_G dx1 dx2 dx3 : R) (N1 N2 N3 : Z) (D : decomp).
(** [rho p i j k]: density of cell (is+i, js+j, ks+k) of Grid p. *)
Variable rho : nat -> Z -> Z -> Z -> R.
(** selfg_fft_obc.c:206-207 *)
Let idx1sq := 1 / (dx1 * dx1). Let idx2sq := 1 / (dx2 * dx2). Let idx3sq := 1 / (dx3 * dx3).
Let dkx := 2 * PI / IZR N1. Let dky := 2 * PI / IZR N2. Let dkz := 2 * PI / IZR N3.

Section Pass.
Variables (ioff joff koff : Z).
(** selfg_fft_obc.c:250-252, 313-315 *)
Definition offset (p : nat) (i j k : Z) : R :=
  let '(D1, D2, D3) := Disp D p in
  1/2 * (IZR ((i + D1) * ioff) * dkx + IZR ((j + D2) * joff) * dky + IZR ((k + D3) * koff) * dkz).
(** selfg_fft_obc.c:227-257: density into entry 0, copied to entry 1, times cos and -sin *)
Definition load (p : nat) (i j k : Z) : R * R :=
  (rho p i j k * cos (offset p i j k), rho p i j k * - sin (offset p i j k)).
(** selfg_fft_obc.c:267-302: every entry is treated by one of the four statements *)
Definition pcoeff (x y z : R) : R :=
  -(1/2) / ((1 - cos (x * dkx)) * idx1sq + (1 - cos (y * dky)) * idx2sq + (1 - cos (z * dkz)) * idx3sq).
Definition coeff (p : nat) (i j k : Z) (w : R * R) : R * R :=
  let '(D1, D2, D3) := Disp D p in
  let hi := 1/2 * IZR ioff in let hj := 1/2 * IZR joff in let hk := 1/2 * IZR koff in
  if (0 <? i)%Z then scale (pcoeff (IZR i + IZR D1 + hi) (IZR j + IZR D2 + hj) (IZR k + IZR D3 + hk)) w
  else if (0 <? j)%Z then scale (pcoeff (IZR D1 + hi) (IZR j + IZR D2 + hj) (IZR k + IZR D3 + hk)) w
  else if (0 <? k)%Z then scale (pcoeff (IZR D1 + hi) (IZR D2 + hj) (IZR k + IZR D3 + hk)) w
  else if ((D1 =? 0) && (D2 =? 0) && (D3 =? 0) && (ioff =? 0) && (joff =? 0) && (koff =? 0))%Z then (0, 0)
  else scale (pcoeff (IZR D1 + hi) (IZR D2 + hj) (IZR D3 + hk)) w.
(** selfg_fft_obc.c:225-321: what one pass adds to Phi *)
Definition pass (p : nat) (i j k : Z) : R :=
  let work := scatter D (dft3 (-1) N1 N2 N3 (gather D load)) in
  let work := fun p i j k => coeff p i j k (work p i j k) in
  let work := scatter D (dft3 1 N1 N2 N3 (gather D work)) in
  cos (offset p i j k) * fst (work p i j k) - sin (offset p i j k) * snd (work p i j k).
End Pass.

(** selfg_fft_obc.c:221-223: koff outermost, ioff innermost *)
Definition offs : list (Z * Z * Z) :=
  flat_map (fun koff => flat_map (fun joff => map (fun ioff => (ioff, joff, koff)) [0; 1]%Z) [0; 1]%Z) [0; 1]%Z.
Definition active (p : nat) (i j k : Z) : bool :=
  ((0 <=? i) && (i <? d1 (Nx D p)) && (0 <=? j) && (j <? d2 (Nx D p)) && (0 <=? k) && (k <? d3 (Nx D p)))%Z.
Definition allocated (nghost : Z) (p : nat) (i j k : Z) : bool :=
  ((- nghost <=? i) && (i <? d1 (Nx D p) + nghost) && (- nghost <=? j) && (j <? d2 (Nx D p) + nghost) &&
   (- nghost <=? k) && (k <? d3 (Nx D p) + nghost))%Z.
(** selfg_fft_obc.c:196-336: (Phi, Phi_old) of Grid p after the call, from (Phi, Phi_old) before it.  211-217: copy
    and zero, ghost zones too; 309-321: each pass adds to the active cells; 329-335: normalisation of the active cells. *)
Definition selfg_fft_obc_3d (nghost : Z) (Phi Phi_old : nat -> Z -> Z -> Z -> R) :
  (nat -> Z -> Z -> Z -> R) * (nat -> Z -> Z -> Z -> R) :=
  let old := fun p i j k => if allocated nghost p i j k then Phi p i j k else Phi_old p i j k in
  let phi := fun p i j k => if allocated nghost p i j k then 0 else Phi p i j k in
  let phi := fold_left (fun phi o p i j k =>
      if active p i j k then phi p i j k + pass (fst (fst o)) (snd (fst o)) (snd o) p i j k else phi p i j k) offs phi in
  let phi := fun p i j k => if active p i j k then phi p i j k * (four_pi_G / (8 * IZR (N1 * N2 * N3))) else phi p i j k in
  (phi, old).
End ThreeD.
