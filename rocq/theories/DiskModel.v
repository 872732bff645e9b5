(** * Poisson solvers with one open direction: src/gravity/selfg_fft_disk.c

    No shearing box, no star particles.  The Fourier transform is [dft3] of [GravModel]; entries of [work] and
    [work2] are addressed by (i-is, j-js, k-ks).  The Domain is the root Domain. *)
From Coq Require Import Reals ZArith Bool List.
From Verif Require Import IntegSpec GravModel.
Import ListNotations.
Open Scope R_scope.

(** ** 1D *)
Section OneD.
(** [d i]: density of cell is+i; [n]: Nx[0] of the only Grid.  (float)(Nx[0]-1) is taken as exact. *)
Variables (four_pi_G dx : R) (n : nat) (d : Z -> R).
Let dx1sq := dx * dx.
Let nm1 : R := IZR (Z.of_nat n - 1).
(** selfg_fft_disk.c:79-84 *)
Definition phi_is : R :=
  fold_left (fun s i => s + d (Z.of_nat i)) (seq 0 n) 0 * (1/4 * four_pi_G * dx1sq * nm1).
(** selfg_fft_disk.c:85-91: (Phi[is+i], Phi[is+i-1]) *)
Fixpoint phi_up (i : nat) : R * R :=
  match i with
  | O => (phi_is, 0)
  | S i' => let '(p1, p2) := phi_up i' in
            (match i' with
             | O => p1 + four_pi_G * dx1sq * d 0%Z - 2 * p1 / nm1
             | S _ => four_pi_G * dx1sq * d (Z.of_nat i') + 2 * p1 - p2
             end, p1)
  end.
(** selfg_fft_disk.c:92-96: the first ghost zone on each side *)
Definition selfg_fft_disk_1d (i : Z) : R :=
  let at_ i := fst (phi_up (Z.to_nat i)) in
  if (i =? Z.of_nat n)%Z then 2 * at_ (i - 1)%Z - at_ (i - 2)%Z + dx1sq * four_pi_G * d (i - 1)%Z
  else if (i =? -1)%Z then 2 * at_ 0%Z - at_ 1%Z + dx1sq * four_pi_G * d 0%Z
  else at_ i.
End OneD.

(** ** 3D *)
(** fftsrc/prototypes.h:54, KCOMP(a,gas,gnxa) with a+gas the first argument; int division *)
Definition KCOMP (a N : Z) : Z := (a - Z.quot (2 * a) N * N)%Z.
Section ThreeD.
(** [Lperp]: RootMaxX[2] - RootMinX[2] *)
Variables (four_pi_G dx1 dx2 dx3 Lperp : R) (N1 N2 N3 : Z) (D : decomp).
(** [rho p i j k]: density of cell (is+i, js+j, ks+k) of Grid p. *)
Variable rho : nat -> Z -> Z -> Z -> R.
Let dx1sq := dx1 * dx1. Let dx2sq := dx2 * dx2. Let dx3sq := dx3 * dx3.
(** selfg_fft_disk.c:277-279 *)
Let dkx := 2 * PI / IZR N1. Let dky := 2 * PI / IZR N2. Let dkz := 2 * PI / IZR N3.
(** selfg_fft_disk.c:291-317; a, b, c are the indices relative to the whole Domain *)
Definition kxtdx (a : Z) : R := IZR (KCOMP a N1) * dkx.
Definition kydy (b : Z) : R := IZR (KCOMP b N2) * dky.
Definition damping (a b : Z) : R := exp (- sqrt (kxtdx a * kxtdx a / dx1sq + kydy b * kydy b / dx2sq) * Lperp).
Definition Acoeff (a b c : Z) : R :=
  if ((c =? 0) && (b =? 0) && (a =? 0))%Z then 0
  else 1/2 * (1 - damping a b) /
    ((2 * cos (kxtdx a) - 2) / dx1sq + (2 * cos (kydy b) - 2) / dx2sq + (2 * cos (IZR c * dkz) - 2) / dx3sq).
Definition Bcoeff (a b c : Z) : R :=
  1/2 * (1 + damping a b) /
    ((2 * cos (kxtdx a) - 2) / dx1sq + (2 * cos (kydy b) - 2) / dx2sq + (2 * cos ((1/2 + IZR c) * dkz) - 2) / dx3sq).
(** selfg_fft_disk.c:345-378 *)
Definition half (p : nat) (k : Z) : R := 1/2 * IZR (k + d3 (Disp D p)) * dkz.
Definition load1 (p : nat) (i j k : Z) : R * R := (rho p i j k * four_pi_G, 0).
Definition load2 (p : nat) (i j k : Z) : R * R :=
  (cos (half p k) * (rho p i j k * four_pi_G), - sin (half p k) * (rho p i j k * four_pi_G)).
(** selfg_fft_disk.c:405-418 *)
Definition times (C : Z -> Z -> Z -> R) (p : nat) (i j k : Z) (w : R * R) : R * R :=
  scale (C (i + d1 (Disp D p)) (j + d2 (Disp D p)) (k + d3 (Disp D p)))%Z w.
(** selfg_fft_disk.c:228-441: the new potential of Grid p *)
Definition selfg_fft_disk_3d (p : nat) (i j k : Z) : R :=
  let work := scatter D (dft3 (-1) N1 N2 N3 (gather D load1)) in
  let work2 := scatter D (dft3 (-1) N1 N2 N3 (gather D load2)) in
  let work := fun p i j k => times Acoeff p i j k (work p i j k) in
  let work2 := fun p i j k => times Bcoeff p i j k (work2 p i j k) in
  let work := scatter D (dft3 1 N1 N2 N3 (gather D work)) in
  let work2 := scatter D (dft3 1 N1 N2 N3 (gather D work2)) in
  (fst (work p i j k) + cos (half p k) * fst (work2 p i j k) - sin (half p k) * snd (work2 p i j k)) / IZR (N1 * N2 * N3).
End ThreeD.
