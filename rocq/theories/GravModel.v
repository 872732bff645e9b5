(** * The Poisson solvers with periodic boundaries: src/gravity/selfg_fft.c

    No shearing box, no star particles.  The Fourier transform itself (FFTW, and the block
    decomposition of fftsrc/ for several processes) is not modelled: [dft3], [dft2] are what it
    computes.  Entries of [work] are addressed by (i-is, j-js, k-ks) instead of the row-major
    number F3DI/F2DI (fftsrc/prototypes.h:48-49) of the same triple; a pair is [0] and [1]. *)
From Coq Require Import Reals ZArith Bool List.
From Verif Require Import IntegSpec.
Import ListNotations.
Open Scope R_scope.

(** ** 1D: forward elimination, back substitution *)
Section OneD.
(** [d i]: density of cell is+i; [n]: Nx[0] of the Grid. *)
Variables (four_pi_G mean_rho dx : R) (n : nat) (d : nat -> R).
Let dx_sq := dx * dx.
Definition src (i : nat) : R := four_pi_G * dx_sq * (d i - mean_rho).
(** selfg_fft.c:73-78: Phi[is] *)
Definition phi_first : R :=
  fold_left (fun s i => s + INR (i + 1) * four_pi_G * dx_sq * (d i - mean_rho)) (seq 0 n) 0 / INR n.
(** selfg_fft.c:80-86: the pair (Phi[is+i], Phi[is+i-1]) for i >= 1; line 81 is the case without the last term. *)
Fixpoint phi_up (i : nat) : R * R :=
  match i with
  | O => (phi_first, 0)
  | S i' => let '(p1, p2) := phi_up i' in
            (match i' with O => 2 * p1 + src 0 | S _ => src i' + 2 * p1 - p2 end, p1)
  end.
(** selfg_fft.c:88-97: mean zero *)
Definition total_phi : R := fold_left (fun s i => s + fst (phi_up i)) (seq 0 n) 0 / INR n.
Definition selfg_fft_1d (i : nat) : R := fst (phi_up i) - total_phi.
End OneD.

(** ** Several Grids *)
(** A cell of the Domain is in the box of one Grid: Grid p holds cells Disp p <= . < Disp p + Nx p.  The Domain is the
    root Domain, whose own Disp is 0 (ath_fft.c:67-72 subtracts it, selfg_fft.c:449-517 does not). *)
Record decomp := Decomp { own : Z -> Z -> Z -> nat; Disp : nat -> Z * Z * Z; Nx : nat -> Z * Z * Z }.
Definition d1 (x : Z * Z * Z) := fst (fst x). Definition d2 (x : Z * Z * Z) := snd (fst x). Definition d3 (x : Z * Z * Z) := snd x.
(** The array of the Domain made of the arrays of the Grids, as the block decomposition library sees it
    (ath_fft.c:61-77: gis .. gke), and back. *)
Definition gather {A} (D : decomp) (w : nat -> Z -> Z -> Z -> A) (a b c : Z) : A :=
  let p := own D a b c in w p (a - d1 (Disp D p))%Z (b - d2 (Disp D p))%Z (c - d3 (Disp D p))%Z.
Definition scatter {A} (D : decomp) (g : Z -> Z -> Z -> A) (p : nat) (i j k : Z) : A :=
  g (i + d1 (Disp D p))%Z (j + d2 (Disp D p))%Z (k + d3 (Disp D p))%Z.

(** The unnormalised discrete Fourier transform over N1*N2*N3 points, exp(s*2*PI*I*(...)), s = -1 forward (FFTW_FORWARD), +1 backward. *)
Definition angle (N1 N2 N3 : Z) (a b c i j k : Z) : R :=
  2 * PI * (IZR (a * i) / IZR N1 + IZR (b * j) / IZR N2 + IZR (c * k) / IZR N3).
Definition dft3 (s : R) (N1 N2 N3 : Z) (g : Z -> Z -> Z -> R * R) (a b c : Z) : R * R :=
  let sum f := sumZ 0 (N1 - 1) (fun i => sumZ 0 (N2 - 1) (fun j => sumZ 0 (N3 - 1) (fun k => f i j k))) in
  (sum (fun i j k => fst (g i j k) * cos (angle N1 N2 N3 a b c i j k) - s * (snd (g i j k) * sin (angle N1 N2 N3 a b c i j k))),
   sum (fun i j k => snd (g i j k) * cos (angle N1 N2 N3 a b c i j k) + s * (fst (g i j k) * sin (angle N1 N2 N3 a b c i j k)))).
Definition dft2 (s : R) (N1 N2 : Z) (g : Z -> Z -> R * R) (a b : Z) : R * R :=
  let angle i j := 2 * PI * (IZR (a * i) / IZR N1 + IZR (b * j) / IZR N2) in
  let sum f := sumZ 0 (N1 - 1) (fun i => sumZ 0 (N2 - 1) (fun j => f i j)) in
  (sum (fun i j => fst (g i j) * cos (angle i j) - s * (snd (g i j) * sin (angle i j))),
   sum (fun i j => snd (g i j) * cos (angle i j) + s * (fst (g i j) * sin (angle i j)))).

Definition scale (c : R) (w : R * R) : R * R := (fst w * c, snd w * c).

(** ** 3D *)
Section ThreeD.
Variables (four_pi_G mean_rho dx1 dx2 dx3 : R) (N1 N2 N3 : Z) (D : decomp).
(** [rho p i j k]: density of cell (is+i, js+j, ks+k) of Grid p. *)
Variable rho : nat -> Z -> Z -> Z -> R.
Let dx1sq := dx1 * dx1. Let dx2sq := dx2 * dx2. Let dx3sq := dx3 * dx3.
(** selfg_fft.c:439-441 *)
Let dkx := 2 * PI / IZR N1. Let dky := 2 * PI / IZR N2. Let dkz := 2 * PI / IZR N3.
(** selfg_fft.c:412-424 *)
Definition work0 (p : nat) (i j k : Z) : R * R := (rho p i j k - mean_rho, 0).
(** selfg_fft.c:449-517: the coefficient of each entry; every entry is multiplied by one of the four statements. *)
Definition coeff3 (p : nat) (i j k : Z) (w : R * R) : R * R :=
  let '(D1, D2, D3) := Disp D p in
  if (0 <? i)%Z then
    scale (1 / ((2 * cos (IZR (i + D1) * dkx) - 2) / dx1sq + (2 * cos (IZR (j + D2) * dky) - 2) / dx2sq + (2 * cos (IZR (k + D3) * dkz) - 2) / dx3sq)) w
  else if (0 <? j)%Z then
    scale (1 / ((2 * cos (IZR D1 * dkx) - 2) / dx1sq + (2 * cos (IZR (j + D2) * dky) - 2) / dx2sq + (2 * cos (IZR (k + D3) * dkz) - 2) / dx3sq)) w
  else if (0 <? k)%Z then
    scale (1 / ((2 * cos (IZR D1 * dkx) - 2) / dx1sq + (2 * cos (IZR D2 * dky) - 2) / dx2sq + (2 * cos (IZR (k + D3) * dkz) - 2) / dx3sq)) w
  else if ((D3 =? 0) && (D2 =? 0) && (D1 =? 0))%Z then (0, 0)
  else
    scale (1 / ((2 * cos (IZR D1 * dkx) - 2) / dx1sq + (2 * cos (IZR D2 * dky) - 2) / dx2sq + (2 * cos (IZR D3 * dkz) - 2) / dx3sq)) w.
(** selfg_fft.c:406-537: the new potential of Grid p. *)
Definition selfg_fft_3d (p : nat) (i j k : Z) : R :=
  let work := scatter D (dft3 (-1) N1 N2 N3 (gather D work0)) in
  let work := fun p i j k => coeff3 p i j k (work p i j k) in
  let work := scatter D (dft3 1 N1 N2 N3 (gather D work)) in
  four_pi_G * fst (work p i j k) / IZR (N1 * N2 * N3).
End ThreeD.

(** ** 2D: ks only, 4*PI*G inside the transform *)
Section TwoD.
Variables (four_pi_G mean_rho dx1 dx2 : R) (N1 N2 : Z) (D : decomp).
Variable rho : nat -> Z -> Z -> R.
Let dx1sq := dx1 * dx1. Let dx2sq := dx2 * dx2.
Let dkx := 2 * PI / IZR N1. Let dky := 2 * PI / IZR N2.
Definition gather2 {A} (w : nat -> Z -> Z -> A) (a b : Z) : A :=
  let p := own D a b 0%Z in w p (a - d1 (Disp D p))%Z (b - d2 (Disp D p))%Z.
Definition scatter2 {A} (g : Z -> Z -> A) (p : nat) (i j : Z) : A := g (i + d1 (Disp D p))%Z (j + d2 (Disp D p))%Z.
(** selfg_fft.c:289-297 *)
Definition work0_2 (p : nat) (i j : Z) : R * R := (four_pi_G * (rho p i j - mean_rho), 0).
(** selfg_fft.c:310-337 *)
Definition coeff2 (p : nat) (i j : Z) (w : R * R) : R * R :=
  let '(D1, D2, _) := Disp D p in
  if (0 <? i)%Z then
    scale (1 / ((2 * cos (IZR (i + D1) * dkx) - 2) / dx1sq + (2 * cos (IZR (j + D2) * dky) - 2) / dx2sq)) w
  else if (0 <? j)%Z then
    scale (1 / ((2 * cos (IZR D1 * dkx) - 2) / dx1sq + (2 * cos (IZR (j + D2) * dky) - 2) / dx2sq)) w
  else if ((D2 =? 0) && (D1 =? 0))%Z then (0, 0)
  else scale (1 / ((2 * cos (IZR D1 * dkx) - 2) / dx1sq + (2 * cos (IZR D2 * dky) - 2) / dx2sq)) w.
(** selfg_fft.c:289-349 *)
Definition selfg_fft_2d (p : nat) (i j : Z) : R :=
  let work := scatter2 (dft2 (-1) N1 N2 (gather2 work0_2)) in
  let work := fun p i j => coeff2 p i j (work p i j) in
  let work := scatter2 (dft2 1 N1 N2 (gather2 work)) in
  fst (work p i j) / IZR (N1 * N2).
End TwoD.
