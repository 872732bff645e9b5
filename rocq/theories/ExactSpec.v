(** * The exact solution of the Riemann problem of an isothermal gas

    An isothermal gas with sound speed [c] has the state density, velocity (d, u),
    and the fluxes d u of mass and d u^2 + c^2 d of momentum.  At time 0 the gas is
    in one state for x < 0 and in another for x > 0.  The solution is a function
    of the speed x/t: the left state, a wave, a constant state between the waves,
    another wave, the right state. *)
From Coq Require Import Reals List.
From Verif Require Import GasModel.
Import ListNotations.
Open Scope R_scope.

(** The jump conditions across a shock of speed [s]: mass and momentum are
    conserved. *)
Definition jump (c s d1 u1 d2 u2 : R) : Prop :=
  s * (d2 - d1) = d2 * u2 - d1 * u1 /\
  s * (d2 * u2 - d1 * u1) = (d2 * u2 * u2 + c * c * d2) - (d1 * u1 * u1 + c * c * d1).

(** The wave that goes left: a shock compresses the gas, and the sound waves of
    its family run into it from both sides; across a rarefaction u + c ln d does
    not change. *)
Definition shock_left (c dl ul d u s : R) : Prop :=
  dl < d /\ jump c s dl ul d u /\ u - c < s < ul - c.
Definition raref_left (c dl ul d u : R) : Prop :=
  d <= dl /\ u + c * ln d = ul + c * ln dl.
(** The wave that goes right is the mirror image. *)
Definition shock_right (c dr ur d u s : R) : Prop :=
  dr < d /\ jump c s dr ur d u /\ ur + c < s < u + c.
Definition raref_right (c dr ur d u : R) : Prop :=
  d <= dr /\ u - c * ln d = ur - c * ln dr.

(** The constant state between the waves. *)
Definition between (c : R) (Wl Wr : prim1) (d u : R) : Prop :=
  0 < d /\
  ((exists s, shock_left c (wd Wl) (wvx Wl) d u s) \/ raref_left c (wd Wl) (wvx Wl) d u) /\
  ((exists s, shock_right c (wd Wr) (wvx Wr) d u s) \/ raref_right c (wd Wr) (wvx Wr) d u).

(** The state (d, u) of the solution on the line x/t = [xi] left of the contact.
    In a rarefaction the sound waves of its family stand on that line: u - c = xi. *)
Inductive left_of (c dl ul ds us xi : R) : R -> R -> Prop :=
| left_ahead s : shock_left c dl ul ds us s -> xi <= s -> left_of c dl ul ds us xi dl ul
| left_behind s : shock_left c dl ul ds us s -> s <= xi -> left_of c dl ul ds us xi ds us
| left_head : raref_left c dl ul ds us -> xi <= ul - c -> left_of c dl ul ds us xi dl ul
| left_fan d u : raref_left c dl ul ds us -> ul - c <= xi <= us - c ->
    0 < d -> u - c = xi -> u + c * ln d = ul + c * ln dl -> left_of c dl ul ds us xi d u
| left_tail : raref_left c dl ul ds us -> us - c <= xi -> left_of c dl ul ds us xi ds us.
Inductive right_of (c dr ur ds us xi : R) : R -> R -> Prop :=
| right_ahead s : shock_right c dr ur ds us s -> s <= xi -> right_of c dr ur ds us xi dr ur
| right_behind s : shock_right c dr ur ds us s -> xi <= s -> right_of c dr ur ds us xi ds us
| right_head : raref_right c dr ur ds us -> ur + c <= xi -> right_of c dr ur ds us xi dr ur
| right_fan d u : raref_right c dr ur ds us -> us + c <= xi <= ur + c ->
    0 < d -> u + c = xi -> u - c * ln d = ur - c * ln dr -> right_of c dr ur ds us xi d u
| right_tail : raref_right c dr ur ds us -> xi <= us + c -> right_of c dr ur ds us xi ds us.

(** The fluxes of the state (d, u) with the transverse velocities and the scalars
    of [W]. *)
Definition gas_flux (c d u : R) (W : prim1) : cons1 :=
  Cons1 (d * u) (d * u * u + c * c * d) (d * u * wvy W) (d * u * wvz W) 0 0 0
        (map (fun r => d * u * r) (wr W)).

(** [F] is the flux of the exact solution through x = 0.  What the gas carries
    comes from the side from which it blows. *)
Definition exact_flux (c : R) (Wl Wr : prim1) (F : cons1) : Prop :=
  exists ds us d u, between c Wl Wr ds us /\
    ((0 <= us /\ left_of c (wd Wl) (wvx Wl) ds us 0 d u /\ F = gas_flux c d u Wl) \/
     (us <= 0 /\ right_of c (wd Wr) (wvx Wr) ds us 0 d u /\ F = gas_flux c d u Wr)).

(** The conserved variables of the state [W]. *)
Definition conserved (W : prim1) (U : cons1) : Prop :=
  ud U = wd W /\ umx U = wd W * wvx W /\ umy U = wd W * wvy W /\ umz U = wd W * wvz W.
