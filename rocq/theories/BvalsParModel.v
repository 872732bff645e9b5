(** bvals_mhd executed by all Grids of a Domain (src/bvals_mhd.c, MPI_PARALLEL).

    A process performs the exchanges of x1, x2, x3 one after the other.  In the exchange along
    an axis it packs its messages before it changes its own arrays (lines 205-213, 231-237,
    252-258 and the same for x2, x3), sends them, and goes on when the messages of its
    neighbours have arrived.  A message therefore carries the state its sender had after its
    previous exchange, whatever the relative speed of the processes, and the model performs
    the exchange along one axis for all Grids at once.  The order in which two expected
    messages arrive (MPI_Waitany, line 217) is an arbitrary function [swap]. *)
From Coq Require Import ZArith List Bool Lia.
From Verif Require Import Loop BvalsModel.
Import ListNotations.
Open Scope Z_scope.

(** How a Domain is divided: nghost, number of Grids per axis (NGrid), and number of cells of
    the l-th Grid along each axis (GData[n][m][l].Nx, src/init_mesh.c:640-700). *)
Record decomp := Dec { d_ng : Z; d_NG : axis -> nat; d_size : axis -> nat -> Z }.
(** Displacement of a Grid in its Domain (src/init_grid.c:96-100, 118-122, 140-144). *)
Fixpoint disp (D : decomp) (a : axis) (l : nat) : Z :=
  match l with O => 0 | S l' => disp D a l' + d_size D a l' end.
Definition total (D : decomp) (a : axis) : Z := disp D a (d_NG D a).

(** Position (n, m, l) of a Grid in the Domain. *)
Definition gpos : Type := (nat * nat * nat)%type.
Definition gco (a : axis) (g : gpos) : nat :=
  match g with (n, m, l) => match a with A1 => l | A2 => m | A3 => n end end.
Definition gupd (a : axis) (g : gpos) (x : nat) : gpos :=
  match g with (n, m, l) => match a with A1 => (n, m, x) | A2 => (n, x, l) | A3 => (x, m, l) end end.
Definition geo (D : decomp) (g : gpos) : geom :=
  Geom (d_ng D) (d_size D A1 (gco A1 g)) (d_size D A2 (gco A2 g)) (d_size D A3 (gco A3 g)).
(** The Domain as a single Grid. *)
Definition dgeo (D : decomp) : geom := Geom (d_ng D) (total D A1) (total D A2) (total D A3).

Definition is_peri (b : bc) : bool := match b with Peri => true | _ => false end.
(** lx*_id and rx*_id: src/init_grid.c:244-278, with the wrap-around set by bvals_mhd_init for
    periodic boundaries (src/bvals_mhd.c:568-575, 616-623). *)
Definition left_nb (bl : axis -> bc) (D : decomp) (a : axis) (g : gpos) : option gpos :=
  if (0 <? gco a g)%nat then Some (gupd a g (Nat.pred (gco a g)))
  else if is_peri (bl a) && (1 <? d_NG D a)%nat then Some (gupd a g (Nat.pred (d_NG D a))) else None.
Definition right_nb (br : axis -> bc) (D : decomp) (a : axis) (g : gpos) : option gpos :=
  if (S (gco a g) <? d_NG D a)%nat then Some (gupd a g (S (gco a g)))
  else if is_peri (br a) && (1 <? d_NG D a)%nat then Some (gupd a g 0%nat) else None.

Section Par.
Context {F : Type} (neg : F -> F) (zero : F).
(** What a Grid waits for from one side: [expect] is the neighbour it posts MPI_Irecv for,
    [aims h] the neighbour Grid [h] sends to on its facing side.  None: the message is never
    sent and MPI_Wait never returns.  Some None: no neighbour, physical boundary. *)
Definition pos_eqb (g h : gpos) : bool := ((gco A1 g =? gco A1 h) && (gco A2 g =? gco A2 h) && (gco A3 g =? gco A3 h))%nat.
Definition inbox (expect : option gpos) (aims : gpos -> option gpos) (msg : gpos -> list F) (g : gpos) : option (option (list F)) :=
  match expect with
  | None => Some None
  | Some h => match aims h with Some g' => if pos_eqb g' g then Some (Some (msg h)) else None | None => None end
  end.
(** One exchange, for all Grids: src/bvals_mhd.c:184-285 (x1), 289-386 (x2), 405-502 (x3). *)
Definition exchange (n : nat) (bl br : axis -> bc) (D : decomp) (a : axis) (swap : gpos -> bool)
    (st : gpos -> @fields F) (g : gpos) : option fields :=
  obind (inbox (left_nb bl D a g) (right_nb br D a) (fun h => pack (send_r a (geo D h)) (st h)) g) (fun ml =>
  obind (inbox (right_nb br D a g) (left_nb bl D a) (fun h => pack (send_l a (geo D h)) (st h)) g) (fun mr =>
  mpi_axis neg zero n bl br (geo D g) a (swap g) ml mr (st g))).
(** bvals_mhd on all Grids: every Grid completes the three exchanges. *)
Definition exchanged (n : nat) bl br (D : decomp) (a : axis) swap (st st' : gpos -> @fields F) : Prop :=
  forall g, (forall b, (gco b g < d_NG D b)%nat) -> exchange n bl br D a swap st g = Some (st' g).
Definition bvals_all (n : nat) bl br (D : decomp) (swap : axis -> gpos -> bool) (st st' : gpos -> @fields F) : Prop :=
  exists st1 st2, exchanged n bl br D A1 (swap A1) st st1 /\ exchanged n bl br D A2 (swap A2) st1 st2 /\
    exchanged n bl br D A3 (swap A3) st2 st'.
End Par.
