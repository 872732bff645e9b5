(** * Runge-Kutta methods *)
From Coq Require Import Reals List.
From Verif Require Import OdeModel.
Import ListNotations.
Open Scope R_scope.

(** A tableau: for each stage c and the row of a; the weights are given apart. *)
Definition tableau := list (R * list R).
Definition dot (a b : list R) : R := fold_right Rplus 0 (map (fun p => fst p * snd p) (combine a b)).

(** The slopes of an explicit Runge-Kutta method. *)
Fixpoint slopes (f : rhs_t) (x h : R) (y : vec) (T : tableau) (ks : list vec) : list vec :=
  match T with
  | [] => ks
  | (c, row) :: T => slopes f x h y T (ks ++ [f (x + c * h) (fun i => y i + h * dot row (map (fun k => k i) ks))])
  end.
Definition rk_step (f : rhs_t) (T : tableau) (b : list R) (x h : R) (y : vec) : vec :=
  fun i => y i + h * dot b (map (fun k => k i) (slopes f x h y T [])).

(** Butcher's theory: the method has order p if for every rooted tree with at most p
    vertices the weight of the tree is the inverse of its density. *)
Inductive tree := Node (l : list tree).
Fixpoint order (t : tree) : nat := match t with Node l => S (fold_right (fun s a => (order s + a)%nat) 0%nat l) end.
Fixpoint density (t : tree) : R := match t with Node l => INR (order (Node l)) * fold_right (fun s a => density s * a) 1 l end.
(** The vector over the stages of the products over the subtrees. *)
Fixpoint inner (T : tableau) (t : tree) : list R :=
  match t with Node l => map (fun st => fold_right (fun s a => dot (snd st) (inner T s) * a) 1 l) T end.
Definition weight (T : tableau) (b : list R) (t : tree) : R := dot b (inner T t).
Definition consistent (T : tableau) : Prop := forall c row, In (c, row) T -> fold_right Rplus 0 row = c.
Definition of_order (p : nat) (T : tableau) (b : list R) : Prop :=
  consistent T /\ forall t, (order t <= p)%nat -> weight T b t * density t = 1.

(** The tableau of Cash and Karp. *)
Definition cash_karp : tableau :=
  [(0, []); (1 / 5, [1 / 5]); (3 / 10, [3 / 40; 9 / 40]); (3 / 5, [3 / 10; - 9 / 10; 6 / 5]);
   (1, [- 11 / 54; 5 / 2; - 70 / 27; 35 / 27]); (7 / 8, [1631 / 55296; 175 / 512; 575 / 13824; 44275 / 110592; 253 / 4096])].
Definition fifth : list R := [37 / 378; 0; 250 / 621; 125 / 594; 0; 512 / 1771].
Definition fourth : list R := [2825 / 27648; 0; 18575 / 48384; 13525 / 55296; 277 / 14336; 1 / 4].

(** From (x, y) to (x', y') by steps of the method, none leaving the interval from x to x', each with an
    estimated error within [eps] of the scale of each component; the scale
    allows for the change during a step no longer than [H]. *)
Definition accurate (f : rhs_t) (n : nat) (eps H x h : R) (y : vec) : Prop :=
  forall i, (i < n)%nat -> Rabs (rk_step f cash_karp fifth x h y i - rk_step f cash_karp fourth x h y i) <=
                         eps * (Rabs (y i) + Rabs (f x y i) * H + / 10 ^ 20).
Inductive chain (f : rhs_t) (n : nat) (eps H : R) : R -> vec -> R -> vec -> Prop :=
| chain_end x y : chain f n eps H x y x y
| chain_step x y h x' y' : h <> 0 -> 0 <= (x + h - x) * (x' - (x + h)) -> accurate f n eps H x h y ->
    chain f n eps H (x + h) (rk_step f cash_karp fifth x h y) x' y' -> chain f n eps H x y x' y'.
