(** * Specification vocabulary for the diffusivities *)
From Coq Require Import Reals ZArith List.
From Verif Require Import GasModel IntegModel IntegSpec Ctu3Model Integ3Spec CondModel DiffSpec OhmModel.
Open Scope R_scope.

(** Around cell (k,j,i) and cell (k',j',i') the diffusivities agree for offsets from a to b. *)
Definition enear (c : dcfg) (e e' : etas) (k j i k' j' i' a b : Z) : Prop := forall dk dj di, offset c a b dk dj di ->
  e_O e' (k' + dk)%Z (j' + dj)%Z (i' + di)%Z = e_O e (k + dk)%Z (j + dj)%Z (i + di)%Z /\
  e_H e' (k' + dk)%Z (j' + dj)%Z (i' + di)%Z = e_H e (k + dk)%Z (j + dj)%Z (i + di)%Z /\
  e_A e' (k' + dk)%Z (j' + dj)%Z (i' + di)%Z = e_A e (k + dk)%Z (j + dj)%Z (i + di)%Z.
(** The diffusivities of the ghost zones are those of the periodic images. *)
Definition eperiodic (c : dcfg) (g : grid3) (e : etas) : Prop :=
  let N1 := (ie g - is g + 1)%Z in let N2 := (je g - js g + 1)%Z in let N3 := (ke g - ks g + 1)%Z in
  let im := fun k j i k' j' i' => e_O e k' j' i' = e_O e k j i /\ e_H e k' j' i' = e_H e k j i /\ e_A e k' j' i' = e_A e k j i in
  forall k j i, dzone c g k j i ->
    (dzone c g k j (i + N1) -> im k j i k j (i + N1)%Z) /\
    (two c = true -> dzone c g k (j + N2) i -> im k j i k (j + N2)%Z i) /\
    (three c = true -> dzone c g (k + N3) j i -> im k j i (k + N3)%Z j i).
(** Every cell, face and ghost zone has the field (b1,b2,b3). *)
Definition field_is (c : dcfg) (g : grid3) (b1 b2 b3 : R) : Prop :=
  forall k j i, dzone c g k j i ->
    cB1 (U g k j i) = b1 /\ cB2 (U g k j i) = b2 /\ cB3 (U g k j i) = b3 /\
    ((is g - nghost < i)%Z -> B1i g k j i = b1) /\ ((two c = true -> js g - nghost < j)%Z -> B2i g k j i = b2) /\ ((three c = true -> ks g - nghost < k)%Z -> B3i g k j i = b3).
(** The field with which the cell at (k,j,i) counts: that of its lower faces in the directions
    the run has. *)
Definition fld2 (c : dcfg) (g : grid3) (k j i : Z) : R := if two c then B2i g k j i else cB2 (U g k j i).
Definition fld3 (c : dcfg) (g : grid3) (k j i : Z) : R := if three c then B3i g k j i else cB3 (U g k j i).
(** The magnetic energy of the Grid, per unit of cell volume. *)
Definition magnetic_energy (c : dcfg) (g : grid3) : R :=
  sumZ (ks g) (ke g) (fun k => sumZ (js g) (je g) (fun j => sumZ (is g) (ie g) (fun i =>
    (B1i g k j i * B1i g k j i + fld2 c g k j i * fld2 c g k j i + fld3 c g k j i * fld3 c g k j i) / 2))).
(** 1/dx1^2 + 1/dx2^2 + 1/dx3^2 over the directions the run has. *)
Definition inverse_squares (c : dcfg) (g : grid3) : R :=
  / (dx1 g * dx1 g) + (if two c then / (dx2 g * dx2 g) else 0) + (if three c then / (dx3 g * dx3 g) else 0).

(** ** Fields given by polynomials of position *)
(** p0 + p1 x1 + p2 x2 + p3 x3 *)
Record affine := Affine { l_0 : R; l_1 : R; l_2 : R; l_3 : R }.
Definition lev (p : affine) (x y w : R) : R := l_0 p + l_1 p * x + l_2 p * y + l_3 p * w.
(** Positions of cell centres and of lower faces; there is one position in a direction that the
    run does not have. *)
Definition xc1 (g : grid3) (i : Z) : R := IZR i * dx1 g.
Definition xf1 (g : grid3) (i : Z) : R := (IZR i - / 2) * dx1 g.
Definition xc2 (c : dcfg) (g : grid3) (j : Z) : R := if two c then IZR j * dx2 g else 0.
Definition xf2 (c : dcfg) (g : grid3) (j : Z) : R := if two c then (IZR j - / 2) * dx2 g else 0.
Definition xc3 (c : dcfg) (g : grid3) (k : Z) : R := if three c then IZR k * dx3 g else 0.
Definition xf3 (c : dcfg) (g : grid3) (k : Z) : R := if three c then (IZR k - / 2) * dx3 g else 0.
(** Around (k,j,i) the field is (p1,p2,p3), in the cells and on the faces. *)
Definition affine_field (c : dcfg) (g : grid3) (p1 p2 p3 : affine) (k j i : Z) : Prop :=
  forall dk dj di, offset c (-4) 4 dk dj di -> let k' := (k + dk)%Z in let j' := (j + dj)%Z in let i' := (i + di)%Z in
    let u := U g k' j' i' in
    cB1 u = lev p1 (xc1 g i') (xc2 c g j') (xc3 c g k') /\ cB2 u = lev p2 (xc1 g i') (xc2 c g j') (xc3 c g k') /\ cB3 u = lev p3 (xc1 g i') (xc2 c g j') (xc3 c g k') /\
    B1i g k' j' i' = lev p1 (xf1 g i') (xc2 c g j') (xc3 c g k') /\ B2i g k' j' i' = lev p2 (xc1 g i') (xf2 c g j') (xc3 c g k') /\ B3i g k' j' i' = lev p3 (xc1 g i') (xc2 c g j') (xf3 c g k').
(** The diffusivities around (k,j,i): eta_Ohm = o, eta_Hall = q |B| and eta_AD = a (the code
    divides eta_Hall by |B| + TINY_NUMBER). *)
Definition plain_etas (c : dcfg) (g : grid3) (e : etas) (o q a : R) (k j i : Z) : Prop :=
  forall dk dj di, offset c (-4) 4 dk dj di -> let k' := (k + dk)%Z in let j' := (j + dj)%Z in let i' := (i + di)%Z in
    let u := U g k' j' i' in
    e_O e k' j' i' = o /\ e_A e k' j' i' = a /\ e_H e k' j' i' = q * (sqrt (cB1 u * cB1 u + cB2 u * cB2 u + cB3 u * cB3 u) + TINY_NUMBER).
(** The current of an affine field. *)
Definition d_2 (c : dcfg) (p : affine) : R := if two c then l_2 p else 0.
Definition d_3 (c : dcfg) (p : affine) : R := if three c then l_3 p else 0.
Definition j_1 (c : dcfg) (p2 p3 : affine) : R := d_2 c p3 - d_3 c p2.
Definition j_2 (c : dcfg) (p1 p3 : affine) : R := d_3 c p1 - l_1 p3.
Definition j_3 (c : dcfg) (p1 p2 : affine) : R := l_1 p2 - d_2 c p1.
(** Ohm's law in a field b with current j, one component: j and b along n are jn and bn, that
    of j x b is xn. *)
Definition ohms_law (o q a j1 j2 j3 b1 b2 b3 jn bn xn : R) : R :=
  o * jn + q * xn + a * (jn - (j1 * b1 + j2 * b2 + j3 * b3) * bn / (b1 * b1 + b2 * b2 + b3 * b3 + TINY_NUMBER)).
Definition field_E (c : dcfg) (o q a : R) (p1 p2 p3 : affine) (x y w : R) : R * R * R :=
  let j1 := j_1 c p2 p3 in let j2 := j_2 c p1 p3 in let j3 := j_3 c p1 p2 in
  let b1 := lev p1 x y w in let b2 := lev p2 x y w in let b3 := lev p3 x y w in
  let L := ohms_law (if Rlt_dec 0 (eta_Ohm c) then o else 0) (if Rlt_dec 0 (Q_Hall c) then q else 0) (if Rlt_dec 0 (Q_AD c) then a else 0) j1 j2 j3 b1 b2 b3 in
  (L j1 b1 (j2 * b3 - j3 * b2), L j2 b2 (j3 * b1 - j1 * b3), L j3 b3 (j1 * b2 - j2 * b1)).
(** A polynomial of degree two. *)
Record quadratic := Quadratic { t_l : affine; t_11 : R; t_22 : R; t_33 : R; t_12 : R; t_13 : R; t_23 : R }.
Definition qev (p : quadratic) (x y w : R) : R :=
  lev (t_l p) x y w + t_11 p * (x * x) + t_22 p * (y * y) + t_33 p * (w * w) + t_12 p * (x * y) + t_13 p * (x * w) + t_23 p * (y * w).
(** Around (k,j,i) the fields of cells and faces that count are (p1,p2,p3). *)
Definition quadratic_field (c : dcfg) (g : grid3) (p1 p2 p3 : quadratic) (k j i : Z) : Prop :=
  forall dk dj di, offset c (-1) 1 dk dj di -> let k' := (k + dk)%Z in let j' := (j + dj)%Z in let i' := (i + di)%Z in
    B1i g k' j' i' = qev p1 (xf1 g i') (xc2 c g j') (xc3 c g k') /\ fld2 c g k' j' i' = qev p2 (xc1 g i') (xf2 c g j') (xc3 c g k') /\ fld3 c g k' j' i' = qev p3 (xc1 g i') (xc2 c g j') (xf3 c g k').
