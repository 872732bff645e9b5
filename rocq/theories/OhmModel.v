(** * src/microphysics/resistivity.c: resistivity(), EField_Ohm(), EField_Hall(), EField_AD()

    Modelled: Cartesian Grids in one, two or three dimensions; with super timestepping the
    caller passes STS_dt in place of the Grid's dt.  Not modelled: shearing box, cylindrical
    geometry, hyper_diffusion4/6 (never called).  A statement that is repeated after a loop for
    one more face is a loop of its own here. *)
From Coq Require Import Reals ZArith List Bool.
From Verif Require Import GasModel IntegModel Ctu3Model CondModel.
Open Scope R_scope.

Notation arr := (Z -> Z -> Z -> R) (only parsing).
(** The diffusivities of the Grid, eta_Ohm, eta_Hall and eta_AD (get_eta.c). *)
Record etas := Etas { e_O : arr; e_H : arr; e_A : arr }.
(** The static arrays J, emf, emfh, Bcor, Jcor and EnerFlux as left by earlier calls. *)
Record rscratch := RScratch {
  z_J1 : arr; z_J2 : arr; z_J3 : arr; z_e1 : arr; z_e2 : arr; z_e3 : arr; z_h1 : arr; z_h2 : arr; z_h3 : arr;
  z_b1 : arr; z_b2 : arr; z_b3 : arr; z_c1 : arr; z_c2 : arr; z_c3 : arr; z_N1 : arr; z_N2 : arr; z_N3 : arr }.

(** The averages 0.5*(..) and 0.25*(..) over the two or four zones behind a face or an edge. *)
Definition av1 (f : arr) (k j i : Z) : R := half * (f k j i + f k j (i - 1)%Z).
Definition av2 (f : arr) (k j i : Z) : R := half * (f k j i + f k (j - 1)%Z i).
Definition av3 (f : arr) (k j i : Z) : R := half * (f k j i + f (k - 1)%Z j i).
Definition av12 (f : arr) (k j i : Z) : R := / 4 * (f k j i + f k (j - 1)%Z i + f k j (i - 1)%Z + f k (j - 1)%Z (i - 1)%Z).
Definition av13 (f : arr) (k j i : Z) : R := / 4 * (f k j i + f (k - 1)%Z j i + f k j (i - 1)%Z + f (k - 1)%Z j (i - 1)%Z).
Definition av23 (f : arr) (k j i : Z) : R := / 4 * (f k j i + f (k - 1)%Z j i + f k (j - 1)%Z i + f (k - 1)%Z (j - 1)%Z i).
(** The sums of the current over the four edges around the edge at (k,j,i): first index the
    component summed, second the component that lives on the edge (e.g. lines 794-797, 1188-1191). *)
Definition s21 (f : arr) (k j i : Z) : R := f k j i + f k j (i + 1)%Z + f k (j - 1)%Z i + f k (j - 1)%Z (i + 1)%Z.
Definition s31 (f : arr) (k j i : Z) : R := f k j i + f k j (i + 1)%Z + f (k - 1)%Z j i + f (k - 1)%Z j (i + 1)%Z.
Definition s12 (f : arr) (k j i : Z) : R := f k j i + f k (j + 1)%Z i + f k j (i - 1)%Z + f k (j + 1)%Z (i - 1)%Z.
Definition s32 (f : arr) (k j i : Z) : R := f k j i + f k (j + 1)%Z i + f (k - 1)%Z j i + f (k - 1)%Z (j + 1)%Z i.
Definition s13 (f : arr) (k j i : Z) : R := f k j i + f (k + 1)%Z j i + f k j (i - 1)%Z + f (k + 1)%Z j (i - 1)%Z.
Definition s23 (f : arr) (k j i : Z) : R := f k j i + f (k + 1)%Z j i + f k (j - 1)%Z i + f (k + 1)%Z (j - 1)%Z i.

(** The part of the current across the field, as in lines 1114-1118, 1148-1151 etc.: eta times
    J - (J.B) b/B^2 for the component of J and B along the edge *)
Definition ad (eta jx jy jz bx b_y bz jn bn : R) : R :=
  let Bsq := bx * bx + b_y * b_y + bz * bz + TINY_NUMBER in
  let JdotB := jx * bx + jy * b_y + jz * bz in
  eta * (jn - JdotB * bn / Bsq).

Section Resistivity.
Variables (c : dcfg) (my_dt : R) (z : rscratch) (e : etas) (g : grid3).
Definition hall : bool := if Rlt_dec 0 (Q_Hall c) then true else false.
Definition ohm : bool := if Rlt_dec 0 (eta_Ohm c) then true else false.
Definition ambi : bool := if Rlt_dec 0 (Q_AD c) then true else false.
Definition q1 : R := my_dt / dx1 g.                                      (* lines 89, 98, 108 *)
Definition q2 : R := my_dt / dx2 g.
Definition q3 : R := my_dt / dx3 g.
Definition rjl := if two c then (js g - 4)%Z else js g.                  (* lines 95-115 *)
Definition rju := if two c then (je g + 4)%Z else je g.
Definition rkl := if three c then (ks g - 4)%Z else ks g.
Definition rku := if three c then (ke g + 4)%Z else ke g.
Definition b1c : arr := fun k j i => cB1 (U g k j i).
Definition b2c : arr := fun k j i => cB2 (U g k j i).
Definition b3c : arr := fun k j i => cB3 (U g k j i).
(** lines 119-127 *)
Definition ez (old : arr) : arr := loop3 rkl rku rjl rju (is g - 4) (ie g + 4) (fun _ _ _ => 0) old.
(** lines 129-142 *)
Definition hz (old : arr) : arr := if hall then loop3 rkl rku rjl rju (is g - 4) (ie g + 4) (fun _ _ _ => 0) old else old.
Definition bz (f old : arr) : arr := if hall then loop3 rkl rku rjl rju (is g - 4) (ie g + 4) f old else old.

(** Step 1, lines 159-243 *)
Definition cur1 (b2 b3 : arr) : arr := fun k j i =>
  / dx2 g * (b3 k j i - b3 k (j - 1)%Z i) - / dx3 g * (b2 k j i - b2 (k - 1)%Z j i).
Definition cur2 (b1 b3 : arr) : arr := fun k j i =>
  / dx3 g * (b1 k j i - b1 (k - 1)%Z j i) - / dx1 g * (b3 k j i - b3 k j (i - 1)%Z).
Definition cur3 (b1 b2 : arr) : arr := fun k j i =>
  / dx1 g * (b2 k j i - b2 k j (i - 1)%Z) - / dx2 g * (b1 k j i - b1 k (j - 1)%Z i).
Definition J1 : arr :=
  if three c then
    loop3 (ks g - 3) (ke g + 4) (js g - 3) (je g + 4) (is g - 4) (is g - 4) (cur1 (B2i g) (B3i g))
      (loop3 (ks g - 3) (ke g + 4) (js g - 3) (je g + 4) (is g - 3) (ie g + 4) (cur1 (B2i g) (B3i g)) (z_J1 z))
  else if two c then
    let f := fun k j i => / dx2 g * (b3c k j i - b3c k (j - 1)%Z i) in
    loop3 (ks g) (ks g) (js g - 3) (je g + 4) (is g - 4) (is g - 4) f
      (loop3 (ks g) (ks g) (js g - 3) (je g + 4) (is g - 3) (ie g + 4) f (z_J1 z))
  else
    loop3 (ks g) (ks g) (js g) (js g) 0 0 (fun _ _ _ => 0)
      (loop3 (ks g) (ks g) (js g) (js g) (is g - 3) (ie g + 4) (fun _ _ _ => 0) (z_J1 z)).
Definition J2 : arr :=
  if three c then
    loop3 (ks g - 3) (ke g + 4) (js g - 4) (js g - 4) (is g - 3) (ie g + 4) (cur2 (B1i g) (B3i g))
      (loop3 (ks g - 3) (ke g + 4) (js g - 3) (je g + 4) (is g - 3) (ie g + 4) (cur2 (B1i g) (B3i g)) (z_J2 z))
  else if two c then
    let f := fun k j i => - (/ dx1 g) * (b3c k j i - b3c k j (i - 1)%Z) in
    loop3 (ks g) (ks g) (js g - 4) (js g - 4) (is g - 3) (ie g + 4) f
      (loop3 (ks g) (ks g) (js g - 3) (je g + 4) (is g - 3) (ie g + 4) f (z_J2 z))
  else
    loop3 (ks g) (ks g) (js g) (js g) (is g - 3) (ie g + 4) (fun k j i => - (b3c k j i - b3c k j (i - 1)%Z) / dx1 g) (z_J2 z).
Definition J3 : arr :=
  if three c then
    loop3 (ks g - 4) (ks g - 4) (js g - 3) (je g + 4) (is g - 3) (ie g + 4) (cur3 (B1i g) (B2i g))
      (loop3 (ks g - 3) (ke g + 4) (js g - 3) (je g + 4) (is g - 3) (ie g + 4) (cur3 (B1i g) (B2i g)) (z_J3 z))
  else if two c then
    loop3 (ks g) (ks g) (js g - 3) (je g + 4) (is g - 3) (ie g + 4) (cur3 (B1i g) (B2i g)) (z_J3 z)
  else
    loop3 (ks g) (ks g) (js g) (js g) (is g - 3) (ie g + 4) (fun k j i => (b2c k j i - b2c k j (i - 1)%Z) / dx1 g) (z_J3 z).

(** EField_Ohm, lines 588-657 *)
Definition O1 (old : arr) : arr :=
  if three c then loop3 (ks g) (ke g + 1) (js g) (je g + 1) (is g) (ie g + 1) (fun k j i => old k j i + av23 (e_O e) k j i * J1 k j i) old
  else if two c then loop3 (ks g) (ks g) (js g) (je g + 1) (is g) (ie g + 1) (fun k j i => old k j i + av2 (e_O e) k j i * J1 k j i) old
  else old.
Definition O2 (old : arr) : arr :=
  if three c then loop3 (ks g) (ke g + 1) (js g) (je g + 1) (is g) (ie g + 1) (fun k j i => old k j i + av13 (e_O e) k j i * J2 k j i) old
  else if two c then loop3 (ks g) (ks g) (js g) (je g + 1) (is g) (ie g + 1) (fun k j i => old k j i + av1 (e_O e) k j i * J2 k j i) old
  else loop3 (ks g) (ks g) (js g) (js g) (is g) (ie g + 1) (fun k j i => old k j i + av1 (e_O e) k j i * J2 k j i) old.
Definition O3 (old : arr) : arr :=
  if three c then loop3 (ks g) (ke g + 1) (js g) (je g + 1) (is g) (ie g + 1) (fun k j i => old k j i + av12 (e_O e) k j i * J3 k j i) old
  else if two c then loop3 (ks g) (ks g) (js g) (je g + 1) (is g) (ie g + 1) (fun k j i => old k j i + av12 (e_O e) k j i * J3 k j i) old
  else loop3 (ks g) (ks g) (js g) (js g) (is g) (ie g + 1) (fun k j i => old k j i + av1 (e_O e) k j i * J3 k j i) old.

(** EField_Hall, lines 706-715: eta_Hall is divided by the field in place *)
Definition eH : arr :=
  loop3 rkl rku rjl rju (is g - 4) (ie g + 4) (fun k j i =>
    e_H e k j i / (sqrt (b1c k j i * b1c k j i + b2c k j i * b2c k j i + b3c k j i * b3c k j i) + TINY_NUMBER)) (e_H e).
(** 1D: lines 726-749 *)
Definition h1_2 : arr :=
  loop3 (ks g) (ks g) (js g) (js g) (is g - 2) (ie g + 3) (fun k j i => av1 eH k j i * J3 k j i * B1i g k j i) (hz (z_h2 z)).
Definition c1_3 : arr :=
  let B := bz (B3i g) (z_b3 z) in
  loop3 (ks g) (ks g) (js g) (js g) (is g - 2) (ie g + 2) (fun k j i => B k j i - q1 * (h1_2 k j (i + 1)%Z - h1_2 k j i)) B.
Definition j1_2 : arr :=
  loop3 (ks g) (ks g) (js g) (js g) (is g - 1) (ie g + 2) (fun k j i => - (c1_3 k j i - c1_3 k j (i - 1)%Z) / dx1 g) (z_c2 z).
Definition h1_3 : arr :=
  loop3 (ks g) (ks g) (js g) (js g) (is g - 1) (ie g + 2) (fun k j i => - av1 eH k j i * j1_2 k j i * B1i g k j i) (hz (z_h3 z)).
(** 2D: lines 764-843.  x1-sweep *)
Definition h2_1 : arr :=
  let B2 := bz (B2i g) (z_b2 z) in let B3 := bz (B3i g) (z_b3 z) in
  loop3 (ks g) (ks g) (js g - 3) (je g + 4) (is g - 3) (ie g + 3) (fun k j i =>
    av2 eH k j i * (/ 8 * s21 J2 k j i * (B3 k j i + B3 k (j - 1)%Z i) - half * ((J3 k j i + J3 k j (i + 1)%Z) * B2 k j i))) (hz (z_h1 z)).
Definition b2_3 : arr :=
  let B := bz (B3i g) (z_b3 z) in
  loop3 (ks g) (ks g) (js g - 3) (je g + 3) (is g - 3) (ie g + 3) (fun k j i => B k j i + q2 * (h2_1 k (j + 1)%Z i - h2_1 k j i)) B.
Definition d1 (b : arr) : arr := fun k j i => (b k j i - b k (j - 1)%Z i) / dx2 g.
Definition d2 (b : arr) : arr := fun k j i => - (b k j i - b k j (i - 1)%Z) / dx1 g.
Definition j2_1 : arr :=
  loop3 (ks g) (ks g) (js g - 2) (je g + 3) (is g - 3) (is g - 3) (d1 b2_3)
    (loop3 (ks g) (ks g) (js g - 2) (je g + 3) (is g - 2) (ie g + 3) (d1 b2_3) (z_c1 z)).
Definition j2_2 : arr :=
  loop3 (ks g) (ks g) (js g - 3) (js g - 3) (is g - 2) (ie g + 3) (d2 b2_3)
    (loop3 (ks g) (ks g) (js g - 2) (je g + 3) (is g - 2) (ie g + 3) (d2 b2_3) (z_c2 z)).
Definition j2_3 : arr := loop3 (ks g) (ks g) (js g - 2) (je g + 3) (is g - 2) (ie g + 3) J3 (z_c3 z).
(** x2-sweep *)
Definition h2_2 : arr :=
  let B1 := bz (B1i g) (z_b1 z) in
  loop3 (ks g) (ks g) (js g - 2) (je g + 2) (is g - 2) (ie g + 3) (fun k j i =>
    av1 eH k j i * (half * ((j2_3 k j i + j2_3 k (j + 1)%Z i) * B1 k j i) - / 8 * s12 j2_1 k j i * (b2_3 k j i + b2_3 k j (i - 1)%Z))) (hz (z_h2 z)).
Definition b2_3' : arr :=
  loop3 (ks g) (ks g) (js g - 2) (je g + 2) (is g - 2) (ie g + 2) (fun k j i => b2_3 k j i - q1 * (h2_2 k j (i + 1)%Z - h2_2 k j i)) b2_3.
Definition j2_1' : arr :=
  loop3 (ks g) (ks g) (js g - 1) (je g + 2) (is g - 2) (is g - 2) (d1 b2_3')
    (loop3 (ks g) (ks g) (js g - 1) (je g + 2) (is g - 1) (ie g + 2) (d1 b2_3') j2_1).
Definition j2_2' : arr :=
  loop3 (ks g) (ks g) (js g - 2) (js g - 2) (is g - 1) (ie g + 2) (d2 b2_3')
    (loop3 (ks g) (ks g) (js g - 1) (je g + 2) (is g - 1) (ie g + 2) (d2 b2_3') j2_2).
(** x3-sweep *)
Definition h2_3 : arr :=
  let B1 := bz (B1i g) (z_b1 z) in let B2 := bz (B2i g) (z_b2 z) in
  loop3 (ks g) (ks g) (js g - 1) (je g + 2) (is g - 1) (ie g + 2) (fun k j i =>
    av12 eH k j i * (/ 4 * (j2_1' k j i + j2_1' k j (i - 1)%Z) * (B2 k j i + B2 k j (i - 1)%Z)
                     - / 4 * (j2_2' k j i + j2_2' k (j - 1)%Z i) * (B1 k j i + B1 k (j - 1)%Z i))) (hz (z_h3 z)).
(** 3D: lines 859-1055.  x1-sweep *)
Definition h3_1 : arr :=
  let B2 := bz (B2i g) (z_b2 z) in let B3 := bz (B3i g) (z_b3 z) in
  loop3 (ks g - 3) (ke g + 4) (js g - 3) (je g + 4) (is g - 3) (ie g + 3) (fun k j i =>
    / 8 * av23 eH k j i * (s21 J2 k j i * (B3 k j i + B3 k (j - 1)%Z i) - s31 J3 k j i * (B2 k j i + B2 (k - 1)%Z j i))) (hz (z_h1 z)).
Definition b3_2 : arr :=
  let B := bz (B2i g) (z_b2 z) in
  loop3 (ks g - 3) (ke g + 3) (js g - 3) (je g + 3) (is g - 3) (ie g + 3) (fun k j i => B k j i - q3 * (h3_1 (k + 1)%Z j i - h3_1 k j i)) B.
Definition b3_3 : arr :=
  let B := bz (B3i g) (z_b3 z) in
  loop3 (ks g - 3) (ke g + 3) (js g - 3) (je g + 3) (is g - 3) (ie g + 3) (fun k j i => B k j i + q2 * (h3_1 k (j + 1)%Z i - h3_1 k j i)) B.
Definition t1 (b2 b3 : arr) : arr := fun k j i => (b3 k j i - b3 k (j - 1)%Z i) / dx2 g - (b2 k j i - b2 (k - 1)%Z j i) / dx3 g.
Definition t2 (b1 b3 : arr) : arr := fun k j i => (b1 k j i - b1 (k - 1)%Z j i) / dx3 g - (b3 k j i - b3 k j (i - 1)%Z) / dx1 g.
Definition t3 (b1 b2 : arr) : arr := fun k j i => (b2 k j i - b2 k j (i - 1)%Z) / dx1 g - (b1 k j i - b1 k (j - 1)%Z i) / dx2 g.
Definition b3_1 : arr := bz (B1i g) (z_b1 z).
Definition j3_1 : arr :=
  loop3 (ks g - 2) (ke g + 3) (js g - 2) (je g + 3) (is g - 3) (is g - 3) (t1 b3_2 b3_3)
    (loop3 (ks g - 2) (ke g + 3) (js g - 2) (je g + 3) (is g - 2) (ie g + 3) (t1 b3_2 b3_3) (z_c1 z)).
Definition j3_2 : arr :=
  loop3 (ks g - 2) (ke g + 3) (js g - 3) (js g - 3) (is g - 2) (ie g + 3) (t2 b3_1 b3_3)
    (loop3 (ks g - 2) (ke g + 3) (js g - 2) (je g + 3) (is g - 2) (ie g + 3) (t2 b3_1 b3_3) (z_c2 z)).
Definition j3_3 : arr :=
  loop3 (ks g - 3) (ks g - 3) (js g - 2) (je g + 3) (is g - 2) (ie g + 3) (t3 b3_1 b3_2)
    (loop3 (ks g - 2) (ke g + 3) (js g - 2) (je g + 3) (is g - 2) (ie g + 3) (t3 b3_1 b3_2) (z_c3 z)).
(** x2-sweep *)
Definition h3_2 : arr :=
  let old := hz (z_h2 z) in
  loop3 (ks g - 2) (ke g + 3) (js g - 2) (je g + 2) (is g - 2) (ie g + 3) (fun k j i =>
    old k j i + / 8 * av13 eH k j i * (s32 j3_3 k j i * (b3_1 k j i + b3_1 (k - 1)%Z j i) - s12 j3_1 k j i * (b3_3 k j i + b3_3 k j (i - 1)%Z))) old.
Definition b3_1' : arr :=
  loop3 (ks g - 2) (ke g + 2) (js g - 2) (je g + 2) (is g - 2) (ie g + 2) (fun k j i => b3_1 k j i + q3 * (h3_2 (k + 1)%Z j i - h3_2 k j i)) b3_1.
Definition b3_3' : arr :=
  loop3 (ks g - 2) (ke g + 2) (js g - 2) (je g + 2) (is g - 2) (ie g + 2) (fun k j i => b3_3 k j i - q1 * (h3_2 k j (i + 1)%Z - h3_2 k j i)) b3_3.
Definition j3_1' : arr :=
  loop3 (ks g - 1) (ke g + 2) (js g - 1) (je g + 2) (is g - 2) (is g - 2) (t1 b3_2 b3_3')
    (loop3 (ks g - 1) (ke g + 2) (js g - 1) (je g + 2) (is g - 1) (ie g + 2) (t1 b3_2 b3_3') j3_1).
Definition j3_2' : arr :=
  loop3 (ks g - 1) (ke g + 2) (js g - 2) (js g - 2) (is g - 1) (ie g + 2) (t2 b3_1' b3_3')
    (loop3 (ks g - 1) (ke g + 2) (js g - 1) (je g + 2) (is g - 1) (ie g + 2) (t2 b3_1' b3_3') j3_2).
(** x3-sweep *)
Definition h3_3 : arr :=
  loop3 (ks g - 1) (ke g + 1) (js g - 1) (je g + 2) (is g - 1) (ie g + 2) (fun k j i =>
    / 8 * av12 eH k j i * (s13 j3_1' k j i * (b3_2 k j i + b3_2 k j (i - 1)%Z) - s23 j3_2' k j i * (b3_1' k j i + b3_1' k (j - 1)%Z i))) (hz (z_h3 z)).
(** lines 751-755, 845-851, 1057-1065 *)
Definition H1 (old : arr) : arr :=
  if three c then loop3 (ks g - 1) (ke g + 1) (js g - 1) (je g + 1) (is g - 1) (ie g + 1) (fun k j i => old k j i + h3_1 k j i) old
  else if two c then loop3 (ks g) (ks g) (js g - 1) (je g + 1) (is g - 1) (ie g + 1) (fun k j i => old k j i + h2_1 k j i) old
  else old.
Definition H2 (old : arr) : arr :=
  if three c then loop3 (ks g - 1) (ke g + 1) (js g - 1) (je g + 1) (is g - 1) (ie g + 1) (fun k j i => old k j i + h3_2 k j i) old
  else if two c then loop3 (ks g) (ks g) (js g - 1) (je g + 1) (is g - 1) (ie g + 1) (fun k j i => old k j i + h2_2 k j i) old
  else loop3 (ks g) (ks g) (js g) (js g) (is g - 1) (ie g + 1) (fun k j i => old k j i + h1_2 k j i) old.
Definition H3 (old : arr) : arr :=
  if three c then loop3 (ks g - 1) (ke g + 1) (js g - 1) (je g + 1) (is g - 1) (ie g + 1) (fun k j i => old k j i + h3_3 k j i) old
  else if two c then loop3 (ks g) (ks g) (js g - 1) (je g + 1) (is g - 1) (ie g + 1) (fun k j i => old k j i + h2_3 k j i) old
  else loop3 (ks g) (ks g) (js g) (js g) (is g - 1) (ie g + 1) (fun k j i => old k j i + h1_3 k j i) old.

(** EField_AD: 1D, lines 1094-1116 *)
Definition ad1 (jn bn : arr) : arr := fun k j i =>
  ad (av1 (e_A e) k j i) 0 (J2 k j i) (J3 k j i) (B1i g k j i) (av1 b2c k j i) (av1 b3c k j i) (jn k j i) (av1 bn k j i).
(** 2D, lines 1118-1188: along x1, x2, x3 *)
Definition ad2_1 : arr := fun k j i => let bx := av2 b1c k j i in
  ad (av2 (e_A e) k j i) (J1 k j i) (/ 4 * s21 J2 k j i) (half * (J3 k j i + J3 k j (i + 1)%Z)) bx (B2i g k j i) (av2 b3c k j i) (J1 k j i) bx.
Definition ad2_2 : arr := fun k j i => let b_y := av1 b2c k j i in
  ad (av1 (e_A e) k j i) (/ 4 * s12 J1 k j i) (J2 k j i) (half * (J3 k j i + J3 k (j + 1)%Z i)) (B1i g k j i) b_y (av1 b3c k j i) (J2 k j i) b_y.
Definition ad2_3 : arr := fun k j i => let bw := av12 b3c k j i in
  ad (av12 (e_A e) k j i) (av1 J1 k j i) (av2 J2 k j i) (J3 k j i) (av2 (B1i g) k j i) (av1 (B2i g) k j i) bw (J3 k j i) bw.
(** 3D, lines 1190-1271 *)
Definition ad3_1 : arr := fun k j i => let bx := av23 b1c k j i in
  ad (av23 (e_A e) k j i) (J1 k j i) (/ 4 * s21 J2 k j i) (/ 4 * s31 J3 k j i) bx (av3 (B2i g) k j i) (av2 (B3i g) k j i) (J1 k j i) bx.
Definition ad3_2 : arr := fun k j i => let b_y := av13 b2c k j i in
  ad (av13 (e_A e) k j i) (/ 4 * s12 J1 k j i) (J2 k j i) (/ 4 * s32 J3 k j i) (av3 (B1i g) k j i) b_y (av1 (B3i g) k j i) (J2 k j i) b_y.
Definition ad3_3 : arr := fun k j i => let bw := av12 b3c k j i in
  ad (av12 (e_A e) k j i) (/ 4 * s13 J1 k j i) (/ 4 * s23 J2 k j i) (J3 k j i) (av2 (B1i g) k j i) (av1 (B2i g) k j i) bw (J3 k j i) bw.
Definition A1 (old : arr) : arr :=
  if three c then loop3 (ks g - 1) (ke g + 1) (js g - 1) (je g + 1) (is g - 1) (ie g + 1) (fun k j i => old k j i + ad3_1 k j i) old
  else if two c then loop3 (ks g) (ks g) (js g) (je g + 1) (is g) (ie g + 1) (fun k j i => old k j i + ad2_1 k j i) old
  else old.
Definition A2 (old : arr) : arr :=
  if three c then loop3 (ks g - 1) (ke g + 1) (js g - 1) (je g + 1) (is g - 1) (ie g + 1) (fun k j i => old k j i + ad3_2 k j i) old
  else if two c then loop3 (ks g) (ks g) (js g) (je g + 1) (is g) (ie g + 1) (fun k j i => old k j i + ad2_2 k j i) old
  else loop3 (ks g) (ks g) (js g) (js g) (is g) (ie g + 1) (fun k j i => old k j i + ad1 J2 b2c k j i) old.
Definition A3 (old : arr) : arr :=
  if three c then loop3 (ks g - 1) (ke g + 1) (js g - 1) (je g + 1) (is g - 1) (ie g + 1) (fun k j i => old k j i + ad3_3 k j i) old
  else if two c then loop3 (ks g) (ks g) (js g) (je g + 1) (is g) (ie g + 1) (fun k j i => old k j i + ad2_3 k j i) old
  else loop3 (ks g) (ks g) (js g) (js g) (is g) (ie g + 1) (fun k j i => old k j i + ad1 J3 b3c k j i) old.

(** Step 2, lines 285-287 *)
Definition step2 (O H A : arr -> arr) (z0 : arr) : arr :=
  let f := ez z0 in
  let f := if ohm then O f else f in
  let f := if hall then H f else f in
  if ambi then A f else f.
Definition emf1 : arr := step2 O1 H1 A1 (z_e1 z).
Definition emf2 : arr := step2 O2 H2 A2 (z_e2 z).
Definition emf3 : arr := step2 O3 H3 A3 (z_e3 z).

(** Step 3, lines 330-413 *)
Definition N1 : arr :=
  if three c then loop3 (ks g) (ke g) (js g) (je g) (is g) (ie g + 1) (fun k j i =>
    / 4 * (b2c k j i + b2c k j (i - 1)%Z) * (emf3 k j i + emf3 k (j + 1)%Z i) - / 4 * (b3c k j i + b3c k j (i - 1)%Z) * (emf2 k j i + emf2 (k + 1)%Z j i)) (z_N1 z)
  else if two c then loop3 (ks g) (ks g) (js g) (je g) (is g) (ie g + 1) (fun k j i =>
    / 4 * (b2c k j i + b2c k j (i - 1)%Z) * (emf3 k j i + emf3 k (j + 1)%Z i) - half * (b3c k j i + b3c k j (i - 1)%Z) * emf2 k j i) (z_N1 z)
  else loop3 (ks g) (ks g) (js g) (js g) (is g) (ie g + 1) (fun k j i =>
    half * (b2c k j i + b2c k j (i - 1)%Z) * emf3 k j i - half * (b3c k j i + b3c k j (i - 1)%Z) * emf2 k j i) (z_N1 z).
Definition N2 : arr :=
  if three c then loop3 (ks g) (ke g) (js g) (je g + 1) (is g) (ie g) (fun k j i =>
    / 4 * (b3c k j i + b3c k (j - 1)%Z i) * (emf1 k j i + emf1 (k + 1)%Z j i) - / 4 * (b1c k j i + b1c k (j - 1)%Z i) * (emf3 k j i + emf3 k j (i + 1)%Z)) (z_N2 z)
  else if two c then loop3 (ks g) (ks g) (js g) (je g + 1) (is g) (ie g) (fun k j i =>
    half * (b3c k j i + b3c k (j - 1)%Z i) * emf1 k j i - / 4 * (b1c k j i + b1c k (j - 1)%Z i) * (emf3 k j i + emf3 k j (i + 1)%Z)) (z_N2 z)
  else z_N2 z.
Definition N3 : arr :=
  if three c then loop3 (ks g) (ke g + 1) (js g) (je g) (is g) (ie g) (fun k j i =>
    / 4 * (b1c k j i + b1c (k - 1)%Z j i) * (emf2 k j i + emf2 k j (i + 1)%Z) - / 4 * (b2c k j i + b2c (k - 1)%Z j i) * (emf1 k j i + emf1 k (j + 1)%Z i)) (z_N3 z)
  else z_N3 z.
(** Step 4, lines 418-453: the energy of a cell (not BAROTROPIC) *)
Definition En1 : arr :=
  loop3 (ks g) (ke g) (js g) (je g) (is g) (ie g) (fun k j i => cE (U g k j i) + q1 * (N1 k j (i + 1)%Z - N1 k j i)) (fun k j i => cE (U g k j i)).
Definition En2 : arr :=
  if two c then loop3 (ks g) (ke g) (js g) (je g) (is g) (ie g) (fun k j i => En1 k j i + q2 * (N2 k (j + 1)%Z i - N2 k j i)) En1 else En1.
Definition En3 : arr :=
  if three c then loop3 (ks g) (ke g) (js g) (je g) (is g) (ie g) (fun k j i => En2 k j i + q3 * (N3 (k + 1)%Z j i - N3 k j i)) En2 else En2.
Definition En : arr := if barotropic c then fun k j i => cE (U g k j i) else En3.

(** Step 5, lines 461-557: the fields.  f1, f2, f3 are B1i, B2i, B3i after the CT update *)
Definition ct1 : arr := fun k j i =>
  if three c then B1i g k j i + (q3 * (emf2 (k + 1)%Z j i - emf2 k j i) - q2 * (emf3 k (j + 1)%Z i - emf3 k j i))
  else B1i g k j i - q2 * (emf3 k (j + 1)%Z i - emf3 k j i).
Definition ct2 : arr := fun k j i =>
  if three c then B2i g k j i + (q1 * (emf3 k j (i + 1)%Z - emf3 k j i) - q3 * (emf1 (k + 1)%Z j i - emf1 k j i))
  else B2i g k j i + q1 * (emf3 k j (i + 1)%Z - emf3 k j i).
Definition ct3 : arr := fun k j i => B3i g k j i + (q2 * (emf1 k (j + 1)%Z i - emf1 k j i) - q1 * (emf2 k j (i + 1)%Z - emf2 k j i)).
Definition f1 : arr :=
  if three c then
    loop3 (ks g) (ke g) (js g) (je g) (ie g + 1) (ie g + 1) ct1 (loop3 (ks g) (ke g) (js g) (je g) (is g) (ie g) ct1 (B1i g))
  else if two c then
    loop3 (ks g) (ks g) (js g) (je g) (ie g + 1) (ie g + 1) ct1 (loop3 (ks g) (ks g) (js g) (je g) (is g) (ie g) ct1 (B1i g))
  else B1i g.
Definition f2 : arr :=
  if three c then
    loop3 (ks g) (ke g) (je g + 1) (je g + 1) (is g) (ie g) ct2 (loop3 (ks g) (ke g) (js g) (je g) (is g) (ie g) ct2 (B2i g))
  else if two c then
    loop3 (ks g) (ks g) (je g + 1) (je g + 1) (is g) (ie g) ct2 (loop3 (ks g) (ks g) (js g) (je g) (is g) (ie g) ct2 (B2i g))
  else B2i g.
Definition f3 : arr :=
  if three c then
    loop3 (ke g + 1) (ke g + 1) (js g) (je g) (is g) (ie g) ct3 (loop3 (ks g) (ke g) (js g) (je g) (is g) (ie g) ct3 (B3i g))
  else B3i g.
(** ... the cell-centred fields *)
Definition n1c : arr :=
  if three c then loop3 (ks g) (ke g) (js g) (je g) (is g) (ie g) (fun k j i => half * (f1 k j i + f1 k j (i + 1)%Z)) b1c
  else if two c then loop3 (ks g) (ks g) (js g) (je g) (is g) (ie g) (fun k j i => half * (f1 k j i + f1 k j (i + 1)%Z)) b1c
  else b1c.
Definition n2c : arr :=
  if three c then loop3 (ks g) (ke g) (js g) (je g) (is g) (ie g) (fun k j i => half * (f2 k j i + f2 k (j + 1)%Z i)) b2c
  else if two c then loop3 (ks g) (ks g) (js g) (je g) (is g) (ie g) (fun k j i => half * (f2 k j i + f2 k (j + 1)%Z i)) b2c
  else loop3 (ks g) (ks g) (js g) (js g) (is g) (ie g) (fun k j i => b2c k j i + q1 * (emf3 k j (i + 1)%Z - emf3 k j i)) b2c.
Definition n3c : arr :=
  if three c then loop3 (ks g) (ke g) (js g) (je g) (is g) (ie g) (fun k j i => half * (f3 k j i + f3 (k + 1)%Z j i)) b3c
  else if two c then loop3 (ks g) (ks g) (js g) (je g) (is g) (ie g) (fun k j i =>
    b3c k j i + (q2 * (emf1 k (j + 1)%Z i - emf1 k j i) - q1 * (emf2 k j (i + 1)%Z - emf2 k j i))) b3c
  else loop3 (ks g) (ks g) (js g) (js g) (is g) (ie g) (fun k j i => b3c k j i - q1 * (emf2 k j (i + 1)%Z - emf2 k j i)) b3c.
(** ... and the faces that copy them, lines 469-470, 506 *)
Definition g2 : arr :=
  if two c then f2 else loop3 (ks g) (ks g) (js g) (js g) (is g) (ie g) n2c f2.
Definition g3 : arr :=
  if three c then f3
  else if two c then loop3 (ks g) (ks g) (js g) (je g) (is g) (ie g) n3c f3
  else loop3 (ks g) (ks g) (js g) (js g) (is g) (ie g) n3c f3.
(** resistivity(): the Grid and its diffusivities afterwards *)
Definition Ur : Z -> Z -> Z -> cons := fun k j i => let u := U g k j i in
  Cons (cd u) (cM1 u) (cM2 u) (cM3 u) (En k j i) (n1c k j i) (n2c k j i) (n3c k j i) (cs u).
Definition resistivity : grid3 :=
  Grid3 (is g) (ie g) (js g) (je g) (ks g) (ke g) (dt g) (dx1 g) (dx2 g) (dx3 g) (MinX1 g) (MinX2 g) (MinX3 g)
        Ur f1 g2 g3 (Phi g) (x1Mass g) (x2Mass g) (x3Mass g).
Definition etas_after : etas := Etas (e_O e) (if hall then eH else e_H e) (e_A e).
End Resistivity.
