(** * Model of the Newtonian parts of src/convert_var.c

    Real numbers stand for double-precision numbers, with one exception: a
    division by zero and the square root of a negative number, which give an
    infinity or a NaN in C, are the distinct outcome [None].
    Not modelled: special relativity, cylindrical coordinates (Pflux). *)
From Coq Require Import Reals List Bool.
Import ListNotations.
Open Scope R_scope.

(** The equation of state chosen at configuration time, with Gamma or Iso_csound
    of src/main.c:354-359. *)
Inductive eos := Adiabatic (gamma : R) | Isothermal (csound : R).
Record gcfg := GCfg { g_mhd : bool; g_eos : eos }.

Definition TINY_NUMBER : R := / 10 ^ 20.                       (* src/defs.h.in:158 *)
Definition half : R := 1 / 2.
Definition SQR (x : R) : R := x * x.                           (* src/defs.h.in:149 *)
(** src/defs.h.in:143, 146, 148. *)
Definition MIN (a b : R) : R := if Rlt_dec a b then a else b.
Definition MAX (a b : R) : R := if Rlt_dec b a then a else b.
Definition SIGN (a : R) : R := if Rlt_dec a 0 then -1 else 1.

(** Floating-point division and square root, see above. *)
Definition odiv (a b : R) : option R := if Req_EM_T b 0 then None else Some (a / b).
Definition osqrt (a : R) : option R := if Rlt_dec a 0 then None else Some (sqrt a).
Definition obind {A B} (x : option A) (f : A -> option B) : option B :=
  match x with Some a => f a | None => None end.
Notation "' p <~ e ;; f" := (obind e (fun x => match x with p => f end)) (at level 60, p pattern, e at level 50, right associativity).
Notation "x <~ e ;; f" := (obind e (fun x => f)) (at level 60, e at level 50, right associativity).

(** src/athena.h:135-153 Cons1DS and 160-175 Prim1DS.  A member that the
    configuration does not have is 0.  The scalars form a list. *)
Record cons1 := Cons1 { ud : R; umx : R; umy : R; umz : R; ue : R; uby : R; ubz : R; us : list R }.
Record prim1 := Prim1 { wd : R; wvx : R; wvy : R; wvz : R; wp : R; wby : R; wbz : R; wr : list R }.

(** src/convert_var.c:389-421 Cons1D_to_Prim1D. *)
Definition Cons1D_to_Prim1D (c : gcfg) (U : cons1) (Bx : R) : option prim1 :=
  di <~ odiv 1 (ud U) ;;
  let P := match g_eos c with
           | Isothermal _ => 0
           | Adiabatic g =>
               let p := ue U - half * (SQR (umx U) + SQR (umy U) + SQR (umz U)) * di in
               let p := if g_mhd c then p - half * (SQR Bx + SQR (uby U) + SQR (ubz U)) else p in
               let p := p * (g - 1) in
               MAX p TINY_NUMBER
           end in
  Some (Prim1 (ud U) (umx U * di) (umy U * di) (umz U * di) P
              (if g_mhd c then uby U else 0) (if g_mhd c then ubz U else 0)
              (map (fun s => s * di) (us U))).

(** src/convert_var.c:432-462 Prim1D_to_Cons1D. *)
Definition Prim1D_to_Cons1D (c : gcfg) (W : prim1) (Bx : R) : option cons1 :=
  E <~ match g_eos c with
       | Isothermal _ => Some 0
       | Adiabatic g =>
           q <~ odiv (wp W) (g - 1) ;;
           let e := q + half * wd W * (SQR (wvx W) + SQR (wvy W) + SQR (wvz W)) in
           Some (if g_mhd c then e + half * (SQR Bx + SQR (wby W) + SQR (wbz W)) else e)
       end ;;
  Some (Cons1 (wd W) (wd W * wvx W) (wd W * wvy W) (wd W * wvz W) E
              (if g_mhd c then wby W else 0) (if g_mhd c then wbz W else 0)
              (map (fun r => r * wd W) (wr W))).

(** src/athena.h:85-105 ConsS and 112-128 PrimS (the cell-centred members). *)
Record cons := Cons { cd : R; cM1 : R; cM2 : R; cM3 : R; cE : R; cB1 : R; cB2 : R; cB3 : R; cs : list R }.
Record prim := Prim { pd : R; pV1 : R; pV2 : R; pV3 : R; pP : R; pB1 : R; pB2 : R; pB3 : R; pr : list R }.

(** src/convert_var.c:104-147 Cons_to_Prim. *)
Definition Cons_to_Prim (c : gcfg) (C : cons) : option prim :=
  let Bx := if g_mhd c then cB1 C else 0 in
  let E := match g_eos c with Isothermal _ => 0 | Adiabatic _ => cE C end in
  let U := Cons1 (cd C) (cM1 C) (cM2 C) (cM3 C) E
                 (if g_mhd c then cB2 C else 0) (if g_mhd c then cB3 C else 0) (cs C) in
  W <~ Cons1D_to_Prim1D c U Bx ;;
  Some (Prim (wd W) (wvx W) (wvy W) (wvz W)
             (match g_eos c with Isothermal _ => 0 | Adiabatic _ => wp W end)
             (if g_mhd c then Bx else 0) (if g_mhd c then wby W else 0) (if g_mhd c then wbz W else 0)
             (wr W)).

(** src/convert_var.c:159-204 Prim_to_Cons. *)
Definition Prim_to_Cons (c : gcfg) (P : prim) : option cons :=
  let Bx := if g_mhd c then pB1 P else 0 in
  let p := match g_eos c with Isothermal _ => 0 | Adiabatic _ => pP P end in
  let W := Prim1 (pd P) (pV1 P) (pV2 P) (pV3 P) p
                 (if g_mhd c then pB2 P else 0) (if g_mhd c then pB3 P else 0) (pr P) in
  U <~ Prim1D_to_Cons1D c W Bx ;;
  Some (Cons (ud U) (umx U) (umy U) (umz U)
             (match g_eos c with Isothermal _ => 0 | Adiabatic _ => ue U end)
             (if g_mhd c then Bx else 0) (if g_mhd c then uby U else 0) (if g_mhd c then ubz U else 0)
             (us U)).

(** src/convert_var.c:493-497 and 534-538: the speed from the squares of the
    sound, transverse and normal Alfven speeds. *)
Definition fast (asq ctsq casq : R) : option R :=
  let tmp := casq + ctsq - asq in
  r <~ osqrt (tmp * tmp + 4 * asq * ctsq) ;;
  let cfsq := half * ((asq + ctsq + casq) + r) in
  osqrt cfsq.

(** src/convert_var.c:470-499 cfast_prim. *)
Definition cfast_prim (c : gcfg) (W : prim1) (Bx : R) : option R :=
  asq <~ match g_eos c with
         | Isothermal a => Some (a * a)
         | Adiabatic g => odiv (g * wp W) (wd W)
         end ;;
  if g_mhd c then
    ctsq <~ odiv (SQR (wby W) + SQR (wbz W)) (wd W) ;;
    casq <~ odiv (SQR Bx) (wd W) ;;
    fast asq ctsq casq
  else osqrt asq.

(** src/convert_var.c:507-540 cfast.  There is no pressure floor. *)
Definition cfast (c : gcfg) (U : cons1) (Bx : R) : option R :=
  asq <~ match g_eos c with
         | Isothermal a => Some (a * a)
         | Adiabatic g =>
             let pb := if g_mhd c then half * (SQR Bx + SQR (uby U) + SQR (ubz U)) else 0 in
             k <~ odiv (half * (SQR (umx U) + SQR (umy U) + SQR (umz U))) (ud U) ;;
             let p := (g - 1) * (ue U - pb - k) in
             odiv (g * p) (ud U)
         end ;;
  if g_mhd c then
    ctsq <~ odiv (SQR (uby U) + SQR (ubz U)) (ud U) ;;
    casq <~ odiv (SQR Bx) (ud U) ;;
    fast asq ctsq casq
  else osqrt asq.
