(** * Model of the isothermal exact Riemann solver, src/rsolvers/exact.c:63-356

    Real numbers stand for double-precision numbers, with the distinct outcome
    [None] for a division by zero, the square root of a negative number and the
    logarithm of a number that is not positive (GasModel.v).  Iso_csound2 is
    written [c * c], as src/main.c:355 sets it.
    Not modelled: the adiabatic solver in the same file. *)
From Coq Require Import Reals List Bool.
From Verif Require Import GasModel.
Import ListNotations.
Open Scope R_scope.

(** log() of the C library on a positive number. *)
Definition olog (a : R) : option R := if Rlt_dec 0 a then Some (ln a) else None.

(** What a call of fluxes does: it stores a flux, it stops the program
    (ath_error), or a number in it is an infinity or a NaN. *)
Inductive outcome := Flux (F : cons1) | Stops | NotANumber.

Section Exact.
Variable c : R.                                   (* Iso_csound *)

(** exact.c:289-296 srder: the function of the density whose zero is sought, and
    its derivative. *)
Definition srder (dm vl vr dmin dmax : R) : option (R * R) :=
  q <~ odiv dm dmax ;;
  l <~ olog q ;;
  s <~ osqrt (dm * dmin) ;;
  t <~ odiv (dm - dmin) s ;;
  e <~ odiv c dm ;;
  h <~ odiv (half * (dm + dmin)) s ;;
  Some ((vr - vl) + c * (l + t), e * (1 + h)).

Definition MAXIT : nat := 100.                    (* exact.c:305 *)
Definition DBL_EPSILON : R := / 2 ^ 52.           (* C library, float.h *)
Definition xacc : R := 2 * DBL_EPSILON.           (* exact.c:126 *)

(** exact.c:333-353, the loop of rtsafe with [n] iterations left.  The boolean is
    not in the code: it is false if the cap on the iterations was reached. *)
Fixpoint rt_loop (vl vr dmin dmax : R) (n : nat) (f df xl xh rts dx dxold : R) : option (R * bool) :=
  match n with
  | O => Some (rts, false)
  | S n' =>
      let go rts' dx' :=
        if Rlt_dec (Rabs dx') xacc then Some (rts', true) else
        '(f', df') <~ srder rts' vl vr dmin dmax ;;
        if Rlt_dec f' 0 then rt_loop vl vr dmin dmax n' f' df' rts' xh rts' dx' dx
        else rt_loop vl vr dmin dmax n' f' df' xl rts' rts' dx' dx in
      if (if Rlt_dec 0 (((rts - xh) * df - f) * ((rts - xl) * df - f)) then true
          else if Rlt_dec (Rabs (dxold * df)) (Rabs (2 * f)) then true else false)
      then let dx' := half * (xh - xl) in
           let rts' := xl + dx' in
           if Req_EM_T xl rts' then Some (rts', true) else go rts' dx'
      else dx' <~ odiv f df ;;
           let rts' := rts - dx' in
           if Req_EM_T rts rts' then Some (rts', true) else go rts' dx'
  end.

(** exact.c:307-356 rtsafe. *)
Definition rtsafe (x1 x2 vl vr dmin dmax : R) : option (R * bool) :=
  '(fl, _) <~ srder x1 vl vr dmin dmax ;;
  '(fh, _) <~ srder x2 vl vr dmin dmax ;;
  if (if Rlt_dec 0 fl then if Rlt_dec 0 fh then true else false else false)
     || (if Rlt_dec fl 0 then if Rlt_dec fh 0 then true else false else false)
  then Some (0, true)
  else if Req_EM_T fl 0 then Some (x1, true)
  else if Req_EM_T fh 0 then Some (x2, true)
  else
    let '(xl, xh) := if Rlt_dec fl 0 then (x1, x2) else (x2, x1) in
    let rts := half * (x1 + x2) in
    let dxold := Rabs (x2 - x1) in
    '(f, df) <~ srder rts vl vr dmin dmax ;;
    rt_loop vl vr dmin dmax MAXIT f df xl xh rts dxold dxold.

(** exact.c:85-153, step 1: the two bits of [soln] (left rarefaction, right
    rarefaction), the density and the velocity of the intermediate state. *)
Record star := Star { lraref : bool; rraref : bool; sdm : R; svx : R }.

(** exact.c:110-113 and 146-149. *)
Definition two_rarefactions (Wl Wr : prim1) (zl zr : R) : option (R * R) :=
  e <~ odiv (wvx Wl - wvx Wr) (2 * c) ;;
  let dm := zl * zr * exp e in
  q <~ odiv dm (wd Wl) ;;
  l <~ olog q ;;
  Some (dm, wvx Wl - c * l).

Definition intermediate (Wl Wr : prim1) (zl zr : R) : option star :=
  tmp <~ odiv (zl * zr * (wvx Wl - wvx Wr)) (2 * c * (zl + zr)) ;;
  r <~ osqrt (tmp * tmp + zl * zr) ;;
  let zm := tmp + r in
  let dm := zm * zm in
  g <~ odiv (c * (dm - wd Wl)) (zm * zl) ;;
  let Vxm := wvx Wl - g in
  let dmin := MIN (wd Wl) (wd Wr) in
  let dmax := MAX (wd Wl) (wd Wr) in
  if Rlt_dec dm dmax then
    '(dm2, Vx2) <~ two_rarefactions Wl Wr zl zr ;;
    if Rlt_dec dmin dm2 then
      '(dm3, _) <~ rtsafe dmin dmax (wvx Wl) (wvx Wr) dmin dmax ;;
      if Rlt_dec dmin dm3 then
        if Rle_dec dm3 dmax then
          if Rlt_dec (wd Wr) (wd Wl) then
            q <~ odiv dm3 (wd Wl) ;;
            l <~ olog q ;;
            Some (Star true false dm3 (wvx Wl - c * l))
          else
            q <~ odiv dm3 (wd Wr) ;;
            l <~ olog q ;;
            Some (Star false true dm3 (wvx Wr + c * l))
        else Some (Star true true dm2 Vx2)
      else Some (Star true true dm2 Vx2)
    else Some (Star true true dm2 Vx2)
  else Some (Star false false dm Vxm).

(** exact.c:169-175, 198-204, 216-222, 246-252: the flux of an input state. *)
Definition outer_flux (U : cons1) (W : prim1) : cons1 :=
  Cons1 (umx U) (umx U * wvx W + wd W * (c * c)) (umy U * wvx W) (umz U * wvx W) 0 0 0
        (map (fun r => umx U * r) (wr W)).

(** exact.c:179-189, 226-237: the flux in a rarefaction fan. *)
Definition fan_flux (dm Mxm : R) (W : prim1) : cons1 :=
  let Vxm := if Req_EM_T dm 0 then 0 else Mxm / dm in
  Cons1 Mxm (Mxm * Vxm + dm * (c * c)) (Mxm * wvy W) (Mxm * wvz W) 0 0 0
        (map (fun r => Mxm * r) (wr W)).

(** exact.c:262-279, step 3. *)
Definition star_flux (dm Vxm : R) (Wl Wr : prim1) : cons1 :=
  let W := if Rle_dec 0 Vxm then Wl else Wr in
  Cons1 (dm * Vxm) (dm * Vxm * Vxm + dm * (c * c)) (dm * Vxm * wvy W) (dm * Vxm * wvz W) 0 0 0
        (map (fun r => dm * Vxm * r) (wr W)).

(** exact.c:162-207, the left wave; [None] in the second component means that the
    code goes on to the right wave. *)
Definition left_part (s : star) (Ul : cons1) (Wl : prim1) (zl : R) : option (option cons1) :=
  if lraref s then
    let hdl := wvx Wl - c in
    let tll := svx s - c in
    if Rle_dec 0 hdl then Some (Some (outer_flux Ul Wl))
    else if Rle_dec 0 tll then
      q <~ odiv hdl c ;;
      Some (Some (fan_flux (ud Ul * exp q) (ud Ul * c * exp q) Wl))
    else Some None
  else
    r <~ osqrt (sdm s) ;;
    q <~ odiv (c * r) zl ;;
    let sl := wvx Wl - q in
    if Rle_dec 0 sl then Some (Some (outer_flux Ul Wl)) else Some None.

(** exact.c:209-255, the right wave. *)
Definition right_part (s : star) (Ur : cons1) (Wr : prim1) (zr : R) : option (option cons1) :=
  if rraref s then
    let hdr := wvx Wr + c in
    let tlr := svx s + c in
    if Rle_dec hdr 0 then Some (Some (outer_flux Ur Wr))
    else if Rle_dec tlr 0 then
      q <~ odiv (- tlr) c ;;
      Some (Some (fan_flux (sdm s * exp q) (- sdm s * c * exp q) Wr))
    else Some None
  else
    r <~ osqrt (sdm s) ;;
    q <~ odiv (c * r) zr ;;
    let sr := wvx Wr + q in
    if Rle_dec sr 0 then Some (Some (outer_flux Ur Wr)) else Some None.

(** exact.c:64-282 fluxes. *)
Definition exact_fluxes (Ul Ur : cons1) (Wl Wr : prim1) : outcome :=
  if Rlt_dec 0 (ud Ul) then
    if Rlt_dec 0 (ud Ur) then
      match (zl <~ osqrt (wd Wl) ;; zr <~ osqrt (wd Wr) ;;
             s <~ intermediate Wl Wr zl zr ;; Some (zl, zr, s)) with
      | None => NotANumber
      | Some (zl, zr, s) =>
          if Rlt_dec (sdm s) 0 then Stops else
          match left_part s Ul Wl zl with
          | None => NotANumber
          | Some (Some F) => Flux F
          | Some None =>
              match right_part s Ur Wr zr with
              | None => NotANumber
              | Some (Some F) => Flux F
              | Some None => Flux (star_flux (sdm s) (svx s) Wl Wr)
              end
          end
      end
    else Stops
  else Stops.

End Exact.
