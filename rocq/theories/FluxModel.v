(** * Model of the Riemann solvers src/rsolvers/{esystem_roe,hlle,hllc,force,roe,hlld,two_shock}.c

    Real numbers stand for double-precision numbers; [None] is the outcome
    "infinity or NaN" of a division by zero or of the square root of a negative
    number, and the outcome of ath_error in two_shock.c.  The members of Cons1DS
    that the configuration does not have are 0.
    Not modelled: cylindrical coordinates (Pflux), special relativity, and
    the exact solver. *)
From Coq Require Import Reals List Bool.
From Verif Require Import GasModel.
Import ListNotations.
Open Scope R_scope.

Definition gam1 (c : gcfg) : R := match g_eos c with Adiabatic g => g - 1 | Isothermal _ => 0 end.
Definition gam2 (c : gcfg) : R := match g_eos c with Adiabatic g => g - 2 | Isothermal _ => 0 end.

(** pbl and pbr: src/rsolvers/hlle.c:109-110, roe.c:113-114, hlld.c:97-98; they stay 0.0 without MHD. *)
Definition pmag (c : gcfg) (W : prim1) (Bxi : R) : R :=
  if g_mhd c then half * (SQR Bxi + SQR (wby W) + SQR (wbz W)) else 0.

(** ** Roe averages: src/rsolvers/hlle.c:89-120, force.c:75-106, roe.c:96-124, hllc.c:78-97. *)
Record roe := Roe { r_d : R; r_v1 : R; r_v2 : R; r_v3 : R; r_h : R;
                    r_b2 : R; r_b3 : R; r_x : R; r_y : R }.
Definition roe_avg (c : gcfg) (Ul Ur : cons1) (Wl Wr : prim1) (Bxi : R) : option roe :=
  sqrtdl <~ osqrt (wd Wl) ;;
  sqrtdr <~ osqrt (wd Wr) ;;
  isdlpdr <~ odiv 1 (sqrtdl + sqrtdr) ;;
  let droe := sqrtdl * sqrtdr in
  let v1 := (sqrtdl * wvx Wl + sqrtdr * wvx Wr) * isdlpdr in
  let v2 := (sqrtdl * wvy Wl + sqrtdr * wvy Wr) * isdlpdr in
  let v3 := (sqrtdl * wvz Wl + sqrtdr * wvz Wr) * isdlpdr in
  let b2 := if g_mhd c then (sqrtdr * wby Wl + sqrtdl * wby Wr) * isdlpdr else 0 in
  let b3 := if g_mhd c then (sqrtdr * wbz Wl + sqrtdl * wbz Wr) * isdlpdr else 0 in
  x <~ (if g_mhd c then odiv (half * (SQR (wby Wl - wby Wr) + SQR (wbz Wl - wbz Wr))) (SQR (sqrtdl + sqrtdr))
        else Some 0) ;;
  y <~ (if g_mhd c then odiv (half * (wd Wl + wd Wr)) droe else Some 0) ;;
  h <~ match g_eos c with
       | Isothermal _ => Some 0
       | Adiabatic _ =>
           hl <~ odiv (ue Ul + wp Wl + pmag c Wl Bxi) sqrtdl ;;
           hr <~ odiv (ue Ur + wp Wr + pmag c Wr Bxi) sqrtdr ;;
           Some ((hl + hr) * isdlpdr)
       end ;;
  Some (Roe droe v1 v2 v3 h b2 b3 x y).

(** ** Eigenvalues and eigenvectors: src/rsolvers/esystem_roe.c *)

(** The speeds on which the eigenvalues depend. *)
Record speeds := Speeds { s_asq : R; s_cfsq : R; s_cf : R; s_cssq : R; s_cs : R; s_vaxsq : R; s_vax : R;
                          s_btstarsq : R; s_hp : R }.
(** esystem_roe.c:190-210, 241 (isothermal) and 371-393, 426 (adiabatic). *)
Definition mhd_speeds (c : gcfg) (b1 : R) (r : roe) : option speeds :=
  di <~ odiv 1 (r_d r) ;;
  let vsq := r_v1 r * r_v1 r + r_v2 r * r_v2 r + r_v3 r * r_v3 r in
  let btsq := r_b2 r * r_b2 r + r_b3 r * r_b3 r in
  let bt_starsq := match g_eos c with
                   | Isothermal _ => btsq * r_y r
                   | Adiabatic _ => (gam1 c - gam2 c * r_y r) * btsq
                   end in
  let vaxsq := b1 * b1 * di in
  let hp := r_h r - (vaxsq + btsq * di) in
  let asq := match g_eos c with
             | Isothermal a => a * a + r_x r
             | Adiabatic _ => MAX (gam1 c * (hp - half * vsq) - gam2 c * r_x r) TINY_NUMBER
             end in
  let ct2 := bt_starsq * di in
  let tsum := vaxsq + ct2 + asq in
  let tdif := vaxsq + ct2 - asq in
  cf2_cs2 <~ osqrt (tdif * tdif + 4 * asq * ct2) ;;
  let cfsq := half * (tsum + cf2_cs2) in
  cf <~ osqrt cfsq ;;
  cssq <~ odiv (asq * vaxsq) cfsq ;;
  cs <~ osqrt cssq ;;
  vax <~ osqrt vaxsq ;;
  Some (Speeds asq cfsq cf cssq cs vaxsq vax bt_starsq hp).

(** asq of esys_roe_adb_hyd, esystem_roe.c:137-138. *)
Definition adb_asq (c : gcfg) (r : roe) : R :=
  gam1 c * MAX (r_h r - half * (r_v1 r * r_v1 r + r_v2 r * r_v2 r + r_v3 r * r_v3 r)) TINY_NUMBER.

(** The four esys_roe_* functions, up to the return when no eigenmatrices are
    wanted: esystem_roe.c:68-72, 136-148, 190-247, 371-433. *)
Definition eigenvalues (c : gcfg) (b1 : R) (r : roe) : option (list R) :=
  let v1 := r_v1 r in
  if g_mhd c then
    s <~ mhd_speeds c b1 r ;;
    Some (match g_eos c with
          | Isothermal _ => [v1 - s_cf s; v1 - s_vax s; v1 - s_cs s; v1 + s_cs s; v1 + s_vax s; v1 + s_cf s]
          | Adiabatic _ => [v1 - s_cf s; v1 - s_vax s; v1 - s_cs s; v1; v1 + s_cs s; v1 + s_vax s; v1 + s_cf s]
          end)
  else
    match g_eos c with
    | Isothermal a => Some [v1 - a; v1; v1; v1 + a]
    | Adiabatic _ => a <~ osqrt (adb_asq c r) ;; Some [v1 - a; v1; v1; v1; v1 + a]
    end.

(** Right eigenvectors (columns of the right eigenmatrix) and left
    eigenvectors (rows of the left one), in the order of the eigenvalues; the
    commented-out entries are the zeros set in roe.c:84-89. *)
Record eigen := Eigen { e_r : list (list R); e_l : list (list R) }.

(** esystem_roe.c:75-117. *)
Definition esys_iso_hyd (a : R) (r : roe) : option eigen :=
  let v1 := r_v1 r in let v2 := r_v2 r in let v3 := r_v3 r in
  v1a <~ odiv v1 a ;;
  i <~ odiv half a ;;
  Some (Eigen
    [[1; v1 - a; v2; v3]; [0; 0; 1; 0]; [0; 0; 0; 1]; [1; v1 + a; v2; v3]]
    [[half * (1 + v1a); - i; 0; 0]; [- v2; 0; 1; 0]; [- v3; 0; 0; 1]; [half * (1 - v1a); i; 0; 0]]).

(** esystem_roe.c:150-212. *)
Definition esys_adb_hyd (c : gcfg) (r : roe) : option eigen :=
  let v1 := r_v1 r in let v2 := r_v2 r in let v3 := r_v3 r in let h := r_h r in
  let g1 := gam1 c in
  let vsq := v1 * v1 + v2 * v2 + v3 * v3 in
  let asq := adb_asq c r in
  a <~ osqrt asq ;;
  na <~ odiv half asq ;;
  qa <~ odiv g1 asq ;;
  Some (Eigen
    [[1; v1 - a; v2; v3; h - v1 * a];
     [0; 0; 1; 0; v2];
     [0; 0; 0; 1; v3];
     [1; v1; v2; v3; half * vsq];
     [1; v1 + a; v2; v3; h + v1 * a]]
    [[na * (half * g1 * vsq + v1 * a); - na * (g1 * v1 + a); - na * g1 * v2; - na * g1 * v3; na * g1];
     [- v2; 0; 1; 0; 0];
     [- v3; 0; 0; 1; 0];
     [1 - na * g1 * vsq; qa * v1; qa * v2; qa * v3; - qa];
     [na * (half * g1 * vsq - v1 * a); - na * (g1 * v1 - a); - na * g1 * v2; - na * g1 * v3; na * g1]]).

(** The quantities shared by the two MHD systems: esystem_roe.c:212-257 and
    395-424.  [yy] is the argument of the square root in bet2_star: y
    (isothermal) or Gamma_1 - Gamma_2*y (adiabatic). *)
Record mhdq := Mhdq { q_bt_star : R; q_bet2 : R; q_bet3 : R; q_bet2s : R; q_bet3s : R; q_betsq : R;
                      q_af : R; q_as : R; q_sqrtd : R; q_s : R; q_qf : R; q_qs : R; q_afp : R; q_asp : R }.
Definition mhd_q (yy b1 : R) (r : roe) (s : speeds) : option mhdq :=
  let b2 := r_b2 r in let b3 := r_b3 r in
  bt <~ osqrt (b2 * b2 + b3 * b3) ;;
  bt_star <~ osqrt (s_btstarsq s) ;;
  bet2 <~ (if Req_EM_T bt 0 then Some 1 else odiv b2 bt) ;;
  bet3 <~ (if Req_EM_T bt 0 then Some 0 else odiv b3 bt) ;;
  ry <~ osqrt yy ;;
  bet2s <~ odiv bet2 ry ;;
  bet3s <~ odiv bet3 ry ;;
  let betsq := bet2s * bet2s + bet3s * bet3s in
  let asq := s_asq s in let cfsq := s_cfsq s in let cssq := s_cssq s in
  ' (af, as_) <~ (if Req_EM_T (cfsq - cssq) 0 then Some (1, 0)
                  else if Rle_dec (asq - cssq) 0 then Some (0, 1)
                  else if Rle_dec (cfsq - asq) 0 then Some (1, 0)
                  else x <~ odiv (asq - cssq) (cfsq - cssq) ;;
                       y <~ odiv (cfsq - asq) (cfsq - cssq) ;;
                       af <~ osqrt x ;;
                       as_ <~ osqrt y ;;
                       Some (af, as_)) ;;
  sqrtd <~ osqrt (r_d r) ;;
  let sg := SIGN b1 in
  a <~ osqrt asq ;;
  afp <~ odiv (a * af) sqrtd ;;
  asp <~ odiv (a * as_) sqrtd ;;
  Some (Mhdq bt_star bet2 bet3 bet2s bet3s betsq af as_ sqrtd sg
             (s_cf s * af * sg) (s_cs s * as_ * sg) afp asp).

(** esystem_roe.c:249-349 esys_roe_iso_mhd. *)
Definition esys_iso_mhd (b1 : R) (r : roe) (s : speeds) : option eigen :=
  let v1 := r_v1 r in let v2 := r_v2 r in let v3 := r_v3 r in
  q <~ mhd_q (r_y r) b1 r s ;;
  let af := q_af q in let as_ := q_as q in
  let cf := s_cf s in let cs := s_cs s in
  let qf := q_qf q in let qs := q_qs q in
  let b2s := q_bet2s q in let b3s := q_bet3s q in
  let bet2 := q_bet2 q in let bet3 := q_bet3 q in
  let sg := q_s q in let sqrtd := q_sqrtd q in
  k2 <~ odiv (- bet3 * sg) sqrtd ;;
  k3 <~ odiv (bet2 * sg) sqrtd ;;
  norm <~ odiv half (s_asq s) ;;
  let cff := norm * af * cf in
  let css := norm * as_ * cs in
  let qfh := qf * norm in
  let qsh := qs * norm in
  let afh := norm * q_afp q * r_d r in
  let ash := norm * q_asp q * r_d r in
  let afpb := norm * q_afp q * q_bt_star q in
  let aspb := norm * q_asp q * q_bt_star q in
  q2 <~ odiv b2s (q_betsq q) ;;
  q3 <~ odiv b3s (q_betsq q) ;;
  let vq := v2 * q2 + v3 * q3 in
  Some (Eigen
    [[af; af * (v1 - cf); af * v2 + qs * b2s; af * v3 + qs * b3s; q_asp q * b2s; q_asp q * b3s];
     [0; 0; - bet3; bet2; k2; k3];
     [as_; as_ * (v1 - cs); as_ * v2 - qf * b2s; as_ * v3 - qf * b3s; - q_afp q * b2s; - q_afp q * b3s];
     [as_; as_ * (v1 + cs); as_ * v2 + qf * b2s; as_ * v3 + qf * b3s; - q_afp q * b2s; - q_afp q * b3s];
     [0; 0; bet3; - bet2; k2; k3];
     [af; af * (v1 + cf); af * v2 - qs * b2s; af * v3 - qs * b3s; q_asp q * b2s; q_asp q * b3s]]
    [[cff * (cf + v1) - qsh * vq - aspb; - cff; qsh * q2; qsh * q3; ash * q2; ash * q3];
     [half * (v2 * bet3 - v3 * bet2); 0; - half * bet3; half * bet2; - half * sqrtd * bet3 * sg; half * sqrtd * bet2 * sg];
     [css * (cs + v1) + qfh * vq + afpb; - css; - qfh * q2; - qfh * q3; - afh * q2; - afh * q3];
     [css * (cs - v1) - qfh * vq + afpb; css; - (- qfh * q2); - (- qfh * q3); - afh * q2; - afh * q3];
     [- (half * (v2 * bet3 - v3 * bet2)); 0; - (- half * bet3); - (half * bet2); - half * sqrtd * bet3 * sg; half * sqrtd * bet2 * sg];
     [cff * (cf - v1) + qsh * vq - aspb; cff; - (qsh * q2); - (qsh * q3); ash * q2; ash * q3]]).

(** esystem_roe.c:412-424, 435-609 esys_roe_adb_mhd. *)
Definition esys_adb_mhd (c : gcfg) (b1 : R) (r : roe) (s : speeds) : option eigen :=
  let v1 := r_v1 r in let v2 := r_v2 r in let v3 := r_v3 r in
  let b2 := r_b2 r in let b3 := r_b3 r in let x := r_x r in
  let g1 := gam1 c in let g2 := gam2 c in
  let vsq := v1 * v1 + v2 * v2 + v3 * v3 in
  q <~ mhd_q (g1 - g2 * r_y r) b1 r s ;;
  let af := q_af q in let as_ := q_as q in
  let cf := s_cf s in let cs := s_cs s in let hp := s_hp s in
  let qf := q_qf q in let qs := q_qs q in
  let b2s := q_bet2s q in let b3s := q_bet3s q in
  let bet2 := q_bet2 q in let bet3 := q_bet3 q in
  let vbet := v2 * b2s + v3 * b3s in
  let sg := q_s q in let sqrtd := q_sqrtd q in
  isqrtd <~ odiv 1 sqrtd ;;
  let afpbb := q_afp q * q_bt_star q * q_betsq q in
  let aspbb := q_asp q * q_bt_star q * q_betsq q in
  g2x <~ odiv (g2 * x) g1 ;;
  norm <~ odiv half (s_asq s) ;;
  let cff := norm * af * cf in
  let css := norm * as_ * cs in
  let qfh := qf * norm in
  let qsh := qs * norm in
  let afh := norm * q_afp q * r_d r in
  let ash := norm * q_asp q * r_d r in
  let afpb := norm * q_afp q * q_bt_star q in
  let aspb := norm * q_asp q * q_bt_star q in
  let norm1 := norm * g1 in
  let afb := af * norm1 in
  let asb := as_ * norm1 in
  q2 <~ odiv b2s (q_betsq q) ;;
  q3 <~ odiv b3s (q_betsq q) ;;
  let vq := v2 * q2 + v3 * q3 in
  let norm2 := norm1 * 2 in
  Some (Eigen
    [[af; af * (v1 - cf); af * v2 + qs * b2s; af * v3 + qs * b3s; af * (hp - v1 * cf) + qs * vbet + aspbb; q_asp q * b2s; q_asp q * b3s];
     [0; 0; - bet3; bet2; - (v2 * bet3 - v3 * bet2); - bet3 * sg * isqrtd; bet2 * sg * isqrtd];
     [as_; as_ * (v1 - cs); as_ * v2 - qf * b2s; as_ * v3 - qf * b3s; as_ * (hp - v1 * cs) - qf * vbet - afpbb; - q_afp q * b2s; - q_afp q * b3s];
     [1; v1; v2; v3; half * vsq + g2x; 0; 0];
     [as_; as_ * (v1 + cs); as_ * v2 + qf * b2s; as_ * v3 + qf * b3s; as_ * (hp + v1 * cs) + qf * vbet - afpbb; - q_afp q * b2s; - q_afp q * b3s];
     [0; 0; bet3; - bet2; - - (v2 * bet3 - v3 * bet2); - bet3 * sg * isqrtd; bet2 * sg * isqrtd];
     [af; af * (v1 + cf); af * v2 - qs * b2s; af * v3 - qs * b3s; af * (hp + v1 * cf) - qs * vbet + aspbb; q_asp q * b2s; q_asp q * b3s]]
    [[afb * (vsq - hp) + cff * (cf + v1) - qsh * vq - aspb; - afb * v1 - cff; - afb * v2 + qsh * q2; - afb * v3 + qsh * q3; afb; ash * q2 - afb * b2; ash * q3 - afb * b3];
     [half * (v2 * bet3 - v3 * bet2); 0; - half * bet3; half * bet2; 0; - half * sqrtd * bet3 * sg; half * sqrtd * bet2 * sg];
     [asb * (vsq - hp) + css * (cs + v1) + qfh * vq + afpb; - asb * v1 - css; - asb * v2 - qfh * q2; - asb * v3 - qfh * q3; asb; - afh * q2 - asb * b2; - afh * q3 - asb * b3];
     [1 - norm2 * (half * vsq - g2x); norm2 * v1; norm2 * v2; norm2 * v3; - norm2; norm2 * b2; norm2 * b3];
     [asb * (vsq - hp) + css * (cs - v1) - qfh * vq + afpb; - asb * v1 + css; - asb * v2 + qfh * q2; - asb * v3 + qfh * q3; asb; - afh * q2 - asb * b2; - afh * q3 - asb * b3];
     [- (half * (v2 * bet3 - v3 * bet2)); 0; - (- half * bet3); - (half * bet2); 0; - half * sqrtd * bet3 * sg; half * sqrtd * bet2 * sg];
     [afb * (vsq - hp) + cff * (cf - v1) + qsh * vq - aspb; - afb * v1 + cff; - afb * v2 - qsh * q2; - afb * v3 - qsh * q3; afb; ash * q2 - afb * b2; ash * q3 - afb * b3]]).

(** The call of the esys_roe_* function with eigenmatrices: roe.c:130-146. *)
Definition esys (c : gcfg) (b1 : R) (r : roe) : option eigen :=
  if g_mhd c then
    s <~ mhd_speeds c b1 r ;;
    match g_eos c with Isothermal _ => esys_iso_mhd b1 r s | Adiabatic _ => esys_adb_mhd c b1 r s end
  else
    match g_eos c with Isothermal a => esys_iso_hyd a r | Adiabatic _ => esys_adb_hyd c r end.

(** ** HLLE: src/rsolvers/hlle.c *)

(** Squared sound speed and fast speed of one side: hlle.c:150-176, force.c:136-162. *)
Definition side_speed (c : gcfg) (U : cons1) (W : prim1) (Bxi : R) : option R :=
  asq <~ match g_eos c with Isothermal a => Some (a * a) | Adiabatic g => odiv (g * wp W) (wd W) end ;;
  vaxsq <~ (if g_mhd c then odiv (Bxi * Bxi) (wd W) else Some 0) ;;
  ct2 <~ (if g_mhd c then odiv (uby U * uby U + ubz U * ubz U) (wd W) else Some 0) ;;
  let qsq := vaxsq + ct2 + asq in
  let tmp := vaxsq + ct2 - asq in
  r <~ osqrt (tmp * tmp + 4 * asq * ct2) ;;
  let cfsq := half * (qsq + r) in
  osqrt cfsq.

(** al and ar: hlle.c:126-181, force.c:112-167. *)
Definition hll_speeds (c : gcfg) (Ul Ur : cons1) (Wl Wr : prim1) (Bxi : R) : option (R * R) :=
  r <~ roe_avg c Ul Ur Wl Wr Bxi ;;
  ev <~ eigenvalues c Bxi r ;;
  cfl <~ side_speed c Ul Wl Bxi ;;
  cfr <~ side_speed c Ur Wr Bxi ;;
  let ar := MAX (last ev 0) (wvx Wr + cfr) in
  let al := MIN (hd 0 ev) (wvx Wl - cfl) in
  Some (al, ar).

(** Flux along the line dx/dt = b: hlle.c:190-239, force.c:176-225 and, for
    hydrodynamics, hllc.c:153-183. *)
Definition flux_line (c : gcfg) (U : cons1) (W : prim1) (Bxi b : R) : cons1 :=
  let fd := umx U - b * ud U in
  let mx := umx U * (wvx W - b) in
  let my := umy U * (wvx W - b) in
  let mz := umz U * (wvx W - b) in
  let mx := match g_eos c with Isothermal a => mx + wd W * (a * a) | Adiabatic _ => mx + wp W end in
  let e := match g_eos c with Isothermal _ => 0 | Adiabatic _ => ue U * (wvx W - b) + wp W * wvx W end in
  let fs := map (fun r => fd * r) (wr W) in
  if g_mhd c then
    let mx := mx - half * (Bxi * Bxi - SQR (wby W) - SQR (wbz W)) in
    let my := my - Bxi * wby W in
    let mz := mz - Bxi * wbz W in
    let e := match g_eos c with
             | Isothermal _ => 0
             | Adiabatic _ => e + (pmag c W Bxi * wvx W - Bxi * (Bxi * wvx W + wby W * wvy W + wbz W * wvz W))
             end in
    Cons1 fd mx my mz e (wby W * (wvx W - b) - Bxi * wvy W) (wbz W * (wvx W - b) - Bxi * wvz W) fs
  else Cons1 fd mx my mz e 0 0 fs.

(** A loop "for (n=0; n<NWAVE; n++)" over the members of one or several Cons1DS. *)
Definition zip2 (f : R -> R -> R) (U V : cons1) : cons1 :=
  Cons1 (f (ud U) (ud V)) (f (umx U) (umx V)) (f (umy U) (umy V)) (f (umz U) (umz V))
        (f (ue U) (ue V)) (f (uby U) (uby V)) (f (ubz U) (ubz V)) [].
(** "Fluxes of passively advected scalars, computed from density flux":
    hlle.c:264-271 and the same lines in all solvers. *)
Definition with_scalars (F : cons1) (Wl Wr : prim1) : cons1 :=
  Cons1 (ud F) (umx F) (umy F) (umz F) (ue F) (uby F) (ubz F)
        (map (fun r => ud F * r) (if Rle_dec 0 (ud F) then wr Wl else wr Wr)).

(** hlle.c:62-283. *)
Definition hlle (c : gcfg) (Ul Ur : cons1) (Wl Wr : prim1) (Bxi : R) : option cons1 :=
  ' (al, ar) <~ hll_speeds c Ul Ur Wl Wr Bxi ;;
  let bp := MAX ar 0 in
  let bm := MIN al 0 in
  let Fl := flux_line c Ul Wl Bxi bm in
  let Fr := flux_line c Ur Wr Bxi bp in
  tmp <~ odiv (half * (bp + bm)) (bp - bm) ;;
  let F := zip2 (fun fl fr => half * (fl + fr) + (fl - fr) * tmp) Fl Fr in
  Some (with_scalars F Wl Wr).

(** ** FORCE: src/rsolvers/force.c:46-302.  The flux of the mean state uses the
    magnetic pressure pbl of the LEFT state (line 269). *)
Definition force (c : gcfg) (Ul Ur : cons1) (Wl Wr : prim1) (Bxi : R) : option cons1 :=
  ' (al, ar) <~ hll_speeds c Ul Ur Wl Wr Bxi ;;
  let bp := MAX ar 0 in
  let bm := MIN al 0 in
  let Fl := flux_line c Ul Wl Bxi bm in
  let Fr := flux_line c Ur Wr Bxi bp in
  if Rle_dec 0 al then Some Fl
  else if Rle_dec ar 0 then Some Fr
  else
    tmp <~ odiv 1 (ar - al) ;;
    let Uc := zip2 (fun fl fr => (fl - fr) * tmp) Fl Fr in
    Wc <~ Cons1D_to_Prim1D c Uc Bxi ;;
    let mx := umx Uc * wvx Wc in
    let mx := match g_eos c with Isothermal a => mx + wd Wc * (a * a) | Adiabatic _ => mx + wp Wc end in
    let e := match g_eos c with Isothermal _ => 0 | Adiabatic _ => ue Uc * wvx Wc + wp Wc * wvx Wc end in
    let Fc :=
      if g_mhd c then
        Cons1 (umx Uc)
              (mx - half * (Bxi * Bxi - SQR (wby Wc) - SQR (wbz Wc)))
              (umy Uc * wvx Wc - Bxi * wby Wc)
              (umz Uc * wvx Wc - Bxi * wbz Wc)
              (match g_eos c with
               | Isothermal _ => 0
               | Adiabatic _ => e + (pmag c Wl Bxi * wvx Wc - Bxi * (Bxi * wvx Wc + wby Wc * wvy Wc + wbz Wc * wvz Wc))
               end)
              (wby Wc * wvx Wc - Bxi * wvy Wc) (wbz Wc * wvx Wc - Bxi * wvz Wc) []
      else Cons1 (umx Uc) mx (umy Uc * wvx Wc) (umz Uc * wvx Wc) e 0 0 [] in
    tmp <~ odiv (half * half * (bp + bm)) (bp - bm) ;;
    let Fh := zip2 (fun fl fr => half * half * (fl + fr) + (fl - fr) * tmp) Fl Fr in
    let F := zip2 (fun fc fh => half * fc + fh) Fc Fh in
    Some (with_scalars F Wl Wr).

(** ** HLLC (no MHD): src/rsolvers/hllc.c *)

(** hllc.c:119-128: the sound speed of one side. *)
Definition hllc_cs (c : gcfg) (W : prim1) : option R :=
  match g_eos c with
  | Isothermal a => Some a
  | Adiabatic g => x <~ odiv (g * wp W) (wd W) ;; osqrt x
  end.
(** The gas pressure as it is written in hllc.c:141-147. *)
Definition pgas (c : gcfg) (W : prim1) : R :=
  match g_eos c with Isothermal a => wd W * (a * a) | Adiabatic _ => wp W end.
(** Extreme wave speeds al, ar; contact speed am and contact pressure cp: hllc.c:78-146. *)
Definition hllc_speeds (c : gcfg) (Ul Ur : cons1) (Wl Wr : prim1) : option (R * R * R * R) :=
  r <~ roe_avg c Ul Ur Wl Wr 0 ;;
  ev <~ eigenvalues c 0 r ;;
  cfl <~ hllc_cs c Wl ;;
  cfr <~ hllc_cs c Wr ;;
  let ar := MAX (last ev 0) (wvx Wr + cfr) in
  let al := MIN (hd 0 ev) (wvx Wl - cfl) in
  let tl := pgas c Wl + (wvx Wl - al) * umx Ul in
  let tr := pgas c Wr + (wvx Wr - ar) * umx Ur in
  let dl := umx Ul - ud Ul * al in
  let dr := - (umx Ur - ud Ur * ar) in
  tmp <~ odiv 1 (dl + dr) ;;
  let am := (tl - tr) * tmp in
  let cp := (dl * tr + dr * tl) * tmp in
  Some (al, ar, am, if Rlt_dec 0 cp then cp else 0).
(** hllc.c:50-252. *)
Definition hllc (c : gcfg) (Ul Ur : cons1) (Wl Wr : prim1) : option cons1 :=
  ' (al, ar, am, cp) <~ hllc_speeds c Ul Ur Wl Wr ;;
  let bp := if Rlt_dec 0 ar then ar else 0 in
  let bm := if Rlt_dec al 0 then al else 0 in
  let Fl := flux_line c Ul Wl 0 bm in
  let Fr := flux_line c Ur Wr 0 bp in
  ' (sl, sr, sm) <~ (if Rle_dec 0 am then
                       sl <~ odiv am (am - bm) ;;
                       sm <~ odiv (- bm) (am - bm) ;;
                       Some (sl, 0, sm)
                     else
                       sr <~ odiv (- am) (bp - am) ;;
                       sm <~ odiv bp (bp - am) ;;
                       Some (0, sr, sm)) ;;
  let F := zip2 (fun fl fr => sl * fl + sr * fr) Fl Fr in
  let F := Cons1 (ud F) (umx F + sm * cp) (umy F) (umz F)
                 (match g_eos c with Isothermal _ => ue F | Adiabatic _ => ue F + sm * cp * am end)
                 (uby F) (ubz F) [] in
  Some (with_scalars F Wl Wr).

(** ** Roe: src/rsolvers/roe.c *)

(** The first NWAVE members of a Cons1DS viewed as an array. *)
Definition to_vec (c : gcfg) (U : cons1) : list R :=
  [ud U; umx U; umy U; umz U] ++
  (match g_eos c with Adiabatic _ => [ue U] | Isothermal _ => [] end) ++
  (if g_mhd c then [uby U; ubz U] else []).
Definition of_vec (c : gcfg) (v : list R) : cons1 :=
  let n := match g_eos c with Adiabatic _ => 5%nat | Isothermal _ => 4%nat end in
  Cons1 (nth 0 v 0) (nth 1 v 0) (nth 2 v 0) (nth 3 v 0)
        (match g_eos c with Adiabatic _ => nth 4 v 0 | Isothermal _ => 0 end)
        (if g_mhd c then nth n v 0 else 0) (if g_mhd c then nth (S n) v 0 else 0) [].
Fixpoint vzip (f : R -> R -> R) (u v : list R) : list R :=
  match u, v with a :: u', b :: v' => f a b :: vzip f u' v' | _, _ => [] end.
Fixpoint vdot (u v : list R) : R :=
  match u, v with a :: u', b :: v' => a * b + vdot u' v' | _, _ => 0 end.

(** roe.c:226-245: is the density or the pressure of an intermediate state negative? *)
Definition bad_state (c : gcfg) (Bxi : R) (u : list R) : bool :=
  let U := of_vec c u in
  if Rle_dec (ud U) 0 then true
  else match g_eos c with
       | Isothermal _ => false
       | Adiabatic _ =>
           let p := ue U - half * (SQR (umx U) + SQR (umy U) + SQR (umz U)) / ud U in
           let p := if g_mhd c then p - half * (SQR (uby U) + SQR (ubz U) + SQR Bxi) else p in
           if Rlt_dec p 0 then true else false
       end.
(** roe.c:222-247: the loop over the waves (eigenvalue, wave strength, right eigenvector). *)
Fixpoint test_inter (c : gcfg) (Bxi : R) (u : list R) (waves : list (R * R * list R)) : bool :=
  match waves with
  | (ev0, a0, r0) :: (((ev1, _, _) :: _) as rest) =>
      let u' := vzip (fun x r => x + a0 * r) u r0 in
      if Rlt_dec ev0 ev1 then if bad_state c Bxi u' then true else test_inter c Bxi u' rest
      else test_inter c Bxi u' rest
  | _ => false
  end.
(** roe.c:152-200: the flux of one side. *)
Definition flux_side (c : gcfg) (U : cons1) (W : prim1) (Bxi : R) : cons1 :=
  let fd := umx U in
  let mx := umx U * wvx W in
  let mx := match g_eos c with Isothermal a => mx + wd W * (a * a) | Adiabatic _ => mx + wp W end in
  let my := umx U * wvy W in
  let mz := umx U * wvz W in
  let e := match g_eos c with Isothermal _ => 0 | Adiabatic _ => (ue U + wp W) * wvx W end in
  let fs := map (fun r => fd * r) (wr W) in
  if g_mhd c then
    Cons1 fd (mx - half * (Bxi * Bxi - SQR (wby W) - SQR (wbz W)))
          (my - Bxi * wby W) (mz - Bxi * wbz W)
          (match g_eos c with
           | Isothermal _ => 0
           | Adiabatic _ => e + (pmag c W Bxi * wvx W - Bxi * (Bxi * wvx W + wby W * wvy W + wbz W * wvz W))
           end)
          (wby W * wvx W - Bxi * wvy W) (wbz W * wvx W - Bxi * wvz W) fs
  else Cons1 fd mx my mz e 0 0 fs.

(** pF[n] = 0.5*(pFl[n]+pFr[n]) - sum over m of coeff[m]*rem[n][m]: roe.c:292-310. *)
Definition roe_sum (Fl Fr : list R) (waves : list (R * R * list R)) (etah : R) : list R :=
  fold_left (fun F w => match w with (ev, a, r) =>
                        vzip (fun f x => f - half * MAX (Rabs ev) etah * a * x) F r end)
            waves (vzip (fun fl fr => half * (fl + fr)) Fl Fr).

(** roe.c:202-214: the waves, with strengths from the left eigenvectors. *)
Definition roe_waves (c : gcfg) (Ul Ur : cons1) (ev : list R) (em : eigen) : list (R * R * list R) :=
  let dU := vzip (fun l r => r - l) (to_vec c Ul) (to_vec c Ur) in
  combine (combine ev (map (fun l => vdot l dU) (e_l em))) (e_r em).

(** roe.c:55-332.  etah is the global of the H-correction. *)
Definition roe_flux (c : gcfg) (etah : R) (Ul Ur : cons1) (Wl Wr : prim1) (Bxi : R) : option cons1 :=
  r <~ roe_avg c Ul Ur Wl Wr Bxi ;;
  ev <~ eigenvalues c Bxi r ;;
  em <~ esys c Bxi r ;;
  let Fl := flux_side c Ul Wl Bxi in
  let Fr := flux_side c Ur Wr Bxi in
  if Rle_dec 0 (hd 0 ev) then Some Fl
  else if Rle_dec (last ev 0) 0 then Some Fr
  else
    let waves := roe_waves c Ul Ur ev em in
    if test_inter c Bxi (to_vec c Ul) waves then hlle c Ul Ur Wl Wr Bxi
    else
      let F := of_vec c (roe_sum (to_vec c Fl) (to_vec c Fr) waves etah) in
      Some (with_scalars F Wl Wr).

(** ** HLLD: src/rsolvers/hlld.c *)
Definition SMALL_NUMBER : R := / 10 ^ 8.                       (* hlld.c:37 *)

(** Fast speed of one side, with gamma*P or d*Iso_csound2 in [gp]: hlld.c:96-106, 457-467. *)
Definition hlld_cf (gp : R) (W : prim1) (Bxi : R) : option R :=
  let Bxsq := Bxi * Bxi in
  let pb := half * (Bxsq + SQR (wby W) + SQR (wbz W)) in
  let gpb := gp + 2 * pb in
  x <~ osqrt (SQR gpb - 4 * gp * Bxsq) ;;
  y <~ odiv (gpb + x) (2 * wd W) ;;
  osqrt y.
(** Flux of one side: hlld.c:124-153, 501-529. *)
Definition hlld_side (c : gcfg) (U : cons1) (W : prim1) (pt Bxi : R) : cons1 :=
  let Bxsq := Bxi * Bxi in
  Cons1 (umx U) (umx U * wvx W + pt - Bxsq)
        (ud U * wvx W * wvy W - Bxi * uby U) (ud U * wvx W * wvz W - Bxi * ubz U)
        (match g_eos c with
         | Isothermal _ => 0
         | Adiabatic _ => wvx W * (ue U + pt - Bxsq) - Bxi * (wvy W * uby U + wvz W * ubz U)
         end)
        (uby U * wvx W - Bxi * wvy W) (ubz U * wvx W - Bxi * wvz W)
        (map (fun r => umx U * r) (wr W)).
(** One of the states U*: hlld.c:190-222 (left) and 244-284 (right).  The result
    contains v*.B*, called vbstl and vbstr in the code. *)
Definition hlld_star (c : gcfg) (U : cons1) (W : prim1) (Bxi d sd sdm pt ptst sM : R) : option (cons1 * R) :=
  let Bxsq := Bxi * Bxi in
  let mx := d * sM in
  ' (my, mz, by_, bz) <~
    (if Rlt_dec (Rabs (ud U * sd * sdm - Bxsq)) (SMALL_NUMBER * ptst) then
       Some (d * wvy W, d * wvz W, uby U, ubz U)
     else
       t1 <~ odiv (Bxi * (sd - sdm)) (ud U * sd * sdm - Bxsq) ;;
       t2 <~ odiv (ud U * SQR sd - Bxsq) (ud U * sd * sdm - Bxsq) ;;
       Some (d * (wvy W - uby U * t1), d * (wvz W - ubz U * t1), uby U * t2, ubz U * t2)) ;;
  vb <~ odiv (mx * Bxi + my * by_ + mz * bz) d ;;
  e <~ odiv (sd * ue U - pt * wvx W + ptst * sM +
             Bxi * (wvx W * Bxi + wvy W * uby U + wvz W * ubz U - vb)) sdm ;;
  Some (Cons1 d mx my mz e by_ bz [], vb).
(** F + spd*(Ust - U): hlld.c:356-366, 388-398 and 663-683. *)
Definition flux_star (F U Ust : cons1) (spd : R) : cons1 :=
  zip2 (fun a b => a + b) F (zip2 (fun st u => spd * (st - u)) Ust U).
(** F - spd*U - tmp*Ust + spd2*Udst: hlld.c:367-387. *)
Definition flux_dstar (F U Ust Udst : cons1) (spd tmp spd2 : R) : cons1 :=
  zip2 (fun a b => a + b)
       (zip2 (fun a b => a - b) (zip2 (fun f u => f - spd * u) F U) (zip2 (fun st _ => tmp * st) Ust Ust))
       (zip2 (fun dst _ => spd2 * dst) Udst Udst).

(** hlld.c:57-418 (adiabatic). *)
Definition hlld (g : R) (Ul Ur : cons1) (Wl Wr : prim1) (Bxi : R) : option cons1 :=
  let c := GCfg true (Adiabatic g) in
  let Bxsq := Bxi * Bxi in
  let pbl := half * (Bxsq + SQR (wby Wl) + SQR (wbz Wl)) in
  let pbr := half * (Bxsq + SQR (wby Wr) + SQR (wbz Wr)) in
  cfl <~ hlld_cf (g * wp Wl) Wl Bxi ;;
  cfr <~ hlld_cf (g * wp Wr) Wr Bxi ;;
  let cfmax := MAX cfl cfr in
  let spd0 := if Rle_dec (wvx Wl) (wvx Wr) then wvx Wl - cfmax else wvx Wr - cfmax in
  let spd4 := if Rle_dec (wvx Wl) (wvx Wr) then wvx Wr + cfmax else wvx Wl + cfmax in
  let ptl := wp Wl + pbl in
  let ptr := wp Wr + pbr in
  let Fl := hlld_side c Ul Wl ptl Bxi in
  let Fr := hlld_side c Ur Wr ptr Bxi in
  if Rle_dec 0 spd0 then Some Fl
  else if Rle_dec spd4 0 then Some Fr
  else
    let sdl := spd0 - wvx Wl in
    let sdr := spd4 - wvx Wr in
    spd2 <~ odiv (sdr * wd Wr * wvx Wr - sdl * wd Wl * wvx Wl - ptr + ptl) (sdr * wd Wr - sdl * wd Wl) ;;
    let sdml := spd0 - spd2 in
    let sdmr := spd4 - spd2 in
    dl <~ odiv (ud Ul * sdl) sdml ;;
    dr <~ odiv (ud Ur * sdr) sdmr ;;
    sqrtdl <~ osqrt dl ;;
    sqrtdr <~ osqrt dr ;;
    bl <~ odiv (Rabs Bxi) sqrtdl ;;
    br <~ odiv (Rabs Bxi) sqrtdr ;;
    let spd1 := spd2 - bl in
    let spd3 := spd2 + br in
    let ptst := ptl + ud Ul * sdl * (sdl - sdml) in
    ' (Ulst, vbstl) <~ hlld_star c Ul Wl Bxi dl sdl sdml ptl ptst spd2 ;;
    Wlst <~ Cons1D_to_Prim1D c Ulst Bxi ;;
    ' (Urst, vbstr) <~ hlld_star c Ur Wr Bxi dr sdr sdmr ptr ptst spd2 ;;
    Wrst <~ Cons1D_to_Prim1D c Urst Bxi ;;
    ' (Uldst, Urdst) <~
      (if Rlt_dec (half * Bxsq) (SMALL_NUMBER * ptst) then Some (Ulst, Urst)
       else
         invsumd <~ odiv 1 (sqrtdl + sqrtdr) ;;
         let Bxsig := if Rlt_dec 0 Bxi then 1 else -1 in
         let vy := invsumd * (sqrtdl * wvy Wlst + sqrtdr * wvy Wrst + Bxsig * (uby Urst - uby Ulst)) in
         let vz := invsumd * (sqrtdl * wvz Wlst + sqrtdr * wvz Wrst + Bxsig * (ubz Urst - ubz Ulst)) in
         let by_ := invsumd * (sqrtdl * uby Urst + sqrtdr * uby Ulst +
                               Bxsig * sqrtdl * sqrtdr * (wvy Wrst - wvy Wlst)) in
         let bz := invsumd * (sqrtdl * ubz Urst + sqrtdr * ubz Ulst +
                              Bxsig * sqrtdl * sqrtdr * (wvz Wrst - wvz Wlst)) in
         let myl := ud Ulst * vy in
         let mzl := ud Ulst * vz in
         q <~ odiv (myl * by_ + mzl * bz) (ud Ulst) ;;
         let tmp := spd2 * Bxi + q in
         let el := ue Ulst - sqrtdl * Bxsig * (vbstl - tmp) in
         let er := ue Urst + sqrtdr * Bxsig * (vbstr - tmp) in
         Some (Cons1 (ud Ulst) (umx Ulst) myl mzl el by_ bz [],
               Cons1 (ud Urst) (umx Urst) (ud Urst * vy) (ud Urst * vz) er by_ bz [])) ;;
    let F := if Rle_dec 0 spd1 then flux_star Fl Ul Ulst spd0
             else if Rle_dec 0 spd2 then flux_dstar Fl Ul Ulst Uldst spd0 (spd1 - spd0) spd1
             else if Rlt_dec 0 spd3 then flux_dstar Fr Ur Urst Urdst spd4 (spd3 - spd4) spd3
             else flux_star Fr Ur Urst spd4 in
    Some (with_scalars F Wl Wr).

(** fabs(a/b-1.0) < SMALL_NUMBER, hlld.c:571 and 604.  For b = 0 (and a <> 0) the
    quotient is infinite and the comparison false. *)
Definition near (a b : R) : bool :=
  if Req_EM_T b 0 then false
  else if Rlt_dec (Rabs (a / b - 1)) SMALL_NUMBER then true else false.
(** One of the states U*, isothermal: hlld.c:563-592, 594-624. *)
Definition hlldi_star (U : cons1) (W : prim1) (Bxi dhll mxhll ustar spd spd1 spd3 : R) : option cons1 :=
  let tmp := (spd - spd1) * (spd - spd3) in
  if near spd spd1 || near spd spd3 then
    Some (Cons1 dhll mxhll (umy U) (umz U) 0 (uby U) (ubz U) [])
  else
    mfact <~ odiv (Bxi * (ustar - wvx W)) tmp ;;
    bfact <~ odiv (ud U * SQR (spd - wvx W) - Bxi * Bxi) (dhll * tmp) ;;
    Some (Cons1 dhll mxhll (dhll * wvy W - uby U * mfact) (dhll * wvz W - ubz U * mfact) 0
                (uby U * bfact) (ubz U * bfact) []).

(** hlld.c:434-700 (isothermal).  [d_MIN] is the global density floor. *)
Definition hlld_iso (a d_MIN : R) (Ul Ur : cons1) (Wl Wr : prim1) (Bxi : R) : option cons1 :=
  let c := GCfg true (Isothermal a) in
  let Bxsq := Bxi * Bxi in
  let pbl := half * (Bxsq + SQR (wby Wl) + SQR (wbz Wl)) in
  let pbr := half * (Bxsq + SQR (wby Wr) + SQR (wbz Wr)) in
  let gpl := wd Wl * (a * a) in
  let gpr := wd Wr * (a * a) in
  cfl <~ hlld_cf gpl Wl Bxi ;;
  cfr <~ hlld_cf gpr Wr Bxi ;;
  let spd0 := MIN (wvx Wl - cfl) (wvx Wr - cfr) in
  let spd4 := MAX (wvx Wl + cfl) (wvx Wr + cfr) in
  let ptl := gpl + pbl in
  let ptr := gpr + pbr in
  let Fl := hlld_side c Ul Wl ptl Bxi in
  let Fr := hlld_side c Ur Wr ptr Bxi in
  if Rle_dec 0 spd0 then Some Fl
  else if Rle_dec spd4 0 then Some Fr
  else
    idspd <~ odiv 1 (spd4 - spd0) ;;
    let dhll := (spd4 * ud Ur - spd0 * ud Ul - ud Fr + ud Fl) * idspd in
    let dhll := if Rlt_dec dhll d_MIN then d_MIN else dhll in
    sqrtdhll <~ osqrt dhll ;;
    let fdhll := (spd4 * ud Fl - spd0 * ud Fr + spd4 * spd0 * (ud Ur - ud Ul)) * idspd in
    let fmxhll := (spd4 * umx Fl - spd0 * umx Fr + spd4 * spd0 * (umx Ur - umx Ul)) * idspd in
    ustar <~ odiv fdhll dhll ;;
    let mxhll := (spd4 * umx Ur - spd0 * umx Ul - umx Fr + umx Fl) * idspd in
    va <~ odiv (Rabs Bxi) sqrtdhll ;;
    let spd1 := ustar - va in
    let spd3 := ustar + va in
    Ulst <~ hlldi_star Ul Wl Bxi dhll mxhll ustar spd0 spd1 spd3 ;;
    Urst <~ hlldi_star Ur Wr Bxi dhll mxhll ustar spd4 spd1 spd3 ;;
    let X := sqrtdhll * SIGN Bxi in
    let my := half * (umy Ulst + umy Urst + X * (uby Urst - uby Ulst)) in
    let mz := half * (umz Ulst + umz Urst + X * (ubz Urst - ubz Ulst)) in
    qy <~ odiv (umy Urst - umy Ulst) X ;;
    qz <~ odiv (umz Urst - umz Ulst) X ;;
    let by_ := half * (uby Ulst + uby Urst + qy) in
    let bz := half * (ubz Ulst + ubz Urst + qz) in
    vy <~ odiv (Bxi * my) dhll ;;
    vz <~ odiv (Bxi * mz) dhll ;;
    let F := if Rle_dec 0 spd1 then flux_star Fl Ul Ulst spd0
             else if Rle_dec spd3 0 then flux_star Fr Ur Urst spd4
             else Cons1 (dhll * ustar) fmxhll (my * ustar - Bxi * by_) (mz * ustar - Bxi * bz) 0
                        (by_ * ustar - vy) (bz * ustar - vz) [] in
    Some (with_scalars F Wl Wr).

(** ** Two-shock (isothermal hydrodynamics): src/rsolvers/two_shock.c:50-138 *)

(** Contact velocity Vxc, contact density dc and the two shock speeds. *)
Definition ts_state (a : R) (Wl Wr : prim1) : option (R * R * R * R) :=
  zl <~ osqrt (wd Wl) ;;
  zr <~ osqrt (wd Wr) ;;
  tmp <~ odiv (zl * zr * (wvx Wl - wvx Wr)) (2 * a * (zl + zr)) ;;
  q <~ osqrt (tmp * tmp + zl * zr) ;;
  let zc := tmp + q in
  v1 <~ odiv (wvx Wl * zl + wvx Wr * zr) (zl + zr) ;;
  v2 <~ odiv (a * (zl - zr)) zc ;;
  let Vxc := v1 + v2 in
  s1 <~ odiv (a * zc) zl ;;
  s2 <~ odiv (a * zc) zr ;;
  Some (Vxc, zc * zc, wvx Wl - s1, wvx Wr + s2).
Definition two_shock (a : R) (Ul Ur : cons1) (Wl Wr : prim1) : option cons1 :=
  if Rlt_dec 0 (ud Ul) then if Rlt_dec 0 (ud Ur) then
    ' (Vxc, dc, sl, sr) <~ ts_state a Wl Wr ;;
    if Rle_dec sr 0 then
      Some (Cons1 (umx Ur) (umx Ur * wvx Wr + wd Wr * (a * a)) (umy Ur * wvx Wr) (umz Ur * wvx Wr) 0 0 0
                  (map (fun r => umx Ur * r) (wr Wr)))
    else if Rle_dec 0 sl then
      Some (Cons1 (umx Ul) (umx Ul * wvx Wl + wd Wl * (a * a)) (umy Ul * wvx Wl) (umz Ul * wvx Wl) 0 0 0
                  (map (fun r => umx Ul * r) (wr Wl)))
    else
      let W := if Rle_dec 0 Vxc then Wl else Wr in
      Some (Cons1 (dc * Vxc) (dc * Vxc * Vxc + dc * (a * a)) (dc * Vxc * wvy W) (dc * Vxc * wvz W) 0 0 0
                  (map (fun r => dc * Vxc * r) (wr W)))
  else None else None.
