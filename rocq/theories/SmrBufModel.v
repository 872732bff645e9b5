(** * Model of the buffers of RestrictCorrect and Prolongate (src/smr.c)

    What the messages hold is in SmrModel.v and ProModel.v.  Here are the places of the messages
    in the buffers, the MPI requests, and the sizes SMR_init gives to the arrays.  A Grid has an
    array of overlaps with child Grids (CGrid) and one of overlaps with parent Grids (PGrid); the
    overlaps with Grids of the same process come first.  Of an overlap only the length of its
    message (nWordsRC or nWordsP) matters here. *)
From Coq Require Import ZArith List Bool Arith.
From Verif Require Import CStr.
Import ListNotations.
Open Scope Z_scope.

(** NmyCGrid or NmyPGrid, and the lengths of the messages of all overlaps. *)
Record links := Links { l_my : nat; l_w : list Z }.
Definition remote (L : links) : list Z := skipn (l_my L) (l_w L).
Definition sumw (l : list Z) : Z := fold_right Z.add 0 l.
(** A message: index of the request, first element in the buffer, length, index of the overlap. *)
Record req := Req { q_m : nat; q_addr : Z; q_len : Z; q_g : nat }.

(** ** Receiving *)
(** The loop over the overlaps that posts the receives, src/smr.c:121-133 and 1410-1426; [i]
    is the index of the first overlap of [w], [zero] the number of empty messages before it. *)
Fixpoint post (my i zero : nat) (addr : Z) (w : list Z) : list req :=
  match w with
  | [] => []
  | x :: t => if x =? 0 then post my (S i) (S zero) addr t
              else Req (i - my - zero) addr x i :: post my (S i) zero (addr + x) t
  end.
(** RestrictCorrect: mAddress starts with 0, src/smr.c:119. *)
Definition post_RC (L : links) : list req := post (l_my L) (l_my L) 0 0 (remote L).
(** Prolongate: it starts with PGrid[0].nWordsP if NmyPGrid > 0, src/smr.c:1406-1408. *)
Definition post_P (L : links) : list req :=
  post (l_my L) (l_my L) 0 (if (0 <? l_my L)%nat then nth 0 (l_w L) 0 else 0) (remote L).
(** nZeroRC and nZeroP as counted before the loops that read, src/smr.c:149-151, 1543-1544. *)
Definition nzero (w : list Z) : nat := length (filter (fun x => x =? 0) w).
(** From the index MPI_Waitany returns to that of the overlap: for (i=NmyCGrid; i<=mIndex; i++)
    if (nWords of i == 0) mIndex++, src/smr.c:178-182 and 1568-1570.  None: the array is read
    beyond its end. *)
Fixpoint dec (w : list Z) (i m : nat) : option nat :=
  if (i <=? m)%nat then
    match w with [] => None | x :: t => dec t (S i) (if x =? 0 then S m else m) end
  else Some m.
(** Index of the overlap and mAddress: RestrictCorrect sums from NmyCGrid on (line 184),
    Prolongate from 0 on (line 1573). *)
Definition dec_RC (L : links) (m : nat) : option (nat * Z) :=
  match dec (remote L) (l_my L) (m + l_my L) with None => None | Some g => Some (g, sumw (firstn (g - l_my L) (remote L))) end.
Definition dec_P (L : links) (m : nat) : option (nat * Z) :=
  match dec (remote L) (l_my L) (m + l_my L) with None => None | Some g => Some (g, sumw (firstn g (l_w L))) end.
(** The loop that reads the messages, src/smr.c:153-189 and 1546-1581: first the overlaps on
    this process, of which the data is at the start of a buffer ([None]), then the others in the
    order in which MPI_Waitany reports them: [sched] picks one of the active requests.  Fatal: no
    active request (the call of ath_error). *)
Fixpoint get (my : nat) (dc : nat -> option (nat * Z)) (sched : nat -> nat) (count ncg : nat) (active : list nat) : res (list (nat * option Z)) :=
  match count with
  | O => Ok []
  | S count => if (ncg <? my)%nat then r <- get my dc sched count (S ncg) active;; Ok ((ncg, None) :: r)
      else match active with
      | [] => Fatal
      | _ => let m := nth (sched ncg mod length active) active 0%nat in
             match dc m with
             | None => UB
             | Some (g, a) => r <- get my dc sched count (S ncg) (remove Nat.eq_dec m active);; Ok ((g, Some a) :: r)
             end
      end
  end.
Definition get_RC (L : links) (sched : nat -> nat) : res (list (nat * option Z)) :=
  get (l_my L) (dec_RC L) sched (length (l_w L) - nzero (remote L)) 0 (map q_m (post_RC L)).
Definition get_P (L : links) (sched : nat -> nat) : res (list (nat * option Z)) :=
  get (l_my L) (dec_P L) sched (length (l_w L) - nzero (remote L)) 0 (map q_m (post_P L)).

(** ** Sending *)
(** RestrictCorrect, src/smr.c:821-849 and 1317-1325: all messages of a Grid are in one row of
    send_bufRC.  The request index is used for the overlaps from NmyPGrid on. *)
Fixpoint sends (my i zero : nat) (addr : Z) (w : list Z) : list req :=
  match w with
  | [] => []
  | x :: t => if x =? 0 then sends my (S i) (if (my <=? i)%nat then S zero else zero) addr t
              else Req (i - my - zero) addr x i :: sends my (S i) zero (addr + x) t
  end.
Definition send_RC (L : links) : list req := sends (l_my L) 0 0 0 (l_w L).
(** Prolongate, src/smr.c:1439-1455 and 1517-1525: the row of send_bufP is DomN, the number of
    the Domain of the child Grid; the messages to each such Domain follow one another. *)
Fixpoint sendsP (my i zero : nat) (start : nat -> Z) (w : list (Z * nat)) : list (nat * req) :=
  match w with
  | [] => []
  | (x, d) :: t => if x =? 0 then sendsP my (S i) (if (my <=? i)%nat then S zero else zero) start t
      else (d, Req (i - my - zero) (start d) x i) :: sendsP my (S i) zero (fun e => if (e =? d)%nat then start d + x else start e) t
  end.
Definition send_P (my : nat) (w : list (Z * nat)) : list (nat * req) := sendsP my 0 0 (fun _ => 0) w.
(** Number of requests waited for, src/smr.c:1341-1347 and 1938-1946. *)
Definition waited (L : links) : nat := length (l_w L) - l_my L - nzero (remote L).

(** ** SMR_init, src/smr.c:1961-2066 *)
(** The Grids on a process: lengths of the messages of the parent and child overlaps. *)
Record rgrid := RGrid { r_PRC : links; r_PP : links; r_CRC : links; r_CP : links }.
Record sizes := Sizes { z_sendRC : Z; z_recvRC : Z; z_sendP : Z; z_recvP : Z; z_CG : Z }.
(** Lines 1980-2008 (the loop over the Domains of all levels with a Grid on this process). *)
Definition smr_init (gs : list rgrid) : sizes :=
  fold_left (fun z g => Sizes (Z.max (z_sendRC z) (sumw (l_w (r_PRC g)))) (Z.max (z_recvRC z) (sumw (l_w (r_CRC g))))
                              (Z.max (z_sendP z) (1 + sumw (l_w (r_CP g)))) (Z.max (z_recvP z) (1 + sumw (l_w (r_PP g))))
                              (Z.max (z_CG z) (Z.of_nat (length (l_w (r_CRC g)))))) gs (Sizes 1 1 1 1 1).
