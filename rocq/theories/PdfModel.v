(** * Model of src/output_pdf.c: probability distribution and statistics of an output variable

    Over the reals.  Simplifications: what is written to the two files is the record [pout];
    the processes of a Domain run the statements between two collective MPI calls one after
    the other; MPI_Allreduce and MPI_Reduce give the sum, minimum or maximum over the
    communicator.  A run without MPI is a run with one process (cd_data_cnt is then
    data_cnt).  A collective call that some process of the communicator never makes (the run
    hangs) or makes with another count is [UB]. *)
From Coq Require Import ZArith List Bool Arith Reals.
From Verif Require Import CStr PosModel.
Import ListNotations.
Open Scope R_scope.

(** Statics of a process (lines 25-32): size of data[] if it is allocated, size_pdf, pdf[].
    Locals that survive from one Domain to the next (lines 50-53). *)
Record pstat := PStat { p_dat : option nat; p_size : Z; p_pdf : list Z }.
Record pacc := PAcc { a_mean : R; a_var : R; a_adev : R; a_sdev : R; a_skew : R; a_kurt : R; a_ep : R }.
Definition acc0 : pacc := PAcc 0 0 0 0 0 0 0.
Definition stat0 : pstat := PStat None 0 [].
(** A process of the Domain: statics, locals, and the values of the expression in the active
    cells of its Grid in the order of the loops at lines 111-113. *)
Record proc := Proc { q_stat : pstat; q_acc : pacc; q_val : list R }.
(** The numbers written: lines 247-257, 268-288 and 322-330. *)
Record pout := POut { o_nbin : Z; o_min : R; o_max : R; o_mean : R; o_var : R; o_sdev : R; o_adev : R; o_skew : R; o_kurt : R; o_rows : list (R * R) }.

(** Lines 83-104 and 109-122 (data[n] = ...): the first call fixes the sizes. *)
Definition pdf_alloc (N : Z) (q : proc) : res proc :=
  s <- match p_dat (q_stat q) with
       | Some _ => Ok (q_stat q)
       | None => n <- c_int (sqrt (IZR N));; Ok (PStat (Some (length (q_val q))) n (repeat 0%Z (Z.to_nat n)))
       end;;
  match p_dat s with
  | Some size_dat => if (length (q_val q) <=? size_dat)%nat then Ok (Proc s (q_acc q) (q_val q)) else UB
  | None => UB
  end.
(** Lines 107 and 114-116. *)
Definition loc_min (v : list R) : R := fold_left (fun m x => if Rlt_dec x m then x else m) v (hd 0 v).
Definition loc_max (v : list R) : R := fold_left (fun m x => if Rgt_dec x m then x else m) v (hd 0 v).
Definition loc_sum (f : R -> R) (start : R) (v : list R) : R := fold_left (fun s x => s + f x) v start.
(** MPI_Allreduce with MPI_MIN, MPI_MAX and MPI_SUM. *)
Definition red_min (l : list R) : R := fold_left Rmin l (hd 0 l).
Definition red_max (l : list R) : R := fold_left Rmax l (hd 0 l).
Definition red_sum (l : list R) : R := fold_right Rplus 0 l.
(** pdf[i]++ *)
Definition inc_at (a : list Z) (i : Z) : res (list Z) :=
  if (i <? 0)%Z then UB else
  match nth_error a (Z.to_nat i) with
  | Some v => Ok (firstn (Z.to_nat i) a ++ (v + 1)%Z :: skipn (S (Z.to_nat i)) a)
  | None => UB
  end.
(** Lines 203-207 *)
Fixpoint pdf_bins (size : Z) (scl dmin : R) (v : list R) (a : list Z) : res (list Z) :=
  match v with
  | [] => Ok a
  | x :: v => i <- c_int (scl * (x - dmin));; let i := if (i <? size)%Z then i else (size - 1)%Z in a <- inc_at a i;; pdf_bins size scl dmin v a
  end.
Fixpoint res_map {A B} (f : A -> res B) (l : list A) : res (list B) :=
  match l with [] => Ok [] | a :: l => b <- f a;; r <- res_map f l;; Ok (b :: r) end.

(** Lines 149-156 *)
Definition add_moments (mean : R) (q : proc) : pacc :=
  let a := q_acc q in let v := q_val q in
  PAcc mean (loc_sum (fun x => (x - mean) * (x - mean)) (a_var a) v) (loc_sum (fun x => Rabs (x - mean)) (a_adev a) v) (a_sdev a)
    (loc_sum (fun x => (x - mean) * (x - mean) * (x - mean)) (a_skew a) v) (loc_sum (fun x => (x - mean) * (x - mean) * (x - mean) * (x - mean)) (a_kurt a) v)
    (loc_sum (fun x => x - mean) (a_ep a) v).
(** Lines 159-178, with the sums over the communicator already taken; adev is not summed. *)
Definition finish_moments (N : Z) (mean ep var skew kurt adev : R) : pacc :=
  let n := IZR N in
  let var := (var - ep * ep / n) / IZR (N - 1) in
  let sdev := sqrt var in
  if Rgt_dec sdev 0 then PAcc mean var (adev / n) sdev (skew / (var * sdev * n)) (kurt / (var * var * n) - 3) ep
  else PAcc mean var (adev / n) sdev skew kurt ep.

(** Lines 66-339 for one Domain of [N] cells; the first process is the one with rank 0 in the
    Domain.  Gives what it writes, and the processes afterwards. *)
Definition pdf_domain (N : Z) (ps : list proc) : res (pout * list proc) :=
  ps <- res_map (pdf_alloc N) ps;;
  let dmin := red_min (map (fun q => loc_min (q_val q)) ps) in
  let dmax := red_max (map (fun q => loc_max (q_val q)) ps) in
  let mean := red_sum (map (fun q => loc_sum (fun x => x) (a_mean (q_acc q)) (q_val q)) ps) / IZR N in
  accs <- (if forallb (fun q => (1 <? length (q_val q))%nat) ps then
             let m := map (add_moments mean) ps in
             let s f := red_sum (map f m) in
             Ok (map (fun a => finish_moments N mean (s a_ep) (s a_var) (s a_skew) (s a_kurt) (a_adev a)) m)
           else if forallb (fun q => negb (1 <? length (q_val q))%nat) ps then
             Ok (map (fun q => let a := q_acc q in PAcc mean (a_var a) (a_adev a) (a_sdev a) (a_skew a) (a_kurt a) (a_ep a)) ps)
           else UB);;
  pdfs <- (if Rgt_dec (dmax - dmin) 0 then
             res_map (fun q => let size := p_size (q_stat q) in pdf_bins size (IZR size / (dmax - dmin)) dmin (q_val q) (repeat 0%Z (Z.to_nat size))) ps
           else Ok (map (fun q => p_pdf (q_stat q)) ps));;
  let sizes := map (fun q => p_size (q_stat q)) ps in
  let size := hd 0%Z sizes in
  if negb (forallb (fun s => (s =? size)%Z) sizes) then UB else
  let cd_pdf n := fold_right Z.add 0%Z (map (fun p => nth n p 0%Z) pdfs) in
  let a := hd acc0 accs in
  let rows := if Rgt_dec (dmax - dmin) 0 then
      let delta := (dmax - dmin) / IZR size in let scl := IZR size / (IZR N * (dmax - dmin)) in
      map (fun n => (dmin + (INR n + 1/2) * delta, IZR (cd_pdf n) * scl)) (seq 0 (Z.to_nat size))
    else [(dmax, 1)] in
  Ok (POut (if Rgt_dec (dmax - dmin) 0 then size else 1%Z) dmin dmax (a_mean a) (a_var a) (a_sdev a) (a_adev a) (a_skew a) (a_kurt a) rows,
      map (fun t => Proc (PStat (p_dat (q_stat (fst (fst t)))) (p_size (q_stat (fst (fst t)))) (snd t)) (snd (fst t)) [])
        (combine (combine ps accs) pdfs)).

(** The loop over the Domains, lines 60-343.  A Domain is its number of cells and, for each
    process with a Grid in it, the process and its values; the first is rank 0 of the Domain.
    [st p] is None once process [p] has returned at line 217. *)
Fixpoint pdf_loop (doms : list (Z * list (nat * list R))) (st : nat -> option (pstat * pacc)) (stats : nat -> pstat) : res (list pout * (nat -> pstat)) :=
  match doms with
  | [] => Ok ([], stats)
  | (N, members) :: doms =>
    ps <- res_map (fun m => match st (fst m) with Some (s, a) => Ok (Proc s a (snd m)) | None => UB end) members;;
    '(o, ps) <- pdf_domain N ps;;
    let after := combine (map fst members) ps in
    let find p := find (fun t => (fst t =? p)%nat) after in
    let root := hd O (map fst members) in
    '(os, stats) <- pdf_loop doms
        (fun p => match find p with Some (_, q) => if (p =? root)%nat then Some (q_stat q, q_acc q) else None | None => st p end)
        (fun p => match find p with Some (_, q) => q_stat q | None => stats p end);;
    Ok (o :: os, stats)
  end.
(** One call of output_pdf: the locals start at zero. *)
Definition output_pdf (doms : list (Z * list (nat * list R))) (stats : nat -> pstat) : res (list pout * (nat -> pstat)) :=
  pdf_loop doms (fun p => Some (stats p, acc0)) stats.
