(** * Model of src/ath_array.c: construction of 1D, 2D and 3D arrays

    A heap of blocks.  A block holds either pointers or bytes; it is addressed by
    its number and a byte offset.  [av] says whether the system can satisfy a
    request (any function: the theorems hold for all of them).  size_t has 64
    bits and pointers have 8 bytes, as on the platforms the code is run on. *)
From Coq Require Import ZArith Lia Bool List.
From Verif Require Import CStr.
Import ListNotations.
Open Scope Z_scope.
Set Implicit Arguments.

Record ptr := Ptr { pb : nat; po : Z }.
Inductive blk :=
| PtrBlk (n : Z) (c : Z -> option ptr)      (* n pointer slots *)
| DataBlk (n : Z) (c : Z -> Z)              (* n bytes *)
| Freed.
Definition heap := list blk.

Definition SIZE_MAX1 : Z := 18446744073709551616.     (* 2^64 *)
Definition PSZ : Z := 8.                              (* sizeof(void* ) *)
Definition wrap (x : Z) : Z := x mod SIZE_MAX1.
Definition fetch (h : heap) (b : nat) : blk := nth b h Freed.
Definition store_blk (h : heap) (b : nat) (x : blk) : heap :=
  firstn b h ++ x :: skipn (S b) h.

(** calloc(3): fails when the product overflows size_t or memory is short; the
    memory is zeroed ([None] is the null pointer).  A failure is followed in all
    callers by ath_error, so it is [Fatal]. *)
Definition calloc_data (av : heap -> Z -> bool) (h : heap) (n size : Z) : res (heap * ptr) :=
  if (n * size <? SIZE_MAX1) && av h (n * size)
  then Ok (h ++ [DataBlk (n * size) (fun _ => 0)], Ptr (length h) 0) else Fatal.
Definition calloc_ptrs (av : heap -> Z -> bool) (h : heap) (n : Z) : res (heap * ptr) :=
  if (n * PSZ <? SIZE_MAX1) && av h (n * PSZ)
  then Ok (h ++ [PtrBlk n (fun _ => None)], Ptr (length h) 0) else Fatal.

(** p[i] for a pointer to pointers: read and write. *)
Definition slot (p : ptr) (i : Z) : Z := po p / PSZ + i.
Definition load (h : heap) (p : ptr) (i : Z) : res ptr :=
  match fetch h (pb p) with
  | PtrBlk n c => if (0 <=? slot p i) && (slot p i <? n)
                  then match c (slot p i) with Some q => Ok q | None => UB end
                  else UB
  | _ => UB
  end.
Definition store (h : heap) (p : ptr) (i : Z) (q : ptr) : res heap :=
  match fetch h (pb p) with
  | PtrBlk n c => if (0 <=? slot p i) && (slot p i <? n)
                  then Ok (store_blk h (pb p)
                             (PtrBlk n (fun k => if k =? slot p i then Some q else c k)))
                  else UB
  | _ => UB
  end.
(** (unsigned char* )p + d. *)
Definition padd (p : ptr) (d : Z) : ptr := Ptr (pb p) (po p + d).

(** for(i=lo; i<hi; i++) body *)
Fixpoint forn (n : nat) (i : Z) (body : Z -> heap -> res heap) (h : heap) : res heap :=
  match n with
  | O => Ok h
  | S n' => h' <- body i h;; forn n' (i + 1) body h'
  end.
Definition for_lt (lo hi : Z) (body : Z -> heap -> res heap) (h : heap) : res heap :=
  forn (Z.to_nat (hi - lo)) lo body h.

(** src/ath_array.c:35-45 calloc_1d_array. *)
Definition calloc_1d_array av (h : heap) (nc size : Z) : res (heap * ptr) :=
  calloc_data av h nc size.

(** src/ath_array.c:50-72 calloc_2d_array. *)
Definition calloc_2d_array av (h : heap) (nr nc size : Z) : res (heap * ptr) :=
  '(h, array) <- calloc_ptrs av h nr;;
  '(h, d) <- calloc_data av h (wrap (nr * nc)) size;;
  h <- store h array 0 d;;
  h <- for_lt 1 nr (fun i h =>
         a0 <- load h array 0;;
         store h array i (padd a0 (wrap (i * nc * size)))) h;;
  Ok (h, array).

(** src/ath_array.c:77-120 calloc_3d_array. *)
Definition calloc_3d_array av (h : heap) (nt nr nc size : Z) : res (heap * ptr) :=
  '(h, array) <- calloc_ptrs av h nt;;
  '(h, p2) <- calloc_ptrs av h (wrap (nt * nr));;
  h <- store h array 0 p2;;
  h <- for_lt 1 nt (fun i h =>
         a0 <- load h array 0;;
         store h array i (padd a0 (wrap (i * nr * PSZ)))) h;;
  '(h, d) <- calloc_data av h (wrap (nt * nr * nc)) size;;
  a0 <- load h array 0;;
  h <- store h a0 0 d;;
  h <- for_lt 1 nr (fun j h =>
         a0 <- load h array 0;;
         q <- load h a0 (j - 1);;
         store h a0 j (padd q (wrap (nc * size)))) h;;
  h <- for_lt 1 nt (fun i h =>
         a <- load h array (i - 1);;
         q <- load h a 0;;
         ai <- load h array i;;
         h <- store h ai 0 (padd q (wrap (nr * nc * size)));;
         for_lt 1 nr (fun j h =>
           ai <- load h array i;;
           q <- load h ai (j - 1);;
           store h ai j (padd q (wrap (nc * size)))) h) h;;
  Ok (h, array).

(** free(3): undefined unless given the start of a live block. *)
Definition free (h : heap) (p : ptr) : res heap :=
  match fetch h (pb p) with
  | Freed => UB
  | _ => if po p =? 0 then Ok (store_blk h (pb p) Freed) else UB
  end.
(** src/ath_array.c:125-128, 133-139, 144-151. *)
Definition free_1d_array (h : heap) (a : ptr) : res heap := free h a.
Definition free_2d_array (h : heap) (a : ptr) : res heap :=
  t0 <- load h a 0;; h <- free h t0;; free h a.
Definition free_3d_array (h : heap) (a : ptr) : res heap :=
  t0 <- load h a 0;; t00 <- load h t0 0;; h <- free h t00;;
  t0 <- load h a 0;; h <- free h t0;; free h a.

(** The C expressions &array[i], &array[i][j], &array[t][r][c] for an array whose
    elements have [size] bytes. *)
Definition elem1 (h : heap) (a : ptr) (size j : Z) : ptr := padd a (j * size).
Definition elem2 (h : heap) (a : ptr) (size i j : Z) : res ptr :=
  p <- load h a i;; Ok (padd p (j * size)).
Definition elem3 (h : heap) (a : ptr) (size t r c : Z) : res ptr :=
  p <- load h a t;; q <- load h p r;; Ok (padd q (c * size)).
