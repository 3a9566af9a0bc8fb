(** * NumPy: the array operations symfit/core/objectives.py uses.

    An array is a shape and a function from indices to reals.  Shapes and
    indices are stored LAST AXIS FIRST, because broadcasting aligns trailing axes:
    the numpy shape (n, m) is [[m; n]], the numpy index a[i, j] is [[j; i]].
    Simplifications: IEEE floats are real numbers (no rounding, NaN or infinity;
    division is by a number that theorems assume non-zero), dtypes and memory
    layout are not modelled, a Python number is an array of shape [()]. *)
From Coq Require Import Reals List Arith Lia.
From Verif Require Import PyBase.
Local Open Scope R_scope.

Record nd := { shp : list nat; val : list nat -> R }.

(** a Python float *)
Definition scalar (x : R) : nd := {| shp := []; val := fun _ => x |}.

(** All indices of a shape, in C order (last axis fastest). *)
Fixpoint indices (s : list nat) : list (list nat) :=
  match s with
  | [] => [[]]
  | d :: s' => flat_map (fun o => map (fun i => i :: o) (seq 0 d)) (indices s')
  end.

(** Broadcasting of an index: an array of shape [s] read at an index of a bigger
    shape uses the trailing axes, and index 0 along axes of length 1. *)
Fixpoint bidx (s : list nat) (i : list nat) : list nat :=
  match s with
  | [] => []
  | d :: s' => match i with
               | [] => 0%nat :: bidx s' []
               | j :: i' => (if Nat.eqb d 1 then 0%nat else j) :: bidx s' i'
               end
  end.
Definition elem (a : nd) (i : list nat) : R := val a (bidx (shp a) i).

(** The common shape of two operands; None is numpy's
    "operands could not be broadcast together". *)
Fixpoint bshape (s t : list nat) : option (list nat) :=
  match s, t with
  | [], _ => Some t
  | _, [] => Some s
  | d :: s', e :: t' =>
      match bshape s' t' with
      | None => None
      | Some u => if Nat.eqb d e then Some (d :: u)
                  else if Nat.eqb d 1 then Some (e :: u)
                  else if Nat.eqb e 1 then Some (d :: u) else None
      end
  end.
(** [s] can be stretched to [t]. *)
Fixpoint fits (s t : list nat) : bool :=
  match s, t with
  | [], _ => true
  | _ :: _, [] => false
  | d :: s', e :: t' => (Nat.eqb d e || Nat.eqb d 1) && fits s' t'
  end.

(** Elementwise operations. *)
Definition npmap (f : R -> R) (a : nd) : nd := {| shp := shp a; val := fun i => f (val a i) |}.
Definition nbin (f : R -> R -> R) (a b : nd) : res nd :=
  match bshape (shp a) (shp b) with
  | None => Raise ValueError
  | Some s => Ok {| shp := s; val := fun i => f (elem a i) (elem b i) |}
  end.
Definition nadd := nbin Rplus.
Definition nsub := nbin Rminus.
Definition nmul := nbin Rmult.
Definition ndiv := nbin Rdiv.
Definition nsq := npmap (fun x => x ^ 2).        (* a**2 *)
Definition nsqrt := npmap sqrt.
Definition nneg := npmap Ropp.

(** [np.broadcast_to(a, s)] *)
Definition broadcast_to (a : nd) (s : list nat) : res nd :=
  if fits (shp a) s then Ok {| shp := s; val := elem a |} else Raise ValueError.
(** [np.expand_dims(a, -1)] *)
Definition expand_last (a : nd) : nd := {| shp := 1%nat :: shp a; val := fun i => val a (tl i) |}.
(** [a[np.newaxis, ...]] *)
Definition newaxis (a : nd) : nd := {| shp := shp a ++ [1%nat]; val := fun i => val a (firstn (List.length (shp a)) i) |}.
(** [np.atleast_1d], [np.atleast_2d]: a one-dimensional array gets a leading axis *)
Definition atleast_1d (a : nd) : nd := match shp a with [] => newaxis a | _ => a end.
Definition atleast_2d (a : nd) : nd :=
  match shp a with [] => newaxis (newaxis a) | [_] => newaxis a | _ => a end.
(** [np.squeeze]: drop the axes of length 1 *)
Definition is1 (d : nat) : bool := Nat.eqb d 1.
Fixpoint unsq (s : list nat) (i : list nat) : list nat :=
  match s with
  | [] => []
  | d :: s' => if is1 d then 0%nat :: unsq s' i
               else match i with [] => 0%nat :: unsq s' [] | j :: i' => j :: unsq s' i' end
  end.
Definition squeeze (a : nd) : nd :=
  {| shp := filter (fun d => negb (is1 d)) (shp a); val := fun i => val a (unsq (shp a) i) |}.

Fixpoint Rsum (l : list R) : R := match l with [] => 0 | x :: l' => x + Rsum l' end.
(** [np.sum(a)] *)
Definition np_sum (a : nd) : R := Rsum (map (val a) (indices (shp a))).
(** [np.sum(a, axis=(k, .., last))]: the leading [k] axes remain *)
Definition np_sum_keep (k : nat) (a : nd) : nd :=
  let r := (List.length (shp a) - k)%nat in
  {| shp := skipn r (shp a);
     val := fun j => Rsum (map (fun i => val a (i ++ j)) (indices (firstn r (shp a)))) |}.
(** [a.flatten()] *)
Definition flatten (a : nd) : nd :=
  {| shp := [List.length (indices (shp a))]; val := fun i => val a (nth (hd 0%nat i) (indices (shp a)) []) |}.
(** [np.stack(list)] / [np.array(list)] of equally shaped arrays: a new leading axis *)
Definition np_stack (l : list nd) : res nd :=
  match l with
  | [] => Raise ValueError
  | a :: _ =>
      if forallb (fun b => if list_eq_dec Nat.eq_dec (shp b) (shp a) then true else false) l
      then Ok {| shp := shp a ++ [List.length l];
                 val := fun i => val (nth (nth (List.length (shp a)) i 0%nat) l a) (firstn (List.length (shp a)) i) |}
      else Raise ValueError
  end.
(** [for row in a]: the subarrays along the leading axis *)
Definition rows (a : nd) : list nd :=
  let n := last (shp a) 0%nat in
  map (fun j => {| shp := removelast (shp a); val := fun i => val a (i ++ [j]) |}) (seq 0 n).
(** [np.einsum('i...,j...->ij...', a, a)] *)
Definition outer (a : nd) : nd :=
  let n := last (shp a) 0%nat in let s := removelast (shp a) in
  {| shp := s ++ [n; n];
     val := fun i => let r := List.length s in
       val a (firstn r i ++ [nth (S r) i 0%nat]) * val a (firstn r i ++ [nth r i 0%nat]) |}.
(** [np.ones(shape)], [np.zeros_like(a)] *)
Definition np_ones (s : list nat) : nd := {| shp := s; val := fun _ => 1 |}.
Definition np_zeros_like (a : nd) : nd := {| shp := shp a; val := fun _ => 0 |}.
(** [np.product(shape)] *)
Definition np_product (s : list nat) : nat := fold_right Nat.mul 1%nat s.
