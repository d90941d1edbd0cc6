(** Base of the model: outcomes, loops, and volumes with checked accesses. *)
From Coq Require Import ZArith List Bool Lia.
Import ListNotations.
Open Scope Z_scope.

(** Outcome of a piece of C++.  [UB] is undefined behaviour (out-of-bounds
    access, null dereference, failed assert); [Throw] is a C++ exception
    (the THROW macro, /repo/alsutils/include/alsutils/error/Exception.hpp). *)
Inductive res (A : Type) : Type :=
| Ok (a : A)
| UB
| Throw.
Arguments Ok {A} a.
Arguments UB {A}.
Arguments Throw {A}.

Definition bind {A B} (r : res A) (f : A -> res B) : res B :=
  match r with
  | Ok a => f a
  | UB => UB
  | Throw => Throw
  end.
Notation "x <- e ;; f" := (bind e (fun x => f))
  (at level 61, e at next level, right associativity).

(** Boolean used as an integer, as in [x - sign * k * xDir]. *)
Definition b2z (b : bool) : Z := if b then 1 else 0.

(** The values taken by [i] in [for (i = lo; i < hi; ++i)]. *)
Definition zrange (lo hi : Z) : list Z :=
  map (fun k => lo + Z.of_nat k) (seq 0 (Z.to_nat (hi - lo))).

Fixpoint fold_res {I S} (body : I -> S -> res S) (l : list I) (s : S) : res S :=
  match l with
  | [] => Ok s
  | i :: l' => s' <- body i s;; fold_res body l' s'
  end.

(** [for (i = lo; i < hi; ++i) body] *)
Definition for_ {S} (lo hi : Z) (body : Z -> S -> res S) (s : S) : res S :=
  fold_res body (zrange lo hi) s.

(** Cells are coordinate triples (x, y, z), ghost cells included. *)
Definition cell : Type := (Z * Z * Z)%type.

(** One scalar memory area of a volume together with its total extents
    (Volume.cpp lines 44-60, HostMemory).  Where a theorem treats all
    variables of a cell together the element type [A] is the record of the
    conserved variables: the C++ keeps one area per variable, and runs the
    same loop for each, so a volume is modelled as one area of records. *)
Record vol (A : Type) : Type := mkvol {
  vnx : Z;
  vny : Z;
  vnz : Z;
  vdat : Z -> A
}.
Arguments mkvol {A}.
Arguments vnx {A}.
Arguments vny {A}.
Arguments vnz {A}.
Arguments vdat {A}.

(** View::index, /repo/alsfvm/include/alsfvm/memory/View.hpp lines 116-118. *)
Definition index (nx ny x y z : Z) : Z := z * nx * ny + y * nx + x.

(** The asserts of View::at, View.hpp lines 65-69. *)
Definition inb {A} (v : vol A) (x y z : Z) : bool :=
  (0 <=? x) && (x <? vnx v) && (0 <=? y) && (y <? vny v)
  && (0 <=? z) && (z <? vnz v).

(** View::at used as an rvalue, View.hpp lines 65-84.  An access outside the
    extents is [UB], also where the linear index would still be inside the
    allocation. *)
Definition vload {A} (v : vol A) (x y z : Z) : res A :=
  if inb v x y z then Ok (vdat v (index (vnx v) (vny v) x y z)) else UB.

(** View::at used as an lvalue, View.hpp lines 65-70. *)
Definition vstore {A} (v : vol A) (x y z : Z) (a : A) : res (vol A) :=
  if inb v x y z then
    let p := index (vnx v) (vny v) x y z in
    Ok (mkvol (vnx v) (vny v) (vnz v)
              (fun q => if q =? p then a else vdat v q))
  else UB.

(** Value of the cell [c], for specifications. *)
Definition vget {A} (v : vol A) (c : cell) : A :=
  let '(x, y, z) := c in vdat v (index (vnx v) (vny v) x y z).

(** Nested loops [for z, for y, for x] as they appear throughout the C++. *)
Definition for3 {S} (zlo zhi ylo yhi xlo xhi : Z)
    (body : Z -> Z -> Z -> S -> res S) (s : S) : res S :=
  for_ zlo zhi (fun z => for_ ylo yhi (fun y => for_ xlo xhi (fun x =>
    body x y z))) s.
