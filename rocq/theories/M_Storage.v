(** Where the variables of the Euler equations are stored. *)
From Coq Require Import ZArith Reals List Bool.
From Verif Require Import M_Base M_Vec M_Euler M_Parallel.
Open Scope Z_scope.

(** The index of entry [j] of a vector among the components of [vec_cvars]. *)
Fixpoint vec_index (j : nat) : nat :=
  match j with O => O | S j => S (2 * vec_index j) end.

(** rho, the momenta and E in this order:
    conservedVariables in /repo/alsfvm/src/equation/euler/Euler.cpp lines 23-71;
    area [v] of a volume belongs to entry [v] of that list. *)
#[global] Instance euler_storage (n : nat) : storage (euler_cvars n) :=
  fun v => if v =? 0 then 0%nat else if v =? Z.of_nat n + 1 then 3%nat
           else S (2 * (2 * vec_index (Z.to_nat (v - 1)))).
