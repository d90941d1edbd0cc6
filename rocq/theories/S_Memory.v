(** What the operations on memory areas are for, independently of their loops. *)
From Coq Require Import ZArith Reals List Bool.
From Verif Require Import M_Base S_Boundary S_Sum.
Open Scope Z_scope.

(** The number of elements of an area. *)
Definition elements {A} (v : vol A) : Z := vnx v * vny v * vnz v.

(** The call succeeds, keeps the extents, and afterwards every element [i] has
    the value [g i]. *)
Definition acts_on_all (v : vol R) (r : res (vol R)) (g : Z -> R) : Prop :=
  exists v', r = Ok v' /\ vnx v' = vnx v /\ vny v' = vny v /\ vnz v' = vnz v /\
    forall i, 0 <= i < elements v -> vdat v' i = g i.

(** The [k]-th cell of a box with [nx] x [ny] cells in each layer and first cell
    (x0, y0, z0) in x-fastest order. *)
Definition kth_cell (x0 y0 z0 nx ny k : Z) : cell :=
  (x0 + k mod nx, y0 + (k / nx) mod ny, z0 + k / (nx * ny)).

(** Sum of |u(c) - u(c - e)|^p over all pairs of neighbours in direction [d] with
    both cells in the box lo <= c < hi. *)
Definition pair_sum (p : nat) (d : Z) (lo hi : Z -> Z) (u : cell -> R) : R :=
  sum3 (fun k => if k =? d then lo k + 1 else lo k) hi
    (fun c => Rabs (u c - u (let '(x, y, z) := c in
       ((x - b2z (d =? 0))%Z, (y - b2z (d =? 1))%Z, (z - b2z (d =? 2))%Z))) ^ p)%R.

(** The components of a triple. *)
Definition comp (c : cell) (k : Z) : Z :=
  let '(x, y, z) := c in nvec x y z k.

(** Euclidean norm of the differences to the lower neighbours, to the power [p],
    summed over all cells of a plane that have both of them in the box. *)
Definition gradient_sum (p : nat) (lo hi : Z -> Z) (u : cell -> R) : R :=
  sum3 (fun k => if k <? 2 then lo k + 1 else lo k) hi (fun c => let '(x, y, z) := c in
    sqrt ((u c - u (x, (y - 1)%Z, z)) ^ 2 + (u c - u ((x - 1)%Z, y, z)) ^ 2) ^ p)%R.

(** Interior cell [c] (counted without ghost cells) of a volume with [g] ghost
    cells in the first [dims] directions, as position in memory. *)
Definition ipos (dims g : Z) (c : cell) : cell :=
  let '(x, y, z) := c in
  (g + x, (if 1 <? dims then g + y else y), (if 2 <? dims then g + z else z)).

(** Mean of the 2^dims interior cells of a fine volume covered by the interior
    cell [c] of a volume of half the resolution. *)
Definition fine_mean (dims g : Z) (fine : vol R) (c : cell) : R :=
  let lo k := if k <? dims then 2 * comp c k else comp c k in
  let hi k := if k <? dims then 2 * comp c k + 2 else comp c k + 1 in
  Rdiv (sum3 lo hi (fun c' => vget fine (ipos dims g c'))) (2 ^ Z.to_nat dims)%R.

(** The numbers of interior cells of the fine volume. *)
Definition fine_n (dims : Z) (n : Z -> Z) (k : Z) : Z := if k <? dims then 2 * n k else n k.
