(** ENOCPU with its divided difference arrays. *)
From Coq Require Import ZArith Reals List Bool.
From Verif Require Import M_Base M_Vec M_Boundary M_Flux M_Recon.
Import ListNotations.
Open Scope Z_scope.

(** `(ny > 1) *` in the loop bounds (ENOCPU.cpp lines 92-98, 224-236); the x
    direction is always active. *)
Definition active (n : Z -> Z) (k : Z) : Z := if k =? 0 then 1 else b2z (1 <? n k).

(** computeDividedDifferences, /repo/alsfvm/src/reconstruction/ENOCPU.cpp lines
    205-267.  [ld] reads the input; [n] are the extents of the input, [order]
    the template parameter.  The asserts of lines 219-222 are kept. *)
Definition divided_differences (order d level : Z) (n : Z -> Z) (ld : Z -> Z -> Z -> res R)
    (output : vol R) (start fin : ivec) : res (vol R) :=
  let e := unit_ d in
  if forallb (fun k => 2 * e k * level <? n k) [0; 1; 2] then
    let lo k := active n k * ((1 - e k) * order) + e k * level + start k in
    let hi k := n k - (active n k * ((1 - e k) * (order - 1)) + e k * (level - 1)) + fin k in
    for3 (lo 2) (hi 2) (lo 1) (hi 1) (lo 0) (hi 0) (fun x y z out =>
      r <- ld x y z;;
      l <- ld (x - e 0) (y - e 1) (z - e 2);;
      vstore out (x - e 0) (y - e 1) (z - e 2) (r - l)%R) output
  else UB.

(** Lines 65-79: the first level from the indicator variable, each further level
    from the previous one. *)
Fixpoint dd_levels (order d level : Z) (n : Z -> Z) (ld : Z -> Z -> Z -> res R)
    (scratch : list (vol R)) (start fin : ivec) : res (list (vol R)) :=
  match scratch with
  | [] => Ok []
  | w :: ws =>
      w' <- divided_differences order d level n ld w start fin;;
      ws' <- dd_levels order d (level + 1) (total w') (vload w') ws start fin;;
      Ok (w' :: ws')
  end.

(** Lines 141-153. *)
Fixpoint count_shift (d : Z) (scratch : list (vol R)) (x y z : Z) (shift : Z) : res Z :=
  match scratch with
  | [] => Ok shift
  | w :: ws =>
      r <- vload w x y z;;
      l <- vload w (x - unit_ d 0) (y - unit_ d 1) (z - unit_ d 2);;
      count_shift d ws x y z (if Rlt_dec (Rabs l) (Rabs r) then shift + 1 else shift)
  end.

Definition size3 {A} (v : vol A) : Z := vnx v * vny v * vnz v.
Definition zero_vol (nx ny nz : Z) : vol R := mkvol nx ny nz (fun _ => 0%R).

Section Eno.
Context {V : cvars}.

(** leftValue, rightValue: lines 160-174. *)
Definition weighted (cs : list R) (us : list V) : V :=
  fold_left (fun acc cu => vadd acc (vscal (fst cu) (snd cu))) (combine cs us) vzero.

(** performReconstruction, ENOCPU.cpp lines 41-187, for all variables of a cell
    together.  [scratch] are the order - 1 arrays `dividedDifferences`, which
    live as long as the object; [ld] reads the conserved variables, [u] gives
    the extents. *)
Definition eno_perform (k : nat) (ind : V -> R) (ld : Z -> Z -> Z -> res V) (d : Z) (u : vol V)
    (scratch : list (vol R)) (left right : vol V) (start fin : ivec)
  : res (list (vol R) * (vol V * vol V)) :=
  if (d <? 0) || (2 <? d) then Throw else
  match scratch with
  | [] => UB
  | w0 :: _ =>
    let order := Z.of_nat k in
    let e := unit_ d in
    let scratch1 := if size3 u =? size3 w0 then scratch
                    else map (fun _ => zero_vol (vnx u) (vny u) (vnz u)) scratch in
    dd <- dd_levels order d 1 (total u) (fun x y z => v <- ld x y z;; Ok (ind v)) scratch1 start fin;;
    if forallb (fun j => 2 * e j * order <? total u j) [0; 1; 2] then
      let lo j := active (total u) j * (order - e j) + start j in
      let hi j := total u j - active (total u) j * (order - e j) + fin j in
      lr <- for3 (lo 2) (hi 2) (lo 1) (hi 1) (lo 0) (hi 0) (fun x y z lr =>
        shift <- count_shift d dd x y z 0;;
        us <- map_res (fun j => ld (x - (shift - j) * e 0) (y - (shift - j) * e 1) (z - (shift - j) * e 2))
                      (zrange 0 order);;
        left' <- vstore (fst lr) x y z (weighted (nth (Z.to_nat shift) (eno_coef k) []) us);;
        right' <- vstore (snd lr) x y z (weighted (nth (Z.to_nat (shift + 1)) (eno_coef k) []) us);;
        Ok (left', right')) (left, right);;
      Ok (dd, lr)
    else UB
  end.
End Eno.
