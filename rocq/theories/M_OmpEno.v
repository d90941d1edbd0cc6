(** The OpenMP loops of the two ENO reconstructions. *)
From Coq Require Import ZArith Reals List Bool.
From Verif Require Import M_Base M_Vec M_Boundary M_Flux M_Scalar M_Recon M_Eno M_TecnoEno M_Omp.
Import ListNotations.
Open Scope Z_scope.

Section Eno.
(** An element is a value of a volume ([inl]) or of a scalar array ([inr]). *)
Context {V : cvars}.
Variables (nx ny nz : Z).
Definition epr : Type := prog (V + R) unit.

Definition as_v (k : V -> epr) (e : V + R) : epr := match e with inl v => k v | inr _ => Fail end.
Definition as_r (k : R -> epr) (e : V + R) : epr := match e with inr v => k v | inl _ => Fail end.
Definition p_v (a x y z : Z) (k : V -> epr) : epr := pload nx ny nz a x y z (as_v k).
Definition p_r (a x y z : Z) (k : R -> epr) : epr := pload nx ny nz a x y z (as_r k).

Fixpoint p_vs (a : Z) (cs : list cell) (k : list V -> epr) : epr :=
  match cs with
  | [] => k []
  | (x, y, z) :: cs' => p_v a x y z (fun v => p_vs a cs' (fun vs => k (v :: vs)))
  end.

(** [count_shift] on the arrays number [a], [a] + 1, ... *)
Fixpoint p_shift (d : Z) (levels : nat) (a x y z shift : Z) (k : Z -> epr) : epr :=
  match levels with
  | O => k shift
  | S n =>
      p_r a x y z (fun r =>
      p_r a (x - unit_ d 0) (y - unit_ d 1) (z - unit_ d 2) (fun l =>
      p_shift d n (a + 1) x y z (if Rlt_dec (Rabs l) (Rabs r) then shift + 1 else shift) k))
  end.

(** The loop of ENOCPU::performReconstruction,
    /repo/alsfvm/src/reconstruction/ENOCPU.cpp lines 119-184 with the pragma of
    line 125, for all variables of a cell together.  Arrays: conserved variables,
    left, right, divided differences from number 3. *)
Definition eno_body (k : nat) (d x y z : Z) : epr :=
  p_shift d (k - 1) 3 x y z 0 (fun shift =>
  p_vs 0 (map (fun j => (x - (shift - j) * unit_ d 0, y - (shift - j) * unit_ d 1, z - (shift - j) * unit_ d 2))
              (zrange 0 (Z.of_nat k))) (fun us =>
  pstore nx ny nz 1 x y z (inl (weighted (nth (Z.to_nat shift) (eno_coef k) []) us))
  (pstore nx ny nz 2 x y z (inl (weighted (nth (Z.to_nat (shift + 1)) (eno_coef k) []) us)) (Ret [])))).
Definition omp_eno (k : nat) (d : Z) (start fin : ivec) : list (list epr) :=
  let n := extent nx ny nz in
  let lo j := active n j * (Z.of_nat k - unit_ d j) + start j in
  let hi j := n j - active n j * (Z.of_nat k - unit_ d j) + fin j in
  par_y (lo 2) (hi 2) (lo 1) (hi 1) (lo 0) (hi 0) (eno_body k d).

(** What the arrays hold. *)
Definition eno_mem (u left right : vol V) (dd : list (vol R)) : shared (V + R) := fun a i =>
  if a =? 1 then inl (vdat left i) else if a =? 2 then inl (vdat right i)
  else if a <? 3 then inl (vdat u i) else inr (vdat (nth (Z.to_nat (a - 3)) dd (zero_vol 0 0 0)) i).

End Eno.

(** * tecno::ENOCPU, one variable *)
Section Tecno.
Notation V := scalar_cvars.
Variables (nx ny nz : Z).
Notation epr := (epr (V := V)).

(** computeDividedDifferences,
    /repo/alsfvm/src/reconstruction/tecno/ENOCPU.cpp lines 227-242, pragma on the
    loop over x. *)
Definition diff_body (a b out d x y z : Z) : epr :=
  p_r nx ny nz a x y z (fun r =>
  p_r nx ny nz b (x - unit_ d 0) (y - unit_ d 1) (z - unit_ d 2) (fun l =>
  pstore nx ny nz out (x - unit_ d 0) (y - unit_ d 1) (z - unit_ d 2) (inr (r - l)%R) (Ret []))).
Definition omp_differences (a b out d level : Z) : list (list epr) :=
  let lo k := unit_ d k * level in
  let hi k := extent nx ny nz k - unit_ d k * level in
  par_x (lo 2) (hi 2) (lo 1) (hi 1) (lo 0) (hi 0) (diff_body a b out d).
(** Lines 63-73. *)
Fixpoint omp_levels (n : nat) (a b out d level : Z) : list (list epr) :=
  match n with
  | O => []
  | S n => omp_differences a b out d level ++ omp_levels n out out (out + 1) d (level + 1)
  end.

(** Lines 147-155. *)
Fixpoint p_up (n : nat) (w i : Z) (a : R) (k : list R -> epr) : epr :=
  match n with
  | O => k []
  | S n => Fetch w i (as_r (fun x => p_up n w (i + 1) (a + x)%R (fun l => k ((a + x)%R :: l))))
  end.
Fixpoint p_down (n : nat) (w i : Z) (a : R) (k : list R -> epr) : epr :=
  match n with
  | O => k []
  | S n => Fetch w (i - 1) (as_r (fun x => p_down n w (i - 1) (a - x)%R (fun l => k ((a - x)%R :: l))))
  end.

(** Lines 108-173 with the pragma of line 110.  Arrays: left input, right input,
    left output, right output, divided differences from number 4. *)
Definition tecno_body (k : nat) (d x y z : Z) : epr :=
  p_shift nx ny nz d (k - 1) 4 x y z 0 (fun shift =>
  p_r nx ny nz 0 x y z (fun a =>
  p_r nx ny nz 1 x y z (fun b =>
  p_up (k - 1) 4 (index nx ny x y z) a (fun up =>
  p_down (k - 1) 4 (index nx ny x y z) a (fun down =>
    let us := skipn (Z.to_nat (Z.of_nat k - 1 - shift)) (rev down ++ a :: up) in
    pstore nx ny nz 2 x y z (inr (weighted (V := V) (nth (Z.to_nat shift) (eno_coef k) []) us))
    (pstore nx ny nz 3 x y z
      (inr (weighted (V := V) (nth (Z.to_nat (shift + 1)) (eno_coef k) []) us + (b - a))%R) (Ret []))))))).
Definition omp_tecno_var (k : nat) (d : Z) : list (list epr) :=
  let lo j := unit_ d j * (Z.of_nat k - 1) in
  let hi j := extent nx ny nz j - unit_ d j * (Z.of_nat k - 1) in
  omp_levels (k - 1) 0 1 4 d 1 ++
  par_y (lo 2) (hi 2) (lo 1) (hi 1) (lo 0) (hi 0) (tecno_body k d).

(** What the arrays hold. *)
Definition tecno_mem (el er left right : vol R) (dd : list (vol R)) : shared (V + R) := fun a i =>
  inr (if a =? 1 then vdat er i else if a =? 2 then vdat left i else if a =? 3 then vdat right i
       else if a <? 4 then vdat el i else vdat (nth (Z.to_nat (a - 4)) dd (zero_vol 0 0 0)) i).
End Tecno.
