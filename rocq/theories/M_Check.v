(** The admissibility check after each step, in binary64 arithmetic. *)
From Coq Require Import ZArith Reals List Bool.
From Flocq Require Import Core BinarySingleNaN.
From Verif Require Import M_Base M_Foreach M_Sim M_TimeFloat.
Import ListNotations.
Open Scope Z_scope.

Definition fdiv (x y : f64) : f64 := Bdiv (prec_gt_0_ := prec53) (prec_lt_emax_ := prec_emax) mode_NE x y.
Definition fgt (x y : f64) : bool := Bltb y x.
Definition fhalf : f64 := binary_normalize 53 1024 prec53 prec_emax mode_NE 1 (-1) false.
Definition finfty : f64 := B754_infinity false.

(** What obeysConstraints uses of an equation: computeExtra and
    obeysConstraints, on the conserved variables in order. *)
Record feq_ : Type := mkfeq {
  fe_extra : list f64 -> list f64;
  fe_obeys : list f64 -> list f64 -> bool
}.

(** Burgers, cubic, linear, Buckley-Leverett: no extra variables; e.g.
    /repo/alsfvm/include/alsfvm/equation/burgers/Burgers.hpp lines 171-174 and
    220-224 (Cubic.hpp and Linear.hpp 220-224, BuckleyLeverett.hpp 223-227). *)
Definition fe_scalar : feq_ :=
  mkfeq (fun _ => [])
        (fun u _ => match u with
                    | [u] => Bltb u finfty && feq u u
                    | _ => false
                    end).

(** vec1, vec2, vec3 dot: /repo/alsutils/include/alsutils/vec1.hpp line 92,
    vec2.hpp line 101, vec3.hpp lines 102-104: x*x + y*y + z*z from the left. *)
Definition fdot (m : list f64) : f64 :=
  match m with
  | [] => fzero
  | a :: r => fold_left (fun s b => fadd s (fmul b b)) r (fmul a a)
  end.

(** Euler: /repo/alsfvm/include/alsfvm/equation/euler/Euler.hpp lines 204-211
    (computeExtra) and 269-277 (obeysConstraints).  Conserved variables rho, m,
    E; extra variables p, u.  The length of m is not compared with the
    dimension (the type does that in the C++). *)
Definition fe_euler (gamma : f64) : feq_ :=
  mkfeq
    (fun u => match u with
              | rho :: rest =>
                  let m := removelast rest in
                  let E := last rest fzero in
                  let ie := fsub E (fdiv (fmul fhalf (fdot m)) rho) in
                  fmul (fsub gamma (fofZ 1)) ie :: map (fun a => fdiv a rho) m
              | [] => []
              end)
    (fun u ex => match u, ex with
                 | rho :: _, p :: _ => is_finite rho && feq rho rho && fgt rho fzero && fgt p fzero
                 | _, _ => false
                 end).

(** std::isnan(x) || std::isinf(x) *)
Definition bad (x : f64) : bool :=
  is_nan x || match x with B754_infinity _ => true | _ => false end.

(** CPUCellComputer::obeysConstraints,
    /repo/alsfvm/src/equation/CPUCellComputer.cpp lines 79-125, over
    volume::for_each_cell, volume_foreach.hpp lines 290-308: all cells, ghost
    cells included.  An access outside the area is [UB]. *)
Definition obeys_constraints (eq : feq_) (v : vol (list f64)) : res bool :=
  for_each_cell_index (vnx v) (vny v) (vnz v) (0, 0, 0) (0, 0, 0)
    (fun i (obeys : bool) =>
       if (0 <=? i) && (i <? vnx v * vny v * vnz v) then
         let c := vdat v i in
         let ex := fe_extra eq c in
         let obeys := fold_left (fun o x => if bad x then false else o) c obeys in
         let obeys := fold_left (fun o x => if bad x then false else o) ex obeys in
         Ok (if negb (fe_obeys eq c ex) then false else obeys)
       else UB) true.

Definition obeys_bool (eq : feq_) (v : vol (list f64)) : bool :=
  match obeys_constraints eq v with Ok b => b | _ => false end.

(** A run of the simulator with the volumes handed to the writers: performStep
    (Simulator.cpp lines 81-85) calls them after the check, with
    *conservedVolumes[0] (lines 172-178).  [inc] is incrementSolution, an
    arbitrary function: nothing is assumed about the scheme. *)
Section Run.
Context {St : Type} (inc : St -> res St) (front : St -> res (vol (list f64))) (eq : feq_).
Definition logging_step (s : St * list (vol (list f64))) : res (St * list (vol (list f64))) :=
  st' <- checked_step inc front (obeys_bool eq) (fst s);;
  u <- front st';;
  Ok (st', snd s ++ [u]).
Definition logging_run (n : nat) (st : St) : res (St * list (vol (list f64))) :=
  fold_res (fun _ => logging_step) (seq 0 n) (st, []).
End Run.
