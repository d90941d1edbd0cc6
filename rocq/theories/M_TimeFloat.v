(** The interval statistics in binary64 arithmetic. *)
From Coq Require Import ZArith Reals List Bool.
From Flocq Require Import Core.
From Flocq Require Import BinarySingleNaN.
From Verif Require Import M_Base.
Import ListNotations.
Open Scope Z_scope.

(** [real] is double (/repo/alsutils/include/alsutils/types.hpp line 65); binary64 with
    rounding to nearest even, each operation rounded separately.  One not a
    number. *)
Definition prec53 : Prec_gt_0 53 := eq_refl.
Definition prec_emax : Prec_lt_emax 53 1024 := eq_refl.
Definition f64 : Type := binary_float 53 1024.
Definition fadd (x y : f64) : f64 := Bplus (prec_gt_0_ := prec53) (prec_lt_emax_ := prec_emax) mode_NE x y.
Definition fsub (x y : f64) : f64 := Bminus (prec_gt_0_ := prec53) (prec_lt_emax_ := prec_emax) mode_NE x y.
Definition fmul (x y : f64) : f64 := Bmult (prec_gt_0_ := prec53) (prec_lt_emax_ := prec_emax) mode_NE x y.
(** Conversion from size_t. *)
Definition fofZ (z : Z) : f64 := binary_normalize 53 1024 prec53 prec_emax mode_NE z 0 false.
Definition fzero : f64 := B754_zero false.
Definition fge (x y : f64) : bool := Bleb y x.
Definition feq (x y : f64) : bool := Beqb x y.
(** std::min(a, b) = (b < a) ? b : a *)
Definition fmin (a b : f64) : f64 := if Bltb b a then b else a.

(** State: current time, numberSaved, and the save counters with the time
    stamps of the snapshots taken. *)
Record fst_ : Type := mkfst { ft : f64; fk : Z; flog : list (Z * f64) }.

(** FixedIntervalStatistics::computeStatistics,
    /repo/alsuq/src/stats/FixedIntervalStatistics.cpp lines 64-86. *)
Definition fl_put (T : f64) (wi : bool) (s : fst_) : fst_ :=
  let k := if feq (ft s) fzero then (if wi then 0 else 1) else fk s in
  if fge (ft s) (fmul (fofZ k) T)
  then mkfst (ft s) (k + 1) (flog s ++ [(k, ft s)])
  else mkfst (ft s) k (flog s).

(** adjustTimestep, lines 33-41. *)
Definition fl_adjust (T : f64) (s : fst_) (dt : f64) : f64 :=
  if 0 <? fk s then fmin dt (fsub (fmul (fofZ (fk s)) T) (ft s)) else dt.

(** One step; TimestepInformation::incrementTime is [currentTime += dt]. *)
Definition fl_step (T : f64) (wi : bool) (s : fst_) (dt : f64) : fst_ :=
  fl_put T wi (mkfst (fadd (ft s) (fl_adjust T s dt)) (fk s) (flog s)).

Definition fl_drive (T : f64) (wi : bool) (dts : list f64) : fst_ :=
  fold_left (fl_step T wi) dts (fl_put T wi (mkfst fzero (if wi then 0 else 1) [])).
