(** Property C27 in binary64 arithmetic: the variance may be negative. *)
From Coq Require Import ZArith Reals List Bool Lia.
From Flocq Require Import Core.
From Flocq Require Import BinarySingleNaN.
From Verif Require Import M_Base M_TimeFloat.
Import ListNotations.
Open Scope Z_scope.

Definition fdiv (x y : f64) : f64 := Bdiv (prec_gt_0_ := prec53) (prec_lt_emax_ := prec_emax) mode_NE x y.

(** One element of the mean and variance snapshots of a run with one process:
    makeZero, then += and addPower for each sample (MeanVariance.cpp lines 30-53),
    the division by the number of samples (StatisticsHelper.cpp line 74; with one
    process MPI_Reduce copies), then subtractPower (MeanVariance.cpp lines 55-67).
    [pw x] is std::pow(x, 2). *)
Definition fl_mean (xs : list f64) : f64 :=
  fdiv (fold_left (fun s x => fadd s x) xs fzero) (fofZ (Z.of_nat (length xs))).
Definition fl_variance (pw : f64 -> f64) (xs : list f64) : f64 :=
  fsub (fdiv (fold_left (fun s x => fadd s (pw x)) xs fzero) (fofZ (Z.of_nat (length xs))))
       (pw (fl_mean xs)).

(** The value 54703907; its square is an exact double, so any std::pow that is
    exact on exact squares gives the same. *)
Definition c27_x : f64 := fofZ 54703907.

Lemma c27_square_exact : Beqb (fmul c27_x c27_x) (fofZ (54703907 * 54703907)) = true /\
  54703907 * 54703907 < 2 ^ 53.
Proof. split; vm_compute; reflexivity. Qed.

(** Six equal samples: the mean is exact, yet the variance is negative. *)
Theorem C27_binary64_negative_refuted : exists xs x, Forall (fun y => y = x) xs /\ is_finite x = true /\
  fl_mean xs = x /\
  forall pw, pw x = fmul x x ->
    is_finite (fl_variance pw xs) = true /\ Bltb (fl_variance pw xs) fzero = true.
Proof.
  exists (repeat c27_x 6), c27_x.
  split; [repeat constructor|]. split; [vm_compute; reflexivity|].
  assert (Em : fl_mean (repeat c27_x 6) = c27_x) by (apply B2SF_inj; vm_compute; reflexivity).
  split; [exact Em|]. intros pw Hpw.
  unfold fl_variance. rewrite Em. cbn [repeat fold_left]. rewrite Hpw.
  split; vm_compute; reflexivity.
Qed.

Print Assumptions C27_binary64_negative_refuted.
