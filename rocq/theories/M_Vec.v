(** Conserved variables: records of reals with component-wise operations. *)
From Coq Require Import Reals List.
Open Scope R_scope.

(** The structs ConservedVariables of the equations, with their operators
    (e.g. /repo/alsfvm/include/alsfvm/equation/euler/ConservedVariables.hpp,
    /repo/alsfvm/include/alsfvm/equation/burgers/ConservedVariables.hpp):
    every operation acts on each component separately.  Exact real arithmetic
    replaces floating point. *)
Record cvars : Type := mkcvars {
  cv :> Type;
  vzero : cv;
  vadd : cv -> cv -> cv;
  vscal : R -> cv -> cv;
  comp : nat -> cv -> R;
  comp_zero : forall i, comp i vzero = 0;
  comp_add : forall i a b, comp i (vadd a b) = comp i a + comp i b;
  comp_scal : forall i c a, comp i (vscal c a) = c * comp i a;
  comp_ext : forall a b, (forall i, comp i a = comp i b) -> a = b
}.
Arguments vzero {_}.
Arguments vadd {_}.
Arguments vscal {_}.
Arguments comp {_}.

(** A scalar equation. *)
Definition scalar_cvars : cvars.
Proof.
  refine (mkcvars R 0 Rplus Rmult (fun _ a => a) _ _ _ _); auto.
  intros a b H. exact (H 0%nat).
Defined.

(** A system built from two groups of variables. *)
Definition pair_cvars (U W : cvars) : cvars.
Proof.
  refine (mkcvars (U * W)%type (vzero, vzero)
    (fun a b => (vadd (fst a) (fst b), vadd (snd a) (snd b)))
    (fun c a => (vscal c (fst a), vscal c (snd a)))
    (fun i a => if Nat.even i then comp (Nat.div2 i) (fst a) else comp (Nat.div2 i) (snd a))
    _ _ _ _).
  - intros i. destruct (Nat.even i); apply comp_zero.
  - intros i a b. destruct (Nat.even i); apply comp_add.
  - intros i c a. destruct (Nat.even i); apply comp_scal.
  - intros [a1 a2] [b1 b2] H. f_equal; apply comp_ext; intros i.
    + specialize (H (2 * i)%nat). rewrite Nat.even_mul in H. simpl Nat.even in H.
      simpl orb in H. rewrite Nat.div2_double in H. exact H.
    + specialize (H (S (2 * i))%nat). rewrite Nat.even_succ, Nat.odd_mul in H. simpl Nat.odd in H.
      simpl andb in H. rewrite Nat.div2_succ_double in H. exact H.
Defined.
