(** The stored variables make up a record. *)
From Coq Require Import ZArith Reals List Bool Lia.
From Verif Require Import M_Base M_Vec M_Euler M_Parallel M_Storage S_Parallel.
Open Scope Z_scope.

Lemma scalar_record : record_of scalar_cvars 1.
Proof.
  split.
  - intros a b H. exact (H 0 ltac:(lia)).
  - exists (fun f => f 0). intros f i Hi. assert (i = 0) as -> by lia. reflexivity.
Qed.

Lemma comp_pair_even (U W : cvars) i (a : pair_cvars U W) : comp (2 * i) a = comp i (fst a).
Proof.
  cbn [comp pair_cvars]. rewrite Nat.even_mul. cbn [Nat.even orb]. now rewrite Nat.div2_double.
Qed.
Lemma comp_pair_odd (U W : cvars) i (a : pair_cvars U W) : comp (S (2 * i)) a = comp i (snd a).
Proof.
  cbn [comp pair_cvars]. rewrite Nat.even_succ, Nat.odd_mul. cbn [Nat.odd Nat.even andb negb]. now rewrite Nat.div2_succ_double.
Qed.
Lemma vec_at n : forall j (a : rvec n), (j < n)%nat -> comp (vec_index j) a = vnth n j a.
Proof.
  induction n as [|n IH]; intros j a Hj; [lia|]. destruct j as [|j].
  - reflexivity.
  - cbn [vec_index vnth]. change (comp (S (2 * vec_index j)) (a : pair_cvars scalar_cvars (vec_cvars n)) = vnth n j (snd a)).
    rewrite comp_pair_odd. apply IH. lia.
Qed.
Lemma vec_ext n : forall a b : rvec n, (forall j, (j < n)%nat -> vnth n j a = vnth n j b) -> a = b.
Proof.
  induction n as [|n IH]; intros a b H.
  - now destruct a, b.
  - destruct a as [x a], b as [y b]. f_equal; [exact (H 0%nat ltac:(lia))|].
    apply IH. intros j Hj. exact (H (S j) ltac:(lia)).
Qed.
Fixpoint vec_build (n : nat) : (nat -> R) -> rvec n :=
  match n return (nat -> R) -> rvec n with
  | O => fun _ => tt
  | S n => fun f => (f 0%nat, vec_build n (fun j => f (S j)))
  end.
Lemma vec_build_at n : forall j f, (j < n)%nat -> vnth n j (vec_build n f) = f j.
Proof.
  induction n as [|n IH]; intros j f Hj; [lia|]. destruct j as [|j]; [reflexivity|]. cbn [vec_build vnth fst snd].
  apply (IH j (fun j => f (S j))). lia.
Qed.

Lemma euler_at_rho n (u : euler_cvars n) : comp (var_of (euler_cvars n) 0) u = rho_ u.
Proof. reflexivity. Qed.
Lemma euler_at_E n (u : euler_cvars n) : comp (var_of (euler_cvars n) (Z.of_nat n + 1)) u = en u.
Proof.
  unfold var_of, euler_storage. rewrite (proj2 (Z.eqb_neq _ _)) by lia. rewrite Z.eqb_refl. reflexivity.
Qed.
Lemma euler_at_m n (u : euler_cvars n) j : (j < n)%nat -> comp (var_of (euler_cvars n) (Z.of_nat j + 1)) u = vnth n j (mom u).
Proof.
  intros Hj. unfold var_of, euler_storage. rewrite (proj2 (Z.eqb_neq _ 0)) by lia.
  rewrite (proj2 (Z.eqb_neq _ (Z.of_nat n + 1))) by lia.
  replace (Z.to_nat (Z.of_nat j + 1 - 1)) with j by lia.
  change (comp (S (2 * (2 * vec_index j))) (u : pair_cvars scalar_cvars (pair_cvars (vec_cvars n) scalar_cvars)) = vnth n j (mom u)).
  rewrite comp_pair_odd, comp_pair_even. now apply vec_at.
Qed.
Lemma euler_record n : record_of (euler_cvars n) (Z.of_nat n + 2).
Proof.
  split.
  - intros a b H. pose proof (H 0 ltac:(lia)) as H0. pose proof (H (Z.of_nat n + 1) ltac:(lia)) as H1.
    rewrite !euler_at_E in H1. rewrite !euler_at_rho in H0.
    assert (Hm : mom a = mom b).
    { apply vec_ext. intros j Hj. pose proof (H (Z.of_nat j + 1) ltac:(lia)) as H2. now rewrite !euler_at_m in H2. }
    destruct a as [r [m E]], b as [r' [m' E']]. unfold rho_, mom, en in *. cbn [fst snd] in *. congruence.
  - exists (fun f => mkcons (f 0) (vec_build n (fun j => f (Z.of_nat j + 1))) (f (Z.of_nat n + 1))).
    intros f i Hi. destruct (Z.eq_dec i 0) as [->|]; [reflexivity|]. destruct (Z.eq_dec i (Z.of_nat n + 1)) as [->|].
    + now rewrite euler_at_E.
    + replace i with (Z.of_nat (Z.to_nat (i - 1)) + 1) by lia. rewrite euler_at_m by lia. unfold mom, mkcons. cbn [fst snd].
      rewrite vec_build_at by lia. reflexivity.
Qed.
