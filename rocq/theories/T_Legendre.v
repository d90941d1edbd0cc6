(** Property C46: the Legendre polynomials of alsutils. *)
From Coq Require Import ZArith Reals List Lia Lra Arith.
From Verif Require Import M_Base M_Legendre S_Legendre.
Open Scope R_scope.

Lemma legendre_step n x :
  legendre (n + 2) x = (1 / INR (n + 2)) * (x * legendre (n + 1) x - (INR (n + 2) - 1) * legendre n x).
Proof.
  replace (n + 2)%nat with (S (S n)) by lia. replace (n + 1)%nat with (S n) by lia. reflexivity.
Qed.

(** Strong induction in steps of two. *)
Lemma ind2 (Q : nat -> Prop) : Q 0%nat -> Q 1%nat -> (forall n, Q n -> Q (n + 1)%nat -> Q (n + 2)%nat) -> forall n, Q n.
Proof.
  intros H0 H1 H n. enough (Q n /\ Q (n + 1)%nat) by tauto.
  induction n as [|n (A & B)]; [split; [exact H0|exact H1]|].
  split; [replace (S n) with (n + 1)%nat by lia; exact B|].
  replace (S n + 1)%nat with (n + 2)%nat by lia. now apply H.
Qed.

Lemma INR2 n : INR (n + 2) = INR n + 2.
Proof. rewrite plus_INR. cbn. lra. Qed.

(** The recursion has one solution, which is 1 at 1. *)
Lemma is_legendre_unique P Q : is_legendre P -> is_legendre Q -> forall n x, P n x = Q n x.
Proof.
  intros (P0 & P1 & PS) (Q0 & Q1 & QS) n x. induction n as [| |n A B] using ind2.
  - now rewrite P0, Q0.
  - now rewrite P1, Q1.
  - apply (Rmult_eq_reg_l (INR (n + 2))); [|rewrite INR2; pose proof (pos_INR n); lra].
    now rewrite PS, QS, A, B.
Qed.
Lemma is_legendre_one P : is_legendre P -> forall n, P n 1 = 1.
Proof.
  intros (P0 & P1 & PS) n. induction n as [| |n A B] using ind2; auto.
  apply (Rmult_eq_reg_l (INR (n + 2))); [|rewrite INR2; pose proof (pos_INR n); lra].
  rewrite PS, A, B. lra.
Qed.
Lemma is_legendre_P2 P : is_legendre P -> forall x, P 2%nat x = P2 x.
Proof.
  intros (P0 & P1 & PS) x. pose proof (PS 0%nat x) as H. cbn [Nat.add] in H. rewrite P0, P1 in H. cbn in H.
  unfold P2. lra.
Qed.

(** Degrees 0 and 1.  Full statement: is_legendre legendre, refuted below. *)
Theorem C46_low_degrees_partial : forall P, is_legendre P -> forall ndebug n x, (0 <= n <= 1)%Z ->
  legendre_p ndebug n x = Ok (P (Z.to_nat n) x).
Proof.
  intros P (P0 & P1 & _) ndebug n x Hn. assert (n = 0 \/ n = 1)%Z as [-> | ->] by lia.
  - change (Z.to_nat 0) with 0%nat. rewrite P0. reflexivity.
  - change (Z.to_nat 1) with 1%nat. rewrite P1. reflexivity.
Qed.

(** The factor 2n - 1 is missing: degree 2 at 1 is 0 instead of 1. *)
Theorem C46_refuted : ~ is_legendre legendre /\
  forall P, is_legendre P -> P 2%nat 1 = 1 /\ legendre_p false 2 1 = Ok 0.
Proof.
  assert (Z2 : legendre 2 1 = 0) by (cbn; lra). split.
  - intros H. pose proof (is_legendre_one _ H 2). lra.
  - intros P HP. split; [now apply is_legendre_one|]. unfold legendre_p. cbn [Z.leb Z.compare andb Pos.compare Pos.compare_cont].
    change (Z.to_nat 2) with 2%nat. now rewrite Z2.
Qed.

(** Every degree from 2 on is wrong: at 1 the value is less than 1 in modulus. *)
Theorem C46_every_degree_wrong : forall n, (2 <= n)%nat -> Rabs (legendre n 1) < 1.
Proof.
  assert (G : forall n, Rabs (legendre (n + 2) 1) < 1).
  { intros n. induction n as [| |n A B] using ind2.
    - cbn [Nat.add]. replace (legendre 2 1) with 0 by (cbn; lra). rewrite Rabs_R0. lra.
    - cbn [Nat.add]. replace (legendre 3 1) with (- (2 / 3)) by (cbn; lra). rewrite Rabs_Ropp, Rabs_right by lra. lra.
    - rewrite (legendre_step (n + 2)). replace (n + 2 + 1)%nat with (n + 1 + 2)%nat by lia.
      set (a := legendre (n + 2) 1) in *. set (b := legendre (n + 1 + 2) 1) in *.
      rewrite (INR2 (n + 2)), (INR2 n). pose proof (pos_INR n) as Hn. set (k := INR n) in *.
      rewrite Rabs_mult. unfold Rdiv. rewrite Rmult_1_l. rewrite (Rabs_right (/ _)) by (apply Rle_ge, Rlt_le, Rinv_0_lt_compat; lra).
      assert (T : Rabs (1 * b - (k + 2 + 2 - 1) * a) < k + 2 + 2).
      { eapply Rle_lt_trans; [apply (Rabs_triang (1 * b) (- ((k + 2 + 2 - 1) * a)))|].
        rewrite Rabs_Ropp, Rmult_1_l, Rabs_mult, (Rabs_right (k + 2 + 2 - 1)) by lra. nra. }
      apply (Rmult_lt_reg_l (k + 2 + 2)); [lra|]. rewrite <- Rmult_assoc, Rinv_r by lra. lra. }
  intros n Hn. replace n with (n - 2 + 2)%nat by lia. apply G.
Qed.

(** From degree 12 on nothing is computed. *)
Theorem C46_degree_limit_refuted : exists n x, (0 <= n)%Z /\ (forall P, is_legendre P -> P (Z.to_nat n) x = 1) /\
  legendre_p false n x = Throw /\ legendre_p true n x = Ok 0.
Proof.
  exists 12%Z, 1. split; [lia|]. split; [intros P HP; now apply is_legendre_one|]. split; reflexivity.
Qed.

(** What the values have in common with the Legendre polynomials: parity and the
    bound 1 on [-1, 1]. *)
Theorem C46_parity : forall n x, legendre n (- x) = (-1) ^ n * legendre n x.
Proof.
  intros n x. induction n as [| |n A B] using ind2; [cbn; lra|cbn; lra|].
  rewrite !legendre_step, A, B, !pow_add. cbn [pow]. ring.
Qed.
Theorem C46_bounded : forall n x, Rabs x <= 1 -> Rabs (legendre n x) <= 1.
Proof.
  intros n x Hx. induction n as [| |n A B] using ind2; [cbn; rewrite Rabs_right; lra|exact Hx|].
  rewrite legendre_step. set (a := legendre n x) in *. set (b := legendre (n + 1) x) in *.
  rewrite INR2. pose proof (pos_INR n) as Hn. set (k := INR n) in *.
  rewrite Rabs_mult. unfold Rdiv. rewrite Rmult_1_l. rewrite (Rabs_right (/ _)) by (apply Rle_ge, Rlt_le, Rinv_0_lt_compat; lra).
  assert (T : Rabs (x * b - (k + 2 - 1) * a) <= k + 2).
  { eapply Rle_trans; [apply (Rabs_triang (x * b) (- ((k + 2 - 1) * a)))|].
    rewrite Rabs_Ropp, !Rabs_mult, (Rabs_right (k + 2 - 1)) by lra.
    pose proof (Rabs_pos x). pose proof (Rabs_pos b). nra. }
  apply (Rmult_le_reg_l (k + 2)); [lra|]. rewrite <- Rmult_assoc, Rinv_r by lra. lra.
Qed.

Print Assumptions C46_low_degrees_partial.
Print Assumptions C46_refuted.
Print Assumptions C46_every_degree_wrong.
Print Assumptions C46_degree_limit_refuted.
Print Assumptions C46_parity.
Print Assumptions C46_bounded.

(** The recursion with the factor does have a solution. *)
Fixpoint bonnet (n : nat) (x : R) : R :=
  match n with
  | O => 1
  | S m => match m with
           | O => x
           | S k => (1 / INR n) * ((2 * INR n - 1) * x * bonnet m x - (INR n - 1) * bonnet k x)
           end
  end.
Example C46_exists : is_legendre bonnet /\ bonnet 3 2 = P3 2.
Proof.
  split.
  - split; [reflexivity|]. split; [reflexivity|]. intros n x.
    replace (n + 2)%nat with (S (S n)) by lia. replace (n + 1)%nat with (S n) by lia.
    change (bonnet (S (S n)) x) with ((1 / INR (S (S n))) * ((2 * INR (S (S n)) - 1) * x * bonnet (S n) x - (INR (S (S n)) - 1) * bonnet n x)).
    field. rewrite !S_INR. pose proof (pos_INR n). lra.
  - unfold P3. cbn. lra.
Qed.
Example C46_degree_one : forall P, is_legendre P -> legendre_p false 1 (1 / 3) = Ok (1 / 3) /\ P 1%nat (1 / 3) = 1 / 3.
Proof.
  intros P H. split; [rewrite (C46_low_degrees_partial P H) by lia; f_equal|]; apply H.
Qed.
