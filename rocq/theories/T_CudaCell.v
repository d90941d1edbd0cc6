(** C72: the admissibility check on a GPU. *)
From Coq Require Import ZArith Reals List Bool Lia Lra.
From Flocq Require Import Core BinarySingleNaN.
From Verif Require Import M_Base M_Foreach L_Base L_Foreach M_Sim M_Memory M_TimeFloat M_Check S_Check L_Check T_Check
  M_Omp L_Omp L_OmpFlux T_Omp M_Cuda L_Cuda M_CudaCell L_CudaCell.
Import ListNotations.
Open Scope Z_scope.

(** Some cell of the volume, ghost cells included, satisfies P. *)
Definition some_cell {A} (P : A -> Prop) (v : vol A) : Prop :=
  exists x y z, 0 <= x < vnx v /\ 0 <= y < vny v /\ 0 <= z < vnz v /\ P (vget v (x, y, z)).

Lemma vsize_pos {A} (v : vol A) : sized v -> 0 <= vsize v.
Proof. intros (H1 & H2 & H3 & _). unfold vsize. nia. Qed.

Lemma cells_elements {A} (P : A -> Prop) (v : vol A) : sized v ->
  (some_cell P v <-> exists i, 0 <= i < vsize v /\ P (vdat v i)).
Proof.
  intros (H1 & H2 & H3 & _). split.
  - intros (x & y & z & Hx & Hy & Hz & H). exists (index (vnx v) (vny v) x y z). split; [apply index_range; auto|exact H].
  - intros (i & Hi & H). destruct (index_surj (vnx v) (vny v) (vnz v) i) as (x & y & z & Hx & Hy & Hz & E); auto.
    exists x, y, z. repeat split; try lia. unfold vget. rewrite <- E. exact H.
Qed.

(** The check always ends, without a data race or an access outside, with the same
    answer: whether some cell passes the test of the equation. *)
Theorem C72_check_some : forall eq (v : vol (list f64)), sized v ->
  (forall r, outcomes (fun _ => vsize v) (cuda_check eq (vsize v)) (fun _ => vdat v) r -> exists x, r = Ok x) /\
  exists b, (forall b', cuda_obeys eq v b' <-> b' = b) /\
    (b = true <-> some_cell (fun c => fe_obeys eq c (fe_extra eq c) = true) v).
Proof.
  intros eq v Hs. pose proof (vsize_pos v Hs) as P.
  pose proof (contributions (A := list f64) (fun _ => vsize v) (fun c => Z.b2z (fe_obeys eq c (fe_extra eq c)))
                (vsize v) (fun _ => vdat v) ltac:(lia)) as C. cbv zeta in C.
  fold (cuda_check eq (vsize v)) in C.
  set (xs := map (fun i => Z.b2z (fe_obeys eq (vdat v i) (fe_extra eq (vdat v i)))) (zrange 0 (vsize v))) in C.
  split; [intros r Hr; apply C in Hr; eauto|].
  assert (Q : forall r, reduced Z.max (0 :: xs) r ->
    (negb (r =? 0) = true <-> some_cell (fun c => fe_obeys eq c (fe_extra eq c) = true) v)).
  { intros r Hr. apply reduced_zmax in Hr. destruct Hr as [Hi Hm]. rewrite cells_elements by exact Hs. split.
    - intros Hb. destruct Hi as [<-|Hi]; [discriminate|]. apply in_map_iff in Hi. destruct Hi as (i & <- & Hi).
      apply zrange_In in Hi. exists i. split; [lia|]. destruct (fe_obeys _ _ _); [reflexivity|discriminate].
    - intros (i & Hi' & H). assert (1 <= r); [|destruct (Z.eqb_spec r 0); [lia|reflexivity]].
      apply Hm. right. apply in_map_iff. exists i. split; [rewrite H; reflexivity|apply zrange_In; lia]. }
  destruct (reduced_exists Z.max xs 0) as (r0 & R0). exists (negb (r0 =? 0)). split; [|apply Q; exact R0].
  intros b'. split.
  - intros (m & ys & r & O & Hr & ->). apply C in O. injection O as -> ->.
    pose proof (Q r Hr). pose proof (Q r0 R0). destruct (negb (r =? 0)), (negb (r0 =? 0)); auto; exfalso; intuition discriminate.
  - intros ->. exists (fun _ => vdat v), xs, r0. split; [apply C; reflexivity|auto].
Qed.

(** * The property: the check decides whether all cells are admissible *)
Definition check_decides : Prop :=
  forall gamma d v b, sized v -> all_cells (fun c => length c = (d + 2)%nat) v ->
  cuda_obeys (fe_euler gamma) v b -> (b = true <-> all_cells (euler_admissible gamma d) v).
Definition check_decides_scalar : Prop :=
  forall v b, sized v -> all_cells (fun c => length c = 1%nat) v ->
  cuda_obeys fe_scalar v b -> (b = true <-> all_cells scalar_admissible v).

(** Only this holds: a volume of admissible cells is accepted, and what is rejected
    is rejected on the CPU as well. *)
Lemma obeys_own gamma d c : euler_admissible gamma d c ->
  fe_obeys (fe_euler gamma) c (fe_extra (fe_euler gamma) c) = true.
Proof.
  intros H. apply (euler_obeys gamma d); [destruct H as (rho & m & E & -> & <- & _); cbn; rewrite app_length; cbn; lia|exact H].
Qed.
Lemma obeys_own_scalar c : scalar_admissible c -> fe_obeys fe_scalar c (fe_extra fe_scalar c) = true.
Proof.
  intros H. apply scalar_obeys; [destruct H as (u & -> & _); reflexivity|exact H].
Qed.
Lemma all_some {A} (P : A -> Prop) (v : vol A) : sized v -> all_cells P v -> some_cell P v.
Proof. intros (H1 & H2 & H3 & _) H. exists 0, 0, 0. repeat split; try lia. apply H; lia. Qed.

Theorem C72_check_partial : forall gamma d v b, sized v -> all_cells (fun c => length c = (d + 2)%nat) v ->
  cuda_obeys (fe_euler gamma) v b -> all_cells (euler_admissible gamma d) v -> b = true.
Proof.
  intros gamma d v b Hs _ Hb H. destruct (C72_check_some (fe_euler gamma) v Hs) as (_ & b0 & U & Q).
  apply U in Hb. subst. apply Q. destruct (all_some _ _ Hs H) as (x & y & z & Hx & Hy & Hz & C).
  exists x, y, z. split; [exact Hx|]. split; [exact Hy|]. split; [exact Hz|]. apply (obeys_own gamma d). exact C.
Qed.
Theorem C72_check_scalar_partial : forall v b, sized v -> all_cells (fun c => length c = 1%nat) v ->
  cuda_obeys fe_scalar v b -> all_cells scalar_admissible v -> b = true.
Proof.
  intros v b Hs _ Hb H. destruct (C72_check_some fe_scalar v Hs) as (_ & b0 & U & Q).
  apply U in Hb. subst. apply Q. destruct (all_some _ _ Hs H) as (x & y & z & Hx & Hy & Hz & C).
  exists x, y, z. split; [exact Hx|]. split; [exact Hy|]. split; [exact Hz|]. apply obeys_own_scalar. exact C.
Qed.

(** One admissible cell anywhere is enough, whatever the other cells hold: the step
    is not refused and the volume goes on to the writers. *)
Theorem C72_step_not_refused : forall St (inc : St -> res St) front gamma d (check : vol (list f64) -> bool) st st' u,
  (forall v, sized v -> cuda_obeys (fe_euler gamma) v (check v)) ->
  inc st = Ok st' -> front st' = Ok u -> sized u -> some_cell (euler_admissible gamma d) u ->
  checked_step inc front check st = Ok st'.
Proof.
  intros St inc front gamma d check st st' u Hc E1 E2 Hs (x & y & z & Hx & Hy & Hz & C).
  unfold checked_step. rewrite E1. cbn [bind]. rewrite E2. cbn [bind].
  destruct (C72_check_some (fe_euler gamma) u Hs) as (_ & b & U & Q).
  assert (check u = true) as ->; [|reflexivity].
  rewrite (proj1 (U _) (Hc u Hs)). apply Q. exists x, y, z. split; [exact Hx|]. split; [exact Hy|]. split; [exact Hz|].
  apply (obeys_own gamma d). exact C.
Qed.

(** Two cells, one of them with a not-a-number, an infinite or a negative energy. *)
Theorem C72_bad_cells_accepted : forall E2, E2 = B754_nan \/ E2 = B754_infinity false \/ E2 = fzero ->
  cuda_obeys (fe_euler (fofZ 2)) (c50_vol E2) true /\
  obeys_constraints (fe_euler (fofZ 2)) (c50_vol E2) = Ok false.
Proof.
  intros E2 H. assert (Hs : sized (c50_vol E2)) by (unfold sized, c50_vol, two64; cbn; lia). split.
  - destruct (C72_check_some (fe_euler (fofZ 2)) _ Hs) as (_ & b & U & Q). apply U. symmetry. apply Q.
    exists 0, 0, 0. cbn [vnx vny vnz c50_vol]. repeat split; try lia; vm_compute; reflexivity.
  - destruct C50_rejects as (R1 & R2 & R3). destruct H as [->|[->| ->]]; assumption.
Qed.
Theorem C72_check_refuted : ~ check_decides.
Proof.
  intros H. destruct (C72_bad_cells_accepted B754_nan (or_introl eq_refl)) as [A B].
  assert (Hs : sized (c50_vol B754_nan)) by (unfold sized, c50_vol, two64; cbn; lia).
  assert (Hl : all_cells (fun c => length c = (1 + 2)%nat) (c50_vol B754_nan)).
  { intros x y z _ _ _. unfold vget, c50_vol. cbn [vdat]. destruct (_ =? 0); reflexivity. }
  apply (H (fofZ 2) 1%nat _ true Hs Hl) in A. destruct (C50_check_euler (fofZ 2) 1 _ Hs Hl) as (b & E & Q).
  rewrite B in E. injection E as <-. apply proj2 in Q. destruct A as [A _]. discriminate (Q (A eq_refl)).
Qed.

(** For scalar equations too; there even a volume of infinities only is accepted. *)
Theorem C72_scalar_refuted : ~ check_decides_scalar /\
  cuda_obeys fe_scalar (mkvol 1 1 1 (fun _ => [B754_infinity true])) true.
Proof.
  assert (Hs : sized (mkvol 1 1 1 (fun _ : Z => [B754_infinity true : f64]))) by (unfold sized, two64; cbn; lia).
  assert (A : cuda_obeys fe_scalar (mkvol 1 1 1 (fun _ => [B754_infinity true])) true).
  { destruct (C72_check_some fe_scalar _ Hs) as (_ & b & U & Q). apply U. symmetry. apply Q.
    exists 0, 0, 0. repeat split; cbn; lia. }
  split; [|exact A]. intros H. apply H in A; [|exact Hs|intros x y z _ _ _; reflexivity].
  destruct A as [A _]. specialize (A eq_refl 0 0 0 ltac:(cbn; lia) ltac:(cbn; lia) ltac:(cbn; lia)).
  destruct A as (u & E & F). cbn in E. injection E as <-. discriminate.
Qed.

(** * Wave speeds: the same number on both *)
Theorem C72_max_speed : forall A (speed : A -> R) (v : vol A), sized v ->
  exists w, cpu_max_speed speed v = Ok w /\ (forall w', cuda_max_speed speed v w' <-> w' = w) /\
    (0 <= w)%R /\ all_cells (fun c => speed c <= w)%R v /\ (w = 0%R \/ some_cell (fun c => speed c = w) v).
Proof.
  intros A speed v Hs. pose proof (vsize_pos v Hs) as P.
  pose proof (contributions (A := A) (fun _ => vsize v) speed (vsize v) (fun _ => vdat v) ltac:(lia)) as C. cbv zeta in C.
  fold (cuda_speeds speed (vsize v)) in C. set (xs := map (fun i => speed (vdat v i)) (zrange 0 (vsize v))) in C.
  exists (top xs).
  destruct (top_ge xs 0) as [T1 T2]. fold (top xs) in T1, T2.
  assert (T3 : top xs = 0%R \/ In (top xs) xs) by apply top_in.
  assert (S1 : all_cells (fun c => speed c <= top xs)%R v).
  { intros x y z Hx Hy Hz. apply T2. apply in_map_iff. exists (index (vnx v) (vny v) x y z). split; [reflexivity|].
    apply zrange_In. apply index_range; auto. }
  assert (S2 : top xs = 0%R \/ some_cell (fun c => speed c = top xs) v).
  { destruct T3 as [T3|T3]; [auto|]. right. apply cells_elements; [exact Hs|]. apply in_map_iff in T3.
    destruct T3 as (i & E & Hi). apply zrange_In in Hi. exists i. split; [lia|exact E]. }
  split; [|split; [|auto]].
  - destruct Hs as (H1 & H2 & H3 & H4).
    destruct (for_each_visits (vnx v) (vny v) (vnz v) 0 0 0 0 0 0 H1 H2 H3 H4) as (vis & _ & In1 & Ran & Eq);
      try lia; try (unfold two64; lia).
    unfold cpu_max_speed. rewrite Eq.
    assert (K : forall l w, (forall i, In i l -> 0 <= i < vnx v * vny v * vnz v) ->
      fold_res (fun i w => if (0 <=? i) && (i <? vnx v * vny v * vnz v) then Ok (Rmax w (speed (vdat v i))) else UB) l w =
      Ok (fold_left Rmax (map (fun i => speed (vdat v i)) l) w)).
    { induction l as [|i l IH]; intros w Hl; [reflexivity|]. cbn [fold_res map fold_left].
      pose proof (Hl i (or_introl eq_refl)).
      replace ((0 <=? i) && (i <? vnx v * vny v * vnz v)) with true
        by (symmetry; apply andb_true_intro; split; [apply Z.leb_le|apply Z.ltb_lt]; lia).
      cbn [bind]. apply IH. intros; apply Hl; cbn; auto. }
    rewrite K by exact Ran. f_equal. change (top (map (fun i => speed (vdat v i)) vis) = top xs).
    destruct (top_ge (map (fun i => speed (vdat v i)) vis) 0) as [W1 W2].
    assert (W3 : top (map (fun i => speed (vdat v i)) vis) = 0%R \/ In (top (map (fun i => speed (vdat v i)) vis)) (map (fun i => speed (vdat v i)) vis))
      by apply top_in.
    fold (top (map (fun i => speed (vdat v i)) vis)) in W1, W2.
    assert (M : forall q, In q (map (fun i => speed (vdat v i)) vis) <-> In q xs).
    { intros q. unfold xs. rewrite !in_map_iff. split; intros (i & E & Hi); exists i; (split; [exact E|]).
      - apply Ran in Hi. apply zrange_In. unfold vsize. lia.
      - apply zrange_In in Hi. destruct (index_surj (vnx v) (vny v) (vnz v) i) as (x & y & z & Hx & Hy & Hz & Ei); auto.
        apply In1. exists x, y, z. rewrite Ei. unfold index. repeat split; lia. }
    apply Rle_antisym.
    + destruct W3 as [W3|W3]; [rewrite W3; exact T1|apply T2; apply M; exact W3].
    + destruct T3 as [T3|T3]; [rewrite T3; exact W1|apply W2; apply M; exact T3].
  - intros w'. split.
    + intros (m & ys & O & Hr). apply C in O. injection O as -> ->. apply reduced_top. exact Hr.
    + intros ->. exists (fun _ => vdat v), xs. split; [apply C; reflexivity|]. apply reduced_fold.
Qed.

(** A volume for which all hypotheses hold. *)
Example C72_nonvacuous : cuda_obeys (fe_euler (fofZ 2)) (c50_vol (fofZ 2)) true /\
  ~ cuda_obeys (fe_euler (fofZ 2)) (c50_vol (fofZ 2)) false.
Proof.
  assert (Hs : sized (c50_vol (fofZ 2))) by (unfold sized, c50_vol, two64; cbn; lia).
  destruct (C72_check_some (fe_euler (fofZ 2)) _ Hs) as (_ & b & U & Q).
  assert (b = true) as ->.
  { apply Q. exists 0, 0, 0. cbn [vnx vny vnz c50_vol]. repeat split; try lia; vm_compute; reflexivity. }
  split; [apply U; reflexivity|]. intros H. apply U in H. discriminate.
Qed.
Example C72_all_bad : forall b, cuda_obeys (fe_euler (fofZ 2)) (mkvol 1 1 1 (fun _ => [fzero; fzero; fzero])) b -> b = false.
Proof.
  intros b H. assert (Hs : sized (mkvol 1 1 1 (fun _ : Z => [fzero; fzero; fzero]))) by (unfold sized, two64; cbn; lia).
  destruct (C72_check_some (fe_euler (fofZ 2)) _ Hs) as (_ & b0 & U & Q). apply U in H. subst. destruct b0; [|reflexivity].
  destruct (proj1 Q eq_refl) as (x & y & z & _ & _ & _ & E). vm_compute in E. discriminate.
Qed.

Print Assumptions C72_check_some.
Print Assumptions C72_check_partial.
Print Assumptions C72_check_scalar_partial.
Print Assumptions C72_step_not_refused.
Print Assumptions C72_bad_cells_accepted.
Print Assumptions C72_check_refuted.
Print Assumptions C72_scalar_refuted.
Print Assumptions C72_max_speed.
