(** Lemmas about kernels over all elements. *)
From Coq Require Import ZArith Reals List Bool Lia Permutation.
From Verif Require Import M_Base L_Base M_Sim M_Memory M_Flux M_Omp L_Omp L_OmpFlux M_Cuda L_Cuda M_CudaCell.
Import ListNotations.
Open Scope Z_scope.

Section Linear.
Context {A X : Type}.
Variable size : Z -> Z.
Notation prog := (prog A X).
Notation shared := (shared A).

Lemma run_linear total (body : Z -> prog) m : 0 <= total ->
  run_loop size (linear total body) m = fold_res (acc size body) (zrange 0 total) (m, []).
Proof.
  intros Ht. unfold linear. rewrite run_loop_map.
  pose proof (threads_ge 1024 total ltac:(lia) Ht) as G.
  rewrite (zrange_app 0 total) by lia. rewrite fold_res_app.
  set (h := fun i => if total <=? i then Ret [] else body i).
  assert (fold_res (acc size h) (zrange 0 total) (m, []) = fold_res (acc size body) (zrange 0 total) (m, [])) as ->.
  { apply fold_res_ext. intros i s Hi. apply zrange_In in Hi. unfold acc, h.
    rewrite (proj2 (Z.leb_gt total i)) by lia. reflexivity. }
  destruct (fold_res (acc size body) (zrange 0 total) (m, [])) as [s| |]; cbn [bind]; auto.
  assert (Hi : forall i, In i (zrange total (threads 1024 total)) -> total <= i) by (intros i Hi; apply zrange_In in Hi; lia).
  revert s Hi. generalize (zrange total (threads 1024 total)) as l. induction l as [|i l IH]; intros s Hi; [reflexivity|].
  cbn [fold_res]. unfold acc at 1, h at 1. rewrite (proj2 (Z.leb_le total i)) by (apply Hi; cbn; auto).
  cbn [run bind fst snd]. rewrite app_nil_r. destruct s. apply IH. intros; apply Hi; cbn; auto.
Qed.

Lemma linear_independent total (body : Z -> prog) :
  (forall i j, 0 <= i < total -> 0 <= j < total -> i <> j -> apart (body i) (body j)) ->
  independent (linear total body).
Proof.
  intros H. unfold linear. apply map_independent; [apply zrange_NoDup|].
  intros i j Hi Hj Hne. apply zrange_In in Hi. apply zrange_In in Hj.
  destruct (Z.leb_spec total i); [intros w w' a q Ha; inversion Ha|].
  destruct (Z.leb_spec total j); [intros w w' a q _ Ha; inversion Ha|]. apply H; lia.
Qed.

(** Threads that read their own element and contribute a value. *)
Lemma contributions (f : A -> X) n (m : shared) : 0 <= n <= size 0 ->
  let ps := [linear n (fun i => Fetch 0 i (fun c => Ret [f c]))] in
  forall r, outcomes size ps m r <-> r = Ok (m, map (fun i => f (m 0 i)) (zrange 0 n)).
Proof.
  intros Hn ps.
  assert (Forall independent ps) as Hi.
  { constructor; [|constructor]. apply linear_independent. intros i j _ _ Hne w w' a q H1 H2.
    inversion H1; subst; inversion H2; subst; try congruence;
      repeat match goal with H : accs (Ret _) _ _ _ |- _ => inversion H end. }
  assert (run_loops size ps m = Ok (m, map (fun i => f (m 0 i)) (zrange 0 n))) as Hr.
  { unfold ps. rewrite run_loops_cons, run_linear by lia.
    assert (forall l ys, (forall i, In i l -> 0 <= i < size 0) ->
      fold_res (acc size (fun i => Fetch 0 i (fun c => Ret [f c]))) l (m, ys) = Ok (m, ys ++ map (fun i => f (m 0 i)) l)) as K.
    { induction l as [|i l IH]; intros ys Hl; cbn [fold_res map]; [rewrite app_nil_r; reflexivity|].
      unfold acc at 1. cbn [run fst snd]. unfold inside. destruct (Hl i (or_introl eq_refl)) as [L1 L2].
      rewrite (proj2 (Z.leb_le 0 i)), (proj2 (Z.ltb_lt i (size 0))) by lia. cbn [andb bind fst snd].
      rewrite IH by (intros; apply Hl; cbn; auto). rewrite <- app_assoc. reflexivity. }
    rewrite K; [|intros i Hi'; apply zrange_In in Hi'; lia]. cbn. rewrite app_nil_r. reflexivity. }
  destruct (outcomes_unique size _ _ _ Hi Hr) as [O U]. intros r. split; [apply U|intros ->; exact O].
Qed.
End Linear.

Lemma reduced_zmax l x : reduced Z.max l x -> In x l /\ forall y, In y l -> y <= x.
Proof.
  induction 1 as [x|l1 l2 l x y Hp H1 IH1 H2 IH2].
  - split; [cbn; auto|]. intros y [<-|[]]; lia.
  - destruct IH1 as [I1 M1]. destruct IH2 as [I2 M2]. split.
    + eapply Permutation_in; [apply Permutation_sym; exact Hp|]. apply in_app_iff.
      destruct (Z.max_spec x y) as [[_ ->]|[_ ->]]; auto.
    + intros q Hq. apply (Permutation_in _ Hp) in Hq. apply in_app_iff in Hq.
      destruct Hq as [Hq|Hq]; [specialize (M1 _ Hq)|specialize (M2 _ Hq)]; lia.
Qed.
Lemma reduced_exists {X} (op : X -> X -> X) xs : forall x, exists r, reduced op (x :: xs) r.
Proof.
  induction xs as [|y xs IH] using rev_ind; intros x; [exists x; constructor|].
  destruct (IH x) as (r & Hr). exists (op r y).
  apply (reduced_two op (x :: xs) [y]); [apply Permutation_refl|exact Hr|constructor].
Qed.

Lemma reduced_plus l w : reduced Rplus l w -> w = fold_right Rplus 0%R l.
Proof.
  induction 1 as [x|l1 l2 l x y Hp H1 IH1 H2 IH2]; [cbn; ring|]. subst.
  assert (P : forall a b : list R, Permutation a b -> fold_right Rplus 0%R a = fold_right Rplus 0%R b).
  { induction 1; cbn; try congruence. ring. }
  rewrite (P _ _ Hp), fold_right_app. clear. induction l1 as [|a l1 IH]; cbn; [ring|]. rewrite <- IH. ring.
Qed.

(** A kernel whose threads only read and contribute. *)
Section Readers.
Context {A X : Type}.
Variable size : Z -> Z.
Notation prog := (prog A X).
Notation shared := (shared A).
Definition box_of (n lo : ivec) : list cell := box (lo 2) (lo 2 + n 2) (lo 1) (lo 1 + n 1) (lo 0) (lo 0 + n 0).
Lemma kernel_readers block n lo (body : Z -> Z -> Z -> prog) (g : cell -> X) (m : shared) : 0 < block -> good n ->
  (forall x y z w a i, accs (body x y z) w a i -> w = false) ->
  (forall x y z, In (x, y, z) (box_of n lo) -> run size (body x y z) m = Ok (m, [g (x, y, z)])) ->
  forall r, outcomes size [kernel block n lo body] m r <-> r = Ok (m, map g (box_of n lo)).
Proof.
  intros Hb Hn Hw Hrun.
  assert (Forall independent [kernel block n lo body]) as Hi.
  { constructor; [|constructor]. apply kernel_independent; [exact Hn|]. intros. intros w w' a i A1 A2.
    split; [exact (Hw _ _ _ _ _ _ A1)|exact (Hw _ _ _ _ _ _ A2)]. }
  assert (run_loops size [kernel block n lo body] m = Ok (m, map g (box_of n lo))) as Hr.
  { rewrite run_loops_cons, run_kernel, for3_box by assumption. fold (box_of n lo).
    assert (forall l ys, (forall c, In c l -> In c (box_of n lo)) ->
      fold_res (fun c => let '(x, y, z) := c in acc3 size body x y z) l (m, ys) = Ok (m, ys ++ map g l)) as K.
    { induction l as [|[[x y] z] l IH]; intros ys Hl; cbn [fold_res map]; [rewrite app_nil_r; reflexivity|].
      unfold acc3 at 1. cbn [fst snd]. rewrite Hrun by (apply Hl; cbn; auto). cbn [bind fst snd].
      rewrite IH by (intros; apply Hl; cbn; auto). rewrite <- app_assoc. reflexivity. }
    rewrite K by auto. cbn. rewrite app_nil_r. reflexivity. }
  destruct (outcomes_unique size _ _ _ Hi Hr) as [O U]. intros r. split; [apply U|intros ->; exact O].
Qed.
End Readers.
