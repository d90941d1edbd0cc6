(** The Tecno flux under an exchange of axes and under a reflection. *)
From Coq Require Import ZArith Reals List Bool Lia Lra String.
From Verif Require Import M_Base M_Vec M_Flux M_Combined M_Euler M_Recon M_Config S_Symmetry S_EulerSym L_Euler L_SymScheme L_EulerSym.
Import ListNotations.
Open Scope R_scope.

(** The formulas with the parameter vectors as arguments. *)
Ltac zset g l r T :=
  let A := fresh in let B := fresh in let C := fresh in let A' := fresh in let B' := fresh in let C' := fresh in
  destruct (zv_tau _ g _ _ _ _ T l) as (A & B & C); destruct (zv_tau _ g _ _ _ _ T r) as (A' & B' & C');
  unfold tecno_form1, tecno_form2, tecno_form3; rewrite ?A, ?B, ?C, ?A', ?B', ?C'; clear A B C A' B' C';
  repeat match goal with |- context [z_vel ?n ?g ?u] => generalize (z_vel n g u); intro end;
  repeat match goal with |- context [z_first ?n ?g ?u] => generalize (z_first n g u); intro end;
  repeat match goal with |- context [z_last ?n ?g ?u] => generalize (z_last n g u); intro end.
Ltac vecs := repeat match goal with v : rvec _ |- _ => unfold rvec in v; cbn in v end;
  repeat match goal with v : (_ * _)%type |- _ => destruct v | v : unit |- _ => destruct v end.
Ltac means := repeat match goal with |- context [logmean ?a ?b] => generalize (logmean a b); intro end;
  repeat match goal with |- context [bar ?a ?b] => generalize (bar a b); intro end.
Ltac energy := match goal with
  | |- tecno_energy ?g ?a ?b ?F ?s = tecno_energy ?g ?a ?b ?F' ?s' =>
      replace F' with F by ring; replace s' with s by (unfold Rdiv; ring); reflexivity
  end.
Ltac rring := match goal with |- @eq _ ?x ?y => change (@eq R x y); ring end.
Ltac finish := apply cons_ext; cbn [rho_ mom en mkcons fst snd on_momentum vset];
  [unfold Rdiv; ring | unfold Rdiv; repeat (apply (f_equal2 pair); [rring|]); try exact (eq_refl tt) | try energy; try ring].

Lemma tecno_swap gamma n a e d : (1 <= n <= 3)%nat -> (0 <= a < Z.of_nat n)%Z -> (0 <= e < Z.of_nat n)%Z -> (0 <= d < Z.of_nat n)%Z ->
  tecno_axes n a e -> forall l r : cons n,
  tecno_form gamma n (Z.to_nat (swap_axis a e d)) (on_momentum (vswap n a e) l) (on_momentum (vswap n a e) r)
  = on_momentum (vswap n a e) (tecno_form gamma n (Z.to_nat d) l r).
Proof.
  intros Hn Ha He Hd Ht l r. pose proof (swap_turn n a e d Hn Ha He Hd) as T. revert l r T.
  small n Hn; cbn [tecno_form]; intros l r T; try (exfalso; destruct (Ht eq_refl); lia).
  all: zset gamma l r T; vecs; cbn [vset vnth fst snd]; means; finish.
Qed.

Lemma tecno_flip_plus gamma n k d : (1 <= n <= 3)%nat -> (0 <= k < Z.of_nat n)%Z -> (0 <= d < Z.of_nat n)%Z -> d <> k ->
  forall l r : cons n,
  tecno_form gamma n (Z.to_nat d) (on_momentum (vflip n k) l) (on_momentum (vflip n k) r)
  = on_momentum (vflip n k) (tecno_form gamma n (Z.to_nat d) l r).
Proof.
  intros Hn Ha Hd Hne l r. pose proof (flip_turn n k d Hn Ha Hd) as T. revert l r T.
  small n Hn; cbn [tecno_form]; intros l r T; try congruence.
  all: zset gamma l r T; vecs; cbn [vset vnth fst snd]; rewrite ?bar_opp; means; finish.
Qed.
Ltac turned :=
  repeat match goal with |- context [logmean ?a ?b] => match goal with |- context [logmean b a] => rewrite (logmean_sym a b) end end;
  repeat match goal with |- context [bar ?a ?b] => match goal with |- context [bar b a] => rewrite (bar_sym a b) end end.
Ltac energy_ := match goal with
  | |- tecno_energy ?g ?a ?b ?F ?s = -1 * tecno_energy ?g ?b ?a ?F' ?s' =>
      transitivity (tecno_energy g a b (- F') (- s')); [f_equal; unfold Rdiv; ring | rewrite energy_turn; ring]
  end.
Lemma tecno_flip_minus gamma n k : (1 <= n <= 3)%nat -> (0 <= k < Z.of_nat n)%Z ->
  forall l r : cons n,
  tecno_form gamma n (Z.to_nat k) (on_momentum (vflip n k) r) (on_momentum (vflip n k) l)
  = vscal (-1) (on_momentum (vflip n k) (tecno_form gamma n (Z.to_nat k) l r)).
Proof.
  intros Hn Ha l r. pose proof (flip_turn n k k Hn Ha Ha) as T. revert l r T.
  small n Hn; cbn [tecno_form]; intros l r T.
  all: zset gamma l r T; vecs; cbn [vset vnth fst snd]; rewrite ?bar_opp; turned; means;
    apply cons_ext; cbn [rho_ mom en mkcons fst snd on_momentum vset vscal pair_cvars scalar_cvars vec_cvars euler_cvars];
    [unfold Rdiv; ring | unfold Rdiv; repeat (apply (f_equal2 pair); [rring|]); try exact (eq_refl tt) | try energy_; try ring].
Qed.

(** ** All fluxes *)
Lemma euler_swap_flux gamma n a e d k : (1 <= n <= 3)%nat -> (0 <= a < Z.of_nat n)%Z -> (0 <= e < Z.of_nat n)%Z -> (0 <= d < Z.of_nat n)%Z ->
  match k with Tecno1 | Tecno4 | Tecno6 => tecno_axes n a e | _ => True end ->
  carries (swap_momentum n a e) (euler_numflux n gamma k) d (euler_numflux n gamma k) (swap_axis a e d).
Proof.
  intros Hn Ha He Hd Ht. pose proof (swap_turn n a e d Hn Ha He Hd) as T.
  assert (Tc : match k with Tecno1 | Tecno4 | Tecno6 => True | _ => False end ->
    carries (swap_momentum n a e) (Flux2 (tecno1 gamma n)) d (Flux2 (tecno1 gamma n)) (swap_axis a e d)).
  { intros Hk. apply carries_tecno; [intros v; now apply swap_inv|exact T|]. apply tecno_swap; auto. destruct k; auto; destruct Hk. }
  pose proof (tau_add n _ _ _ _ T) as TA. pose proof (tau_scal n _ _ _ _ T) as TS.
  destruct k.
  - now apply carries_hll.
  - now apply carries_hll3.
  - now apply carries_central.
  - now apply Tc.
  - apply (carries4 _ TA TS). now apply Tc.
  - apply (carries6 _ TA TS). now apply Tc.
Qed.
Lemma euler_flip_flux gamma n k d f : (1 <= n <= 3)%nat -> (0 <= k < Z.of_nat n)%Z -> (0 <= d < Z.of_nat n)%Z ->
  match f with HLL | HLL3 => False | _ => True end ->
  if (d =? k)%Z then mirrors (flip_momentum n k) (euler_numflux n gamma f) d
  else carries (flip_momentum n k) (euler_numflux n gamma f) d (euler_numflux n gamma f) d.
Proof.
  intros Hn Hk Hd Hf. pose proof (flip_turn n k d Hn Hk Hd) as T.
  destruct (d =? k)%Z eqn:E; [apply Z.eqb_eq in E; subst k|apply Z.eqb_neq in E].
  - assert (Tc : mirrors (flip_momentum n d) (Flux2 (tecno1 gamma n)) d).
    { apply mirrors_tecno; [intros v; now apply flip_inv|exact T|]. now apply tecno_flip_minus. }
    pose proof (tau_add n _ _ _ _ T) as TA. pose proof (tau_scal n _ _ _ _ T) as TS.
    destruct f; try destruct Hf.
    + now apply mirrors_central.
    + exact Tc.
    + now apply (mirrors4 _ TA TS).
    + now apply (mirrors6 _ TA TS).
  - assert (Tc : carries (flip_momentum n k) (Flux2 (tecno1 gamma n)) d (Flux2 (tecno1 gamma n)) d).
    { apply carries_tecno; [intros v; now apply flip_inv|exact T|]. now apply tecno_flip_plus. }
    pose proof (tau_add n _ _ _ _ T) as TA. pose proof (tau_scal n _ _ _ _ T) as TS.
    destruct f; try destruct Hf.
    + now apply carries_central.
    + exact Tc.
    + now apply (carries4 _ TA TS).
    + now apply (carries6 _ TA TS).
Qed.

(** ** All reconstructions *)
Section Recon.
Variables (n : nat) (gamma : R) (M : rvec n -> rvec n) (d d' : nat) (s : R).
Hypothesis T : turn n M d d' s.
Notation tau := (on_momentum M).
Hypothesis Hlift : forall f, odd3 f -> forall a b c, lift3 (euler_lifting n) f (tau a) (tau b) (tau c) = tau (lift3 (euler_lifting n) f a b c).
Let TA := tau_add n _ _ _ _ T.
Let TS := tau_scal n _ _ _ _ T.
Let Ms := M_scal _ _ _ _ _ T.
Let Ma := M_add _ _ _ _ _ T.
Let Md := M_dot _ _ _ _ _ T.

Definition pM (w : prim n) : prim n := mkprim (p_rho w) (M (p_u w)) (p_p w).
Lemma to_prim_M u : to_prim n gamma (tau u) = pM (to_prim n gamma u).
Proof. unfold to_prim, pM. cbn [p_rho p_u p_p on_momentum rho_ mom en mkcons fst snd]. now rewrite Ms, Md. Qed.
Lemma to_cons_M w : to_cons n gamma (pM w) = tau (to_cons n gamma w).
Proof. unfold to_cons, pM, on_momentum. cbn [p_rho p_u p_p rho_ mom en mkcons fst snd]. now rewrite Ms, Md. Qed.
Lemma padd_M a b : padd n (pM a) (pM b) = pM (padd n a b).
Proof. unfold padd, pM. cbn [p_rho p_u p_p]. now rewrite Ma. Qed.
Lemma psub_M a b : psub n (pM a) (pM b) = pM (psub n a b).
Proof. unfold psub, pM. cbn [p_rho p_u p_p]. now rewrite Ma, Ms. Qed.
Lemma pscal_M k a : pscal n k (pM a) = pM (pscal n k a).
Proof. unfold pscal, pM. cbn [p_rho p_u p_p]. now rewrite Ms. Qed.
Lemma pclamp_M a b : pclamp n (pM a) (pM b) = pM (pclamp n a b).
Proof. reflexivity. Qed.
Lemma damp_M a b : wenof2_damp n gamma (pM a) (pM b) = wenof2_damp n gamma a b.
Proof. unfold wenof2_damp, wenof2_ll, pM. cbn [p_rho p_u p_p]. now rewrite !Md. Qed.
Lemma carries_wenof2 : carries_recon tau (wenof2_recon n gamma) (wenof2_recon n gamma).
Proof.
  split; [reflexivity|]. intros [|l [|m [|r [|]]]] Hl; try (exfalso; cbn [List.length rec_ghosts wenof2_recon] in Hl; lia).
  cbn [wenof2_recon rec_fun map]. unfold wenof2. rewrite !to_prim_M.
  change (rho_ (tau l)) with (rho_ l). change (rho_ (tau m)) with (rho_ m). change (rho_ (tau r)) with (rho_ r).
  cbn [fst snd]. repeat rewrite ?psub_M, ?pscal_M, ?padd_M, ?pclamp_M, ?damp_M. now rewrite !to_cons_M.
Qed.
Lemma ind_M a : comp 0 (tau a) = 1 * comp 0 a.
Proof. rewrite Rmult_1_l. reflexivity. Qed.
Lemma euler_recon_carries name rc : find_recon (Euler n) gamma name = Some rc -> carries_recon tau rc rc.
Proof.
  unfold find_recon. pose proof (or_introl (B := 1 = -1) (eq_refl 1)) as S1.
  repeat (match goal with |- (if ?b then _ else _) = _ -> _ => destruct b end; [intros [= <-]|]); try discriminate.
  - apply carries_none.
  - now apply carries_eno with (s := 1); [..|intros a; apply ind_M].
  - now apply carries_eno with (s := 1); [..|intros a; apply ind_M].
  - now apply carries_eno with (s := 1); [..|intros a; apply ind_M].
  - now apply carries_weno2 with (s := 1); [..|intros a; apply ind_M].
  - now apply carries_weno with (s := 1); [..|intros a; apply ind_M].
  - apply carries_wenof2.
  - apply carries_limiter; [exact Hlift|exact mc_odd].
  - apply carries_limiter; [exact Hlift|exact mm_odd].
Qed.
End Recon.
Lemma euler_recon_mirrors n gamma M d s name rc : turn n M d d s ->
  (forall f, odd3 f -> forall a b c, lift3 (euler_lifting n) f (on_momentum M a) (on_momentum M b) (on_momentum M c) = on_momentum M (lift3 (euler_lifting n) f a b c)) ->
  In name ["none"; "weno2"; "weno3"; "mc"; "mm"]%string ->
  find_recon (Euler n) gamma name = Some rc -> mirrors_recon (on_momentum M) rc.
Proof.
  intros T Hlift Hin. pose proof (or_introl (B := 1 = -1) (eq_refl 1)) as S1.
  pose proof (tau_add n _ _ _ _ T) as TA. pose proof (tau_scal n _ _ _ _ T) as TS.
  cbn [In] in Hin; repeat (destruct Hin as [<-|Hin]); try destruct Hin; intros [= <-].
  - apply mirrors_none.
  - now apply mirrors_weno2 with (s := 1); [..|intros a; exact (ind_M n M a)].
  - now apply mirrors_weno3 with (s := 1); [..|intros a; exact (ind_M n M a)].
  - apply mirrors_limiter; [exact Hlift|exact mc_odd|exact mc_turns].
  - apply mirrors_limiter; [exact Hlift|exact mm_odd|exact mm_turns].
Qed.
Lemma lift_swap n a e : (1 <= n <= 3)%nat -> (0 <= a < Z.of_nat n)%Z -> (0 <= e < Z.of_nat n)%Z ->
  forall f, odd3 f -> forall x y z, lift3 (euler_lifting n) f (swap_momentum n a e x) (swap_momentum n a e y) (swap_momentum n a e z)
    = swap_momentum n a e (lift3 (euler_lifting n) f x y z).
Proof. intros Hn Ha He f Hf. unfold swap_momentum. small n Hn; intros x y z; reflexivity. Qed.
Lemma lift_flip n k : (1 <= n <= 3)%nat -> (0 <= k < Z.of_nat n)%Z ->
  forall f, odd3 f -> forall x y z, lift3 (euler_lifting n) f (flip_momentum n k x) (flip_momentum n k y) (flip_momentum n k z)
    = flip_momentum n k (lift3 (euler_lifting n) f x y z).
Proof.
  intros Hn Hk f Hf. unfold flip_momentum. small n Hn; intros x y z; apply cons_ext; try reflexivity;
    cbn; repeat (apply (f_equal2 pair); [try reflexivity; try apply Hf|]); reflexivity.
Qed.
