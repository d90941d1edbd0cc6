(** Conservation, uniform states, order and timestep. *)
From Coq Require Import ZArith Reals List Bool Lia Lra.
From Verif Require Import M_Base M_Vec M_Boundary M_Flux M_Sim S_Boundary S_Flux S_Sum S_Sim L_Base L_Loops
  L_Boundary L_Flux L_System L_Sum L_Conserve L_FluxTop L_Sim L_SimTop.
Import ListNotations.
Open Scope Z_scope.

Lemma isum_plus dims g n f h : isum dims g n (fun c => f c + h c)%R = (isum dims g n f + isum dims g n h)%R.
Proof. apply sum3_plus. Qed.
Lemma isum_scal dims g n k f : isum dims g n (fun c => k * f c)%R = (k * isum dims g n f)%R.
Proof. apply sum3_scal. Qed.

Section T.
Context {V : cvars}.
Variables (it : integrator) (b : bckind) (dims g : Z) (fx : numflux V) (rc : recon V) (nx ny nz : Z).
Hypothesis Hdims : 1 <= dims <= 3.
Hypothesis Hcomp : compatible fx rc g.
Hypothesis (Hx : 0 < nx) (Hy : 0 < ny) (Hz : 0 < nz).
Hypothesis (Gx : g <= nx) (Gy : 1 < dims -> g <= ny) (Gz : 2 < dims -> g <= nz).
Hypothesis Hcells : total_cells dims g nx ny nz < 2 ^ 31.
Notation interior := (interior dims g nx ny nz).
Notation in_volume := (in_volume dims g nx ny nz).
Notation im := (image (bc_image b) dims g nx ny nz).
Notation L := (semidiscrete (V := V) b dims g nx ny nz fx rc).
Notation tot i u := (isum dims g (nvec nx ny nz) (fun c => comp i (u c))).

Lemma tot_fplus i (a c : field V) : tot i (fplus a c) = (tot i a + tot i c)%R.
Proof.
  rewrite <- isum_plus. apply isum_ext. intros. unfold fplus. apply comp_add.
Qed.
Lemma tot_fmul i k (a : field V) : tot i (fmul k a) = (k * tot i a)%R.
Proof.
  rewrite <- isum_scal. apply isum_ext. intros. unfold fmul. apply comp_scal.
Qed.

Lemma L_sum i w : b = Periodic -> tot i (L w) = 0%R.
Proof.
  intros Hb. unfold semidiscrete.
  apply (rhs_periodic_sum dims g fx rc Hdims Hcomp i (filled b dims g nx ny nz w) nx ny nz); auto.
  intros c Hc. unfold filled. rewrite Hb. simpl bc_image. f_equal.
  pose proof (im_id b dims g nx ny nz) as Id. rewrite Hb in Id. simpl bc_image in Id.
  symmetry. apply Id.
  pose proof (im_interior b dims g fx rc nx ny nz Hcomp Hx Hy Hz Gx Gy Gz c Hc) as H.
  rewrite Hb in H. exact H.
Qed.

Lemma textbook_sum i h u : b = Periodic -> tot i (textbook L it h u) = tot i u.
Proof.
  intros Hb. pose proof (fun w => L_sum i w Hb) as Z0.
  destruct it; unfold textbook, euler, heun, ssprk3, classic_rk4, euler;
    repeat rewrite ?tot_fplus, ?tot_fmul, ?Z0; field.
Qed.

Theorem run_conserves p obeys vols sc adjs :
  b = Periodic ->
  Forall (ext dims g nx ny nz) vols -> length vols = S (substeps it) -> scratch_ext dims g nx ny nz sc ->
  (exists st, serial_run it b dims g fx rc p obeys vols sc adjs = Ok st /\
     (forall i, tot i (solution st) = tot i (vget (hd (ref dims g nx ny nz) vols))) /\
     s_steps st = length adjs) \/
  (serial_run it b dims g fx rc p obeys vols sc adjs = Throw /\ exists u, obeys u = false).
Proof.
  intros Hb Hv Hl Hs.
  destruct (run_preserves it b dims g fx rc nx ny nz Hdims Hcomp Hx Hy Hz Gx Gy Gz Hcells
    (fun u => forall i, tot i u = tot i (vget (hd (ref dims g nx ny nz) vols))) p obeys vols sc adjs)
    as [H|H]; auto.
  - intros h u u' Hu Hu' i. rewrite <- Hu, <- (textbook_sum i h u Hb). apply isum_ext.
    intros c Hc. rewrite Hu'; [reflexivity|]. apply interior_iff; [lia|exact Hc].
  - intros u u' Hu Hu' i. rewrite <- Hu. apply isum_ext.
    intros c Hc. rewrite Hu'; [reflexivity|]. apply interior_iff; [lia|exact Hc].
Qed.

(** ** Uniform states *)
Definition uniform (a : V) (u : field V) : Prop := forall c, interior c -> u c = a.

Lemma L_uniform a u c : uniform a u -> interior c -> L u c = vzero.
Proof.
  intros Hu Hc.
  rewrite (L_ext b dims g fx rc nx ny nz Hdims Hcomp Hx Hy Hz Gx Gy Gz u (fun _ => a)) by assumption.
  unfold semidiscrete, filled. apply comp_ext. intros i. rewrite comp_zero.
  rewrite (comp_rhs dims fx rc).
  induction (zrange 0 dims) as [|d l IH]; cbn [map fold_right]; [reflexivity|].
  rewrite IH. rewrite (iface_ext g fx rc Hcomp d _ (fun _ => a) (move d (-1) c) c) by reflexivity. ring.
Qed.

Lemma uniform_textbook a h u : uniform a u -> uniform a (textbook L it h u).
Proof.
  intros Hu.
  assert (P : forall k w w', uniform a w -> uniform a w' -> uniform a (fplus w (fmul k (L w')))).
  { intros k w w' Hw Hw' c Hc. unfold fplus, fmul. rewrite (L_uniform a w') by assumption.
    rewrite Hw by exact Hc. apply comp_ext. intros i. rewrite comp_add, comp_scal, comp_zero. ring. }
  destruct it; unfold textbook.
  - now apply P.
  - intros c Hc. unfold heun, fplus, fmul. rewrite (L_uniform a u) by assumption.
    fold (fmul h (L u)). change (fun c0 => vadd (u c0) (vscal h (L u c0))) with (fplus u (fmul h (L u))).
    rewrite (L_uniform a (fplus u (fmul h (L u)))) by auto. rewrite Hu by exact Hc.
    apply comp_ext. intros i. rewrite !comp_add, comp_scal, !comp_add, comp_zero. ring.
  - unfold ssprk3. set (u1 := euler L h u). assert (U1 : uniform a u1) by now apply P.
    set (u2 := fplus (fmul (3 / 4) u) (fmul (1 / 4) (euler L h u1))).
    assert (U2 : uniform a u2).
    { intros c Hc. unfold u2, fplus, fmul. rewrite Hu by exact Hc.
      rewrite (P h u1 u1 U1 U1 c Hc : euler L h u1 c = a).
      apply comp_ext. intros i. rewrite !comp_add, !comp_scal. field. }
    intros c Hc. unfold fplus, fmul. rewrite Hu by exact Hc.
    rewrite (P h u2 u2 U2 U2 c Hc : euler L h u2 c = a).
    apply comp_ext. intros i. rewrite !comp_add, !comp_scal. field.
  - unfold classic_rk4.
    set (k2 := L (fplus u (fmul (h / 2) (L u)))).
    set (k3 := L (fplus u (fmul (h / 2) k2))).
    set (k4 := L (fplus u (fmul h k3))).
    assert (U1 : uniform a (fplus u (fmul (h / 2) (L u)))) by auto.
    assert (U2 : uniform a (fplus u (fmul (h / 2) k2))) by (apply P; auto).
    assert (U3 : uniform a (fplus u (fmul h k3))) by (apply P; auto).
    intros c Hc. unfold fplus at 1, fmul at 1. unfold fplus, fmul. fold (fmul (h / 2) (L u)).
    rewrite (L_uniform a u Hc) || rewrite (L_uniform a u c Hu Hc).
    rewrite (L_uniform a _ c U1 Hc : k2 c = vzero).
    rewrite (L_uniform a _ c U2 Hc : k3 c = vzero).
    rewrite (L_uniform a _ c U3 Hc : k4 c = vzero).
    rewrite Hu by exact Hc.
    apply comp_ext. intros i. repeat rewrite ?comp_add, ?comp_scal, ?comp_zero. ring.
Qed.

Theorem run_uniform p obeys vols sc adjs a :
  Forall (ext dims g nx ny nz) vols -> length vols = S (substeps it) -> scratch_ext dims g nx ny nz sc ->
  uniform a (vget (hd (ref dims g nx ny nz) vols)) ->
  (exists st, serial_run it b dims g fx rc p obeys vols sc adjs = Ok st /\
     uniform a (solution st) /\ s_steps st = length adjs) \/
  (serial_run it b dims g fx rc p obeys vols sc adjs = Throw /\ exists u, obeys u = false).
Proof.
  intros Hv Hl Hs Hu.
  apply (run_preserves it b dims g fx rc nx ny nz Hdims Hcomp Hx Hy Hz Gx Gy Gz Hcells
    (uniform a)); auto.
  - intros h u u' H1 H2 c Hc. rewrite H2 by exact Hc. now apply uniform_textbook.
  - intros u u' H1 H2 c Hc. rewrite H2 by exact Hc. auto.
Qed.
End T.

(** ** Orders on linear problems *)
Section Lin.
Context {V : cvars}.
Variable L : field V -> field V.
Hypothesis HL : linear L.

Theorem textbook_taylor it h u c : textbook L it h u c = taylor L (order it) h u c.
Proof.
  destruct HL as (Hp & Hm & He).
  assert (Hp' : forall a b c, L (fplus a b) c = fplus (L a) (L b) c) by (intros; apply Hp).
  assert (Hm' : forall k a c, L (fmul k a) c = fmul k (L a) c) by (intros; apply Hm).
  apply comp_ext. intros i. destruct it; cbn [textbook order taylor Lpow].
  - unfold euler. unfold fplus, fmul. rewrite !comp_add, !comp_scal. simpl. field.
  - unfold heun. unfold fplus at 1 2, fmul at 1. rewrite !comp_add, !comp_scal, !comp_add.
    rewrite Hp, comp_add, Hm, comp_scal.
    unfold fplus, fmul. rewrite !comp_add, !comp_scal. simpl. field.
  - unfold ssprk3.
    set (u1 := euler L h u). set (u2 := fplus (fmul (3 / 4) u) (fmul (1 / 4) (euler L h u1))).
    assert (L1 : forall c, L u1 c = vadd (L u c) (vscal h (L (L u) c))).
    { intros c'. unfold u1, euler. now rewrite Hp, Hm. }
    assert (L2 : forall c, L (L u1) c = vadd (L (L u) c) (vscal h (L (L (L u)) c))).
    { intros c'. rewrite (He (L u1) (fplus (L u) (fmul h (L (L u))))) by exact L1. now rewrite Hp, Hm. }
    assert (L3 : forall c, L u2 c = vadd (vscal (3 / 4) (L u c)) (vscal (1 / 4) (vadd (L u1 c) (vscal h (L (L u1) c))))).
    { intros c'. unfold u2. rewrite Hp, Hm, Hm. unfold euler at 1. now rewrite Hp, Hm. }
    unfold fplus at 1, fmul at 1 2. unfold euler at 1. unfold fplus at 1, fmul at 1.
    rewrite L3, L2, L1. unfold u2 at 1. unfold euler at 1. unfold fplus, fmul.
    unfold u1 at 1. rewrite L1. unfold euler, fplus, fmul.
    repeat rewrite ?comp_add, ?comp_scal. simpl. field.
  - unfold classic_rk4.
    set (k1 := L u). set (k2 := L (fplus u (fmul (h / 2) k1))).
    set (k3 := L (fplus u (fmul (h / 2) k2))). set (k4 := L (fplus u (fmul h k3))).
    assert (K2 : forall c, k2 c = vadd (k1 c) (vscal (h / 2) (L k1 c))).
    { intros c'. unfold k2. now rewrite Hp, Hm. }
    assert (LK2 : forall c, L k2 c = vadd (L k1 c) (vscal (h / 2) (L (L k1) c))).
    { intros c'. rewrite (He k2 (fplus k1 (fmul (h / 2) (L k1)))) by exact K2. now rewrite Hp, Hm. }
    assert (LLK2 : forall c, L (L k2) c = vadd (L (L k1) c) (vscal (h / 2) (L (L (L k1)) c))).
    { intros c'. rewrite (He (L k2) (fplus (L k1) (fmul (h / 2) (L (L k1))))) by exact LK2. now rewrite Hp, Hm. }
    assert (K3 : forall c, k3 c = vadd (k1 c) (vscal (h / 2) (L k2 c))).
    { intros c'. unfold k3. now rewrite Hp, Hm. }
    assert (LK3 : forall c, L k3 c = vadd (L k1 c) (vscal (h / 2) (L (L k2) c))).
    { intros c'. rewrite (He k3 (fplus k1 (fmul (h / 2) (L k2)))) by exact K3. now rewrite Hp, Hm. }
    assert (K4 : forall c, k4 c = vadd (k1 c) (vscal h (L k3 c))).
    { intros c'. unfold k4. now rewrite Hp, Hm. }
    unfold fplus, fmul. rewrite K4, LK3, LLK2, K3, LK2, K2. unfold k1.
    repeat rewrite ?comp_add, ?comp_scal. simpl. field.
Qed.
End Lin.

(** ** Timestep *)
Lemma wave_total_eq wadj ws len :
  wave_total wadj ws len =
  fold_right Rplus 0%R (map (fun d => if Req_EM_T (len d) 0 then 0%R
     else (fold_left (fun w f => f w) wadj (ws d) / len d)%R) (zrange 0 3)).
Proof.
  unfold wave_total. change (zrange 0 3) with [0; 1; 2]. cbn [fold_left map fold_right].
  destruct (Req_EM_T (len 0) 0), (Req_EM_T (len 1) 0), (Req_EM_T (len 2) 0); ring.
Qed.

Lemma adjusters_shorten adj dt : (forall f x, In f adj -> (f x <= x)%R) ->
  (fold_left (fun dt f => f dt) adj dt <= dt)%R.
Proof.
  revert dt. induction adj as [|f adj IH]; intros dt H; cbn [fold_left]; [lra|].
  eapply Rle_trans; [apply IH|apply H; now left]. intros. apply H. now right.
Qed.

Theorem timestep_cfl ws len cfl adj :
  (0 < cfl)%R -> (forall d, dir d -> 0 <= ws d)%R -> (forall d, dir d -> 0 <= len d)%R ->
  (exists d, dir d /\ 0 < ws d /\ 0 < len d)%R ->
  (forall f x, In f adj -> (f x <= x)%R) ->
  let speed := fold_right Rplus 0%R (map (fun d => if Req_EM_T (len d) 0 then 0%R else (ws d / len d)%R) [0; 1; 2]) in
  (0 < compute_timestep [] [] ws len cfl /\
   compute_timestep [] [] ws len cfl * speed = cfl /\
   compute_timestep [] adj ws len cfl <= compute_timestep [] [] ws len cfl /\
   compute_timestep [] adj ws len cfl * speed <= cfl)%R.
Proof.
  intros Hc Hw Hl (d & Hd & Wd & Ld) Ha speed.
  assert (Pos : (0 < speed)%R).
  { assert (T : forall d, dir d -> (0 <= if Req_EM_T (len d) 0 then 0 else ws d / len d)%R).
    { intros e He. destruct (Req_EM_T (len e) 0); [lra|].
      specialize (Hw e He). specialize (Hl e He). apply Rmult_le_pos; [lra|].
      left. apply Rinv_0_lt_compat. lra. }
    assert (P : (0 < if Req_EM_T (len d) 0 then 0 else ws d / len d)%R).
    { destruct (Req_EM_T (len d) 0); [lra|]. apply Rdiv_lt_0_compat; lra. }
    unfold speed. cbn [map fold_right].
    pose proof (T 0 ltac:(unfold dir; auto)). pose proof (T 1 ltac:(unfold dir; auto)).
    pose proof (T 2 ltac:(unfold dir; auto)). dcase Hd; lra. }
  assert (E : wave_total [] ws len = speed).
  { rewrite wave_total_eq. reflexivity. }
  unfold compute_timestep. rewrite E. cbn [fold_left].
  assert (Q : (0 < cfl / speed)%R) by (apply Rdiv_lt_0_compat; lra).
  split; [exact Q|]. split; [field; lra|].
  pose proof (adjusters_shorten adj (cfl / speed) Ha) as A.
  split; [exact A|].
  apply Rle_trans with ((cfl / speed) * speed)%R.
  - apply Rmult_le_compat_r; lra.
  - right. field. lra.
Qed.
