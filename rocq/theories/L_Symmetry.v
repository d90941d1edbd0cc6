(** Maps of cells, directions and records that commute with the faces commute with whole
    runs. *)
From Coq Require Import ZArith Reals List Bool Lia Lra Permutation.
From Verif Require Import M_Base M_Vec M_Boundary M_Flux M_Sim S_Boundary S_Flux S_Sum S_Sim L_Base L_Loops
  L_Boundary L_Flux L_System L_Sum L_Conserve L_FluxTop L_Sim L_SimTop L_SimProps L_Related S_Symmetry.
Import ListNotations.
Open Scope Z_scope.

Lemma fold_right_perm l l' : Permutation l l' -> fold_right Rplus 0%R l = fold_right Rplus 0%R l'.
Proof. intros H. induction H; cbn [fold_right]; try congruence; ring. Qed.

Section Sym.
Context {V W : cvars}.
Variables (b b' : bckind) (dims g : Z)
  (fx : numflux V) (rc : recon V) (fx' : numflux W) (rc' : recon W) (nx ny nz nx' ny' nz' : Z).
Hypothesis Hdims : 1 <= dims <= 3.
Notation inside := (interior dims g nx ny nz).
Notation inside' := (interior dims g nx' ny' nz').
Notation im := (image (bc_image b) dims g nx ny nz).
Notation im' := (image (bc_image b') dims g nx' ny' nz').
Notation L := (semidiscrete (V := V) b dims g nx ny nz fx rc).
Notation L' := (semidiscrete (V := W) b' dims g nx' ny' nz' fx' rc').

Variables (tau : V -> W) (sig : cell -> cell) (dirs : Z -> Z) (flip : Z -> bool).
Hypothesis tau_add : forall a c, tau (vadd a c) = vadd (tau a) (tau c).
Hypothesis tau_scal : forall k a, tau (vscal k a) = vscal k (tau a).
Hypothesis sig_inside : forall c, inside' c -> inside (sig c).
Hypothesis sig_onto : forall c, inside c -> exists c', inside' c' /\ sig c' = c.
Hypothesis im'_inside : forall c d s, inside' c -> 0 <= d < dims -> - g <= s <= g -> inside' (im' (move d s c)).
Definition sgn (d : Z) : Z := if flip d then -1 else 1.
Hypothesis sig_move : forall c d s, inside' c -> 0 <= d < dims -> - g <= s <= g ->
  sig (im' (move (dirs d) s c)) = im (move d (sgn d * s) (sig c)).
Hypothesis dirs_perm : Permutation (map dirs (zrange 0 dims)) (zrange 0 dims).

(** Faces. *)
Hypothesis face_same : forall d u u' c c', 0 <= d < dims -> flip d = false ->
  (forall s, - (g - 1) <= s <= g -> u' (move (dirs d) s c') = tau (u (move d s c))) ->
  iface fx' rc' (dirs d) u' c' = (tau (fst (iface fx rc d u c)), snd (iface fx rc d u c)).
Hypothesis face_flip : forall d u u' c c', 0 <= d < dims -> flip d = true ->
  (forall s, - (g - 1) <= s <= g -> u' (move (dirs d) s c') = tau (u (move d (1 - s) c))) ->
  iface fx' rc' (dirs d) u' c' = (vscal (-1) (tau (fst (iface fx rc d u c))), snd (iface fx rc d u c)).

Notation rl := (rel dims g nx' ny' nz' tau sig).

Lemma dirs_range d : 0 <= d < dims -> 0 <= dirs d < dims.
Proof.
  intros H. apply zrange_In. eapply Permutation_in; [exact dirs_perm|]. apply in_map. now apply zrange_In.
Qed.
Lemma dirs_onto e : 0 <= e < dims -> exists d, 0 <= d < dims /\ dirs d = e.
Proof.
  intros H. apply zrange_In in H. eapply Permutation_in in H; [|apply Permutation_sym; exact dirs_perm].
  apply in_map_iff in H. destruct H as (d & <- & Hd). exists d. split; [now apply zrange_In|reflexivity].
Qed.

Lemma filled_rel u u' c d s : rl u u' -> inside' c -> 0 <= d < dims -> - g <= s <= g ->
  filled b' dims g nx' ny' nz' u' (move (dirs d) s c) = tau (filled b dims g nx ny nz u (move d (sgn d * s) (sig c))).
Proof.
  intros H Hc Hd Hs. unfold filled.
  rewrite H by (apply im'_inside; auto; now apply dirs_range). now rewrite sig_move.
Qed.

(** The two faces of a cell in one direction. *)
Lemma faces_rel u u' c d : rl u u' -> inside' c -> 0 <= d < dims ->
  let F := iface fx rc d (filled b dims g nx ny nz u) in
  let F' := iface fx' rc' (dirs d) (filled b' dims g nx' ny' nz' u') in
  if flip d then
    F' c = (vscal (-1) (tau (fst (F (move d (-1) (sig c))))), snd (F (move d (-1) (sig c)))) /\
    F' (move (dirs d) (-1) c) = (vscal (-1) (tau (fst (F (sig c)))), snd (F (sig c)))
  else
    F' c = (tau (fst (F (sig c))), snd (F (sig c))) /\
    F' (move (dirs d) (-1) c) = (tau (fst (F (move d (-1) (sig c)))), snd (F (move d (-1) (sig c)))).
Proof.
  intros H Hc Hd F F'. destruct (flip d) eqn:Ef.
  - split.
    + apply (face_flip d (filled b dims g nx ny nz u) (filled b' dims g nx' ny' nz' u') (move d (-1) (sig c)) c); auto.
      intros s Hs. rewrite filled_rel with (u := u) by (auto; lia).
      unfold sgn. rewrite Ef, move_move. f_equal. f_equal. f_equal. lia.
    + apply (face_flip d (filled b dims g nx ny nz u) (filled b' dims g nx' ny' nz' u') (sig c)); auto.
      intros s Hs. rewrite move_move, filled_rel with (u := u) by (auto; lia).
      unfold sgn. rewrite Ef. f_equal. f_equal. f_equal. lia.
  - split.
    + apply (face_same d (filled b dims g nx ny nz u) (filled b' dims g nx' ny' nz' u') (sig c)); auto.
      intros s Hs. rewrite filled_rel with (u := u) by (auto; lia).
      unfold sgn. rewrite Ef. f_equal. f_equal. f_equal. lia.
    + apply (face_same d (filled b dims g nx ny nz u) (filled b' dims g nx' ny' nz' u') (move d (-1) (sig c))); auto.
      intros s Hs. rewrite !move_move. rewrite filled_rel with (u := u) by (auto; lia).
      unfold sgn. rewrite Ef. f_equal. f_equal. f_equal. lia.
Qed.

Lemma L_rel u u' : rl u u' -> rl (L u) (L' u').
Proof.
  intros H c Hc. unfold semidiscrete. apply comp_ext. intros i.
  rewrite comp_rhs.
  set (F := fun d => iface fx rc d (filled b dims g nx ny nz u)).
  set (F' := fun d => iface fx' rc' d (filled b' dims g nx' ny' nz' u')).
  assert (P : forall l, (forall d, In d l -> 0 <= d < dims) -> forall a,
    comp i (tau (fold_left (fun a d => vadd a (vadd (fst (F d (move d (-1) (sig c)))) (vscal (-1) (fst (F d (sig c)))))) l a)) =
    (comp i (tau a) + fold_right Rplus 0 (map (fun e => comp i (fst (F' e (move e (-1) c))) - comp i (fst (F' e c))) (map dirs l)))%R).
  { induction l as [|d l IH]; intros Hl a; cbn [fold_left map fold_right]; [ring|].
    rewrite IH by (intros; apply Hl; now right).
    pose proof (faces_rel u u' c d H Hc (Hl d (or_introl eq_refl))) as Q. cbv zeta in Q.
    fold (F d) (F' (dirs d)) in Q.
    destruct (flip d); destruct Q as [Q1 Q2]; rewrite Q1, Q2; cbn [fst];
      rewrite !tau_add, !comp_add, tau_scal, !comp_scal; ring. }
  assert (Z0 : comp i (tau vzero) = 0%R).
  { replace vzero with (vscal 0 (@vzero V)).
    - rewrite tau_scal, comp_scal. ring.
    - apply comp_ext. intros j. rewrite comp_scal, comp_zero. ring. }
  unfold rhs. fold F. change (fun e => (comp i (fst (iface fx' rc' e (filled b' dims g nx' ny' nz' u') (move e (-1) c))) - comp i (fst (iface fx' rc' e (filled b' dims g nx' ny' nz' u') c)))%R) with (fun e => (comp i (fst (F' e (move e (-1) c))) - comp i (fst (F' e c)))%R).
  transitivity (comp i (tau (fold_left (fun a d => vadd a (vadd (fst (F d (move d (-1) (sig c)))) (vscal (-1) (fst (F d (sig c)))))) (zrange 0 dims) vzero))); [|reflexivity].
  rewrite P by (intros d; apply zrange_In). rewrite Z0, Rplus_0_l.
  apply fold_right_perm. apply Permutation_map. now apply Permutation_sym.
Qed.

Lemma speeds_rel u u' ws ws' d : rl u u' ->
  speeds b dims g fx rc nx ny nz u ws -> speeds b' dims g fx' rc' nx' ny' nz' u' ws' ->
  0 <= d < dims -> ws' (dirs d) = ws d.
Proof.
  intros H [S _] [S' _] Hd. destruct (S d Hd) as (P1 & P2 & P3).
  destruct (S' (dirs d) (dirs_range d Hd)) as (P1' & P2' & P3'). cbv zeta in P2, P3, P2', P3'.
  set (F := iface fx rc d (filled b dims g nx ny nz u)) in *.
  set (F' := iface fx' rc' (dirs d) (filled b' dims g nx' ny' nz' u')) in *.
  assert (Q : forall c, inside' c -> (snd (F' c) = snd (F (sig c)) /\ snd (F' (move (dirs d) (-1) c)) = snd (F (move d (-1) (sig c)))) \/
     (snd (F' c) = snd (F (move d (-1) (sig c))) /\ snd (F' (move (dirs d) (-1) c)) = snd (F (sig c)))).
  { intros c Hc. pose proof (faces_rel u u' c d H Hc Hd) as Q. cbv zeta in Q. fold F F' in Q.
    destruct (flip d); destruct Q as [-> ->]; [right|left]; split; reflexivity. }
  assert (B : forall c, move d (-1) (move d 1 c) = c) by (intros c; rewrite move_move; apply move_0).
  assert (B2 : forall e c, move e 1 (move e (-1) c) = c) by (intros e c; rewrite move_move; apply move_0).
  apply Rle_antisym.
  - destruct P3' as [->|(c & Hc & ->)]; [exact P1|]. destruct Hc as [Hc|Hc].
    + destruct (Q c Hc) as [[-> _]|[-> _]]; apply P2.
      * left. now apply sig_inside.
      * right. rewrite B2. now apply sig_inside.
    + set (c1 := move (dirs d) 1 c) in *. assert (E : c = move (dirs d) (-1) c1).
      { unfold c1. rewrite move_move. symmetry. apply move_0. }
      rewrite E. destruct (Q c1 Hc) as [[_ ->]|[_ ->]]; apply P2.
      * right. rewrite B2. now apply sig_inside.
      * left. now apply sig_inside.
  - destruct P3 as [->|(c & Hc & ->)]; [exact P1'|].
    assert (Bd : forall c', inside' c' -> (snd (F' c') <= ws' (dirs d) /\ snd (F' (move (dirs d) (-1) c')) <= ws' (dirs d))%R).
    { intros c' Hc'. split; apply P2'; [now left|right; now rewrite B2]. }
    destruct Hc as [Hc|Hc].
    + destruct (sig_onto c Hc) as (c' & Hc' & Es). specialize (Bd c' Hc').
      destruct (Q c' Hc') as [[Q1 Q2]|[Q1 Q2]]; rewrite Es in Q1, Q2; lra.
    + destruct (sig_onto _ Hc) as (c' & Hc' & Es). specialize (Bd c' Hc').
      destruct (Q c' Hc') as [[Q1 Q2]|[Q1 Q2]]; rewrite Es in Q1, Q2; rewrite B in Q1 || rewrite B in Q2; lra.
Qed.

Lemma dt_rel p p' adj u u' ws ws' : rl u u' ->
  speeds b dims g fx rc nx ny nz u ws -> speeds b' dims g fx' rc' nx' ny' nz' u' ws' ->
  p_wadj p' = p_wadj p -> p_cfl p' = p_cfl p ->
  (forall d, 0 <= d < dims -> p_len p' (dirs d) = p_len p d) ->
  (forall d, dims <= d < 3 -> p_len p' d = p_len p d) ->
  compute_timestep (p_wadj p) adj ws (p_len p) (p_cfl p) = compute_timestep (p_wadj p') adj ws' (p_len p') (p_cfl p').
Proof.
  intros H S S' Ew Ec El Ei. unfold compute_timestep. rewrite Ec, Ew. f_equal. f_equal. rewrite !wave_total_eq.
  rewrite (zrange_app 0 dims 3) by lia. rewrite !map_app.
  set (T := fun d => _). set (T' := fun d => _).
  assert (E1 : map T (zrange 0 dims) = map T' (map dirs (zrange 0 dims))).
  { rewrite map_map. apply map_ext_in. intros d Hd. apply zrange_In in Hd. unfold T, T'.
    now rewrite El, (speeds_rel u u' ws ws' d). }
  assert (E2 : map T (zrange dims 3) = map T' (zrange dims 3)).
  { apply map_ext_in. intros d Hd. apply zrange_In in Hd. unfold T, T'.
    rewrite Ei by exact Hd. destruct S as [_ S], S' as [_ S']. now rewrite S, S' by lia. }
  rewrite E1, E2. apply fold_right_perm. apply Permutation_app_tail. apply Permutation_map. exact dirs_perm.
Qed.

(** Admissibility of all cells. *)
Lemma obeys_rel (ok : V -> bool) (ok' : W -> bool) obeys obeys' v v' :
  (forall a, ok' (tau a) = ok a) ->
  (forall c, in_volume dims g nx ny nz c -> inside (im c)) ->
  (forall c, in_volume dims g nx' ny' nz' c -> inside' (im' c)) ->
  (forall c, inside c -> in_volume dims g nx ny nz c) ->
  (forall c, inside' c -> in_volume dims g nx' ny' nz' c) ->
  checks_all dims g nx ny nz ok obeys -> checks_all dims g nx' ny' nz' ok' obeys' ->
  good b dims g nx ny nz v -> good b' dims g nx' ny' nz' v' -> rl (vget v) (vget v') -> obeys v = obeys' v'.
Proof.
  intros Hok Hi Hi' Hv Hv' C C' [Ev Gv] [Ev' Gv'] H.
  assert (Q : obeys v = true <-> obeys' v' = true).
  { rewrite (C v Ev), (C' v' Ev'). split; intros A c Hc.
    - rewrite Gv' by exact Hc. rewrite H by now apply Hi'. rewrite Hok. apply A. apply Hv. apply sig_inside. now apply Hi'.
    - rewrite Gv by exact Hc. destruct (sig_onto _ (Hi c Hc)) as (c' & Hc' & E). rewrite <- E, <- Hok, <- H by exact Hc'.
      apply A. now apply Hv'. }
  destruct (obeys v), (obeys' v'); try reflexivity; [symmetry|]; now apply Q.
Qed.

Variables (it : integrator) (p p' : params) (ok : V -> bool) (ok' : W -> bool) (obeys : vol V -> bool) (obeys' : vol W -> bool).
Hypothesis Hcomp : compatible fx rc g.
Hypothesis Hcomp' : compatible fx' rc' g.
Hypothesis (Hx : 0 < nx) (Hy : 0 < ny) (Hz : 0 < nz).
Hypothesis (Gx : g <= nx) (Gy : 1 < dims -> g <= ny) (Gz : 2 < dims -> g <= nz).
Hypothesis (Hx' : 0 < nx') (Hy' : 0 < ny') (Hz' : 0 < nz').
Hypothesis (Gx' : g <= nx') (Gy' : 1 < dims -> g <= ny') (Gz' : 2 < dims -> g <= nz').
Hypothesis Hcells : total_cells dims g nx ny nz < 2 ^ 31.
Hypothesis Hcells' : total_cells dims g nx' ny' nz' < 2 ^ 31.
Hypothesis Hok : forall a, ok' (tau a) = ok a.
Hypothesis Hob : checks_all dims g nx ny nz ok obeys.
Hypothesis Hob' : checks_all dims g nx' ny' nz' ok' obeys'.
Hypothesis Hwadj : p_wadj p' = p_wadj p.
Hypothesis Hcfl : p_cfl p' = p_cfl p.
Hypothesis Hlen : forall d, 0 <= d < dims -> p_len p' (dirs d) = p_len p d.
Hypothesis Hlen3 : forall d, dims <= d < 3 -> p_len p' d = p_len p d.
Hypothesis Hlen0 : p_len p' 0 = p_len p 0.

Theorem symmetric_runs u0 rest sc u0' rest' sc' adjs :
  Forall (ext dims g nx ny nz) (u0 :: rest) -> length rest = substeps it -> scratch_ext dims g nx ny nz sc ->
  Forall (ext dims g nx' ny' nz') (u0' :: rest') -> length rest' = substeps it -> scratch_ext dims g nx' ny' nz' sc' ->
  (forall c, inside' c -> vget u0' c = tau (vget u0 (sig c))) ->
  agree (fun u u' => forall c, inside' c -> u' c = tau (u (sig c)))
    (serial_run it b dims g fx rc p obeys (u0 :: rest) sc adjs)
    (serial_run it b' dims g fx' rc' p' obeys' (u0' :: rest') sc' adjs).
Proof.
  intros H1 H2 H3 H4 H5 H6 H0.
  assert (IV : forall a1 a2 a3 c, 0 <= g -> interior dims g a1 a2 a3 c -> in_volume dims g a1 a2 a3 c).
  { intros a1 a2 a3 [[x y] z] Hg. unfold interior, in_volume, interior1. destruct (1 <? dims), (2 <? dims); lia. }
  assert (g0 : 0 <= g) by (destruct Hcomp; lia).
  destruct (runs_related it b b' dims dims g g fx rc fx' rc' nx ny nz nx' ny' nz'
    Hdims Hcomp Hx Hy Hz Gx Gy Gz Hcells Hdims Hcomp' Hx' Hy' Hz' Gx' Gy' Gz' Hcells' tau sig sig_inside tau_add tau_scal
    L_rel p p' obeys obeys') with (vols := u0 :: rest) (vols' := u0' :: rest') (sc := sc) (sc' := sc') (adjs := adjs)
    as [(st & st' & E & E' & T & N & Q)|[E E']]; auto.
  - intros u u' ws ws' adj Hr S S'. now apply (dt_rel p p' adj u u').
  - intros v v' Gv Gv' Hr. apply (obeys_rel ok ok' obeys obeys' v v'); auto.
    + now apply (im_interior b dims g fx rc nx ny nz).
    + now apply (im_interior b' dims g fx' rc' nx' ny' nz').
  - cbn [length]. now rewrite H2.
  - cbn [length]. now rewrite H5.
  - left. exists st, st'. auto.
  - right. auto.
Qed.
End Sym.
