(** Statements about the whole right hand side in terms of extents. *)
From Coq Require Import ZArith Reals List Bool Lia Lra.
From Verif Require Import M_Base M_Vec M_Boundary M_Flux S_Boundary S_Flux S_Sum L_Base L_Loops
  L_Boundary L_Flux L_System L_Sum L_Conserve.
Import ListNotations.
Open Scope Z_scope.

Section T.
Context {V : cvars}.
Variables (dims g : Z) (fx : numflux V) (rc : recon V) (nx ny nz : Z).
Notation ext := (S_Flux.ext (V := V) dims g nx ny nz).
Notation ext_state := (S_Flux.ext_state (V := V) dims g nx ny nz).
Notation is_wave_speed := (S_Flux.is_wave_speed dims g nx ny nz fx rc).
Hypothesis Hdims : 1 <= dims <= 3.
Hypothesis Hcomp : compatible fx rc g.
Hypothesis (Hx : 0 < nx) (Hy : 0 < ny) (Hz : 0 < nz).
Hypothesis (Gx : g <= nx) (Gy : 1 < dims -> g <= ny) (Gz : 2 < dims -> g <= nz).

Lemma ext_same u v : ext u -> (same_dims u v <-> ext v).
Proof.
  clear Hdims Hcomp Hx Hy Hz Gx Gy Gz. intros (H1 & H2 & H3). unfold same_dims, ext, has_extents. rewrite H1, H2, H3. intuition.
Qed.
Lemma st_dims_ext u s : ext u -> (st_dims u s <-> ext_state s).
Proof.
  intros Hu. unfold st_dims, ext_state.
  rewrite <- !(ext_same u) by exact Hu. reflexivity.
Qed.

Lemma int_inreg u c : ext u -> inreg (int_lo dims g) (int_hi dims g u) c = true <-> interior dims g nx ny nz c.
Proof. intros Hu. symmetry. apply interior_inreg; [lia|exact Hu]. Qed.

Lemma iface_of_faces u e c : ext u -> 0 <= e < dims ->
  iface_of (int_lo dims g) (int_hi dims g u) e c <->
  interior dims g nx ny nz c \/ interior dims g nx ny nz (move e 1 c).
Proof.
  intros Hu He. assert (De : dir e) by (unfold dir; lia).
  rewrite <- !(int_inreg u) by exact Hu. rewrite !inreg_iff. unfold iface_of.
  assert (Hpos : forall k, dir k -> 0 < int_hi dims g u k - int_lo dims g k).
  { intros k Hk. unfold int_hi, int_lo.
    rewrite (total_extents u dims g nx ny nz k) by (auto; lia).
    unfold ghost, nvec. dcase Hk; cbn [Z.eqb Pos.eqb]; match goal with |- context [?a <? dims] => destruct (a <? dims) end; lia. }
  assert (Hun : forall k, unit_ e k = if k =? e then 1 else 0).
  { intros k. unfold unit_. rewrite Z.eqb_sym. destruct (k =? e); reflexivity. }
  split.
  - intros H. destruct (Z_le_gt_dec (int_lo dims g e) (coord e c)) as [G|G].
    + left. intros k Hk'. specialize (H k Hk'). rewrite Hun in H.
      destruct (Z.eqb_spec k e) as [E|]; [subst k|]; lia.
    + right. intros k Hk'. specialize (H k Hk'). specialize (Hpos k Hk'). rewrite Hun in H.
      rewrite coord_move by auto. destruct (Z.eqb_spec k e) as [E|]; [subst k|]; lia.
  - intros [H|H] k Hk'; specialize (H k Hk'); rewrite Hun.
    + destruct (k =? e); lia.
    + rewrite coord_move in H by auto. destruct (k =? e); lia.
Qed.

Lemma bound_is u w : ext u -> bound_speed dims g fx rc u w <-> is_wave_speed (vget u) w.
Proof.
  intros Hu. unfold bound_speed, is_wave_speed. split; intros H e He; specialize (H e He).
  - destruct H as (H1 & H2 & H3). split; [exact H1|]. split.
    + intros c Hc. apply H2. now apply iface_of_faces.
    + destruct H3 as [H3|(c & Hc & H3)]; [now left|]. right. exists c.
      split; auto. now apply (iface_of_faces u).
  - destruct H as (H1 & H2 & H3). split; [exact H1|]. split.
    + intros c Hc. apply H2. now apply (iface_of_faces u).
    + destruct H3 as [H3|(c & Hc & H3)]; [now left|]. right. exists c.
      split; auto. now apply iface_of_faces.
Qed.

Lemma is_wave_speed_unique u w w' e : is_wave_speed u w -> is_wave_speed u w' ->
  0 <= e < dims -> w e = w' e.
Proof.
  intros H H' He. specialize (H e He). specialize (H' e He). cbv zeta in H, H'.
  destruct H as (P & Q & S), H' as (P' & Q' & S'). apply Rle_antisym.
  - destruct S as [->|(c & Hc & ->)]; auto.
  - destruct S' as [->|(c & Hc & ->)]; auto.
Qed.

Theorem system_top exchange u u' s :
  ext u -> ext_state s -> exchange u = Ok u' -> ext u' ->
  (forall c, interior dims g nx ny nz c -> vget u' c = vget u c) ->
  exists s', system_flux dims g fx rc exchange u s = Ok (u', s') /\ ext_state s' /\
    (forall c, interior dims g nx ny nz c -> vget (f_out s') c = rhs dims fx rc (vget u') c) /\
    (forall c, in_volume dims g nx ny nz c -> ~ interior dims g nx ny nz c ->
       vget (f_out s') c = vget (f_out s) c) /\
    is_wave_speed (vget u') (f_speed s').
Proof.
  intros Hu Hs Hex Hu' Hag.
  destruct (system_flux_spec dims g fx rc Hdims Hcomp exchange u u' s) as (s' & E & D & W & B).
  - apply fits_extents with nx ny nz; auto; lia.
  - now apply st_dims_ext.
  - exact Hex.
  - now apply ext_same.
  - intros c Hc. apply Hag. now apply (int_inreg u).
  - exists s'. split; [exact E|]. split; [now apply (st_dims_ext u)|]. split; [|split].
    + intros c Hc. rewrite W.
      * apply (int_inreg u c Hu) in Hc. now rewrite Hc.
      * apply (int_inreg u c Hu) in Hc. now apply (interior_inr dims g fx rc).
    + intros c Hc Hn. rewrite W by now apply (in_volume_iff u dims g nx ny nz).
      destruct (inreg _ _ c) eqn:Ei; [|reflexivity].
      exfalso. apply Hn. now apply (int_inreg u).
    + now apply bound_is.
Qed.

Theorem compute_top u s :
  ext u -> ext_state s ->
  exists s', compute_flux dims g fx rc u (fun _ => 0) (fun _ => 0) s = Ok s' /\ ext_state s' /\
    (forall c, interior dims g nx ny nz c -> vget (f_out s') c = rhs dims fx rc (vget u) c) /\
    (forall c, in_volume dims g nx ny nz c -> ~ interior dims g nx ny nz c ->
       vget (f_out s') c = vget (f_out s) c) /\
    is_wave_speed (vget u) (f_speed s').
Proof.
  intros Hu Hs.
  destruct (compute_flux_spec dims g fx rc Hdims Hcomp u s (fun _ => 0) (fun _ => 0)
     (int_lo dims g) (int_hi dims g u)) as (s' & E & D & W & B & _).
  - intros. unfold int_lo. lia.
  - intros. unfold int_hi. lia.
  - intros k Hk. unfold int_lo, int_hi. lia.
  - now apply st_dims_ext.
  - exists s'. split; [exact E|]. split; [now apply (st_dims_ext u)|]. split; [|split].
    + intros c Hc. apply (int_inreg u c Hu) in Hc. rewrite W.
      * now rewrite Hc.
      * now apply (interior_inr dims g fx rc).
    + intros c Hc Hn. rewrite W by now apply (in_volume_iff u dims g nx ny nz).
      destruct (inreg _ _ c) eqn:Ei; [|reflexivity].
      exfalso. apply Hn. now apply (int_inreg u).
    + apply bound_is; [exact Hu|]. intros e He. rewrite B by exact He. apply max_speed_spec.
Qed.

Theorem split_same exchange u u' s :
  ext u -> ext_state s -> exchange u = Ok u' -> ext u' ->
  (forall c, interior dims g nx ny nz c -> vget u' c = vget u c) ->
  exists s1 s2,
    system_flux dims g fx rc exchange u s = Ok (u', s1) /\
    compute_flux dims g fx rc u' (fun _ => 0) (fun _ => 0) s = Ok s2 /\
    (forall c, in_volume dims g nx ny nz c -> vget (f_out s1) c = vget (f_out s2) c) /\
    (forall d, 0 <= d < dims -> f_speed s1 d = f_speed s2 d).
Proof.
  intros Hu Hs Hex Hu' Hag.
  destruct (system_top exchange u u' s) as (s1 & E1 & _ & I1 & O1 & W1); auto.
  destruct (compute_top u' s) as (s2 & E2 & _ & I2 & O2 & W2); auto.
  exists s1, s2. repeat split; auto.
  - intros c Hc. destruct (inreg (int_lo dims g) (int_hi dims g u) c) eqn:Ei.
    + apply (int_inreg u c Hu) in Ei. rewrite I1, I2 by exact Ei. reflexivity.
    + assert (~ interior dims g nx ny nz c).
      { intros Hi. apply (int_inreg u c Hu) in Hi. congruence. }
      rewrite O1, O2 by assumption. reflexivity.
  - intros d Hd. eapply is_wave_speed_unique; eauto.
Qed.

Theorem system_conserves exchange u u' s :
  ext u -> ext_state s -> exchange u = Ok u' -> ext u' ->
  (forall c, interior dims g nx ny nz c -> vget u' c = vget u c) ->
  (forall c, in_volume dims g nx ny nz c -> vget u' c = vget u' (image periodic1 dims g nx ny nz c)) ->
  exists s', system_flux dims g fx rc exchange u s = Ok (u', s') /\
    forall i, isum dims g (nvec nx ny nz) (fun c => comp i (vget (f_out s') c)) = 0%R.
Proof.
  intros Hu Hs Hex Hu' Hag Hp.
  destruct (system_top exchange u u' s) as (s' & E & _ & I & _ & _); auto.
  exists s'. split; [exact E|]. intros i.
  rewrite <- (rhs_periodic_sum dims g fx rc Hdims Hcomp i (vget u') nx ny nz) by assumption.
  apply isum_ext. intros c Hc. rewrite I; [reflexivity|]. apply interior_iff; [lia|exact Hc].
Qed.

Theorem compute_conserves u s :
  ext u -> ext_state s ->
  (forall c, in_volume dims g nx ny nz c -> vget u c = vget u (image periodic1 dims g nx ny nz c)) ->
  exists s', compute_flux dims g fx rc u (fun _ => 0) (fun _ => 0) s = Ok s' /\
    forall i, isum dims g (nvec nx ny nz) (fun c => comp i (vget (f_out s') c)) = 0%R.
Proof.
  intros Hu Hs Hp.
  destruct (compute_top u s) as (s' & E & _ & I & _ & _); auto.
  exists s'. split; [exact E|]. intros i.
  rewrite <- (rhs_periodic_sum dims g fx rc Hdims Hcomp i (vget u) nx ny nz) by assumption.
  apply isum_ext. intros c Hc. rewrite I; [reflexivity|]. apply interior_iff; [lia|exact Hc].
Qed.

Theorem compute_balance u s :
  ext u -> ext_state s ->
  exists s', compute_flux dims g fx rc u (fun _ => 0) (fun _ => 0) s = Ok s' /\
    forall i, isum dims g (nvec nx ny nz) (fun c => comp i (vget (f_out s') c)) =
      fold_right Rplus 0%R (map (fun d =>
        let lo := ilo dims g in let hi := ihi dims g (nvec nx ny nz) in
        (sum3 (upd lo d (lo d - 1)) (upd hi d (lo d))
              (fun c => comp i (fst (iface fx rc d (vget u) c))) -
         sum3 (upd lo d (hi d - 1)) (upd hi d (hi d))
              (fun c => comp i (fst (iface fx rc d (vget u) c))))%R) (zrange 0 dims)).
Proof.
  intros Hu Hs.
  destruct (compute_top u s) as (s' & E & _ & I & _ & _); auto.
  exists s'. split; [exact E|]. intros i. cbv zeta.
  rewrite <- (rhs_balance dims g fx rc).
  - apply isum_ext. intros c Hc. rewrite I; [reflexivity|]. apply interior_iff; [lia|exact Hc].
  - exact Hdims.
  - intros k Hk. unfold nvec. dcase Hk; simpl; lia.
Qed.

End T.
