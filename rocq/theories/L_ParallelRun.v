(** One substep of all processes is one substep of the serial simulator. *)
From Coq Require Import ZArith Reals List Bool Lia Lra.
From Verif Require Import M_Base M_Vec M_Boundary M_Flux M_Sim M_Mpi M_Parallel S_Boundary S_Flux S_Sim S_Mpi
  S_Sum S_Parallel L_Base L_Loops L_Boundary L_Flux L_System L_Sum L_Conserve L_FluxTop L_Sim L_SimTop
  L_Decomp L_Exchange L_Match L_Parallel.
Import ListNotations.
Open Scope Z_scope.

(** What a successful loop preserves. *)
Lemma fold_res_keeps {I S} (body : I -> S -> res S) (P : S -> Prop) l s s' :
  (forall i s s', In i l -> P s -> body i s = Ok s' -> P s') -> P s -> fold_res body l s = Ok s' -> P s'.
Proof.
  revert s. induction l as [|i l IH]; intros s H Hs E; cbn [fold_res] in E.
  - injection E as <-. exact Hs.
  - destruct (body i s) as [s1| |] eqn:E1; cbn [bind] in E; try discriminate.
    apply (IH s1); auto. + intros. eapply H; eauto. now right.
    + eapply H; eauto. now left.
Qed.
Lemma for_keeps {S} (body : Z -> S -> res S) (P : S -> Prop) a b s s' :
  (forall i s s', a <= i < b -> P s -> body i s = Ok s' -> P s') -> P s -> for_ a b body s = Ok s' -> P s'.
Proof.
  intros H. apply fold_res_keeps. intros i t t' Hi. apply zrange_In in Hi. now apply H.
Qed.

Section Flat.
Context {V : cvars}.
Variables (dims g : Z) (fx : numflux V) (rc : recon V).

(** No wave speed is recorded for a direction that is not in use. *)
Lemma compute_flat u st fin s s' e : dims <= e ->
  compute_flux dims g fx rc u st fin s = Ok s' -> f_speed s' e = f_speed s e.
Proof.
  intros He E. unfold compute_flux in E.
  destruct (make_zero _ _ _ _ _) as [o| |]; cbn [bind] in E; try discriminate.
  revert E. apply (for_keeps _ (fun t : fstate V => f_speed t e = f_speed s e)); [|reflexivity].
  intros d t t' Hd Ht Et. cbv beta in Et.
  destruct (reconstruct _ _ _ _ _ _ _ _) as [lr| |]; cbn [bind] in Et; try discriminate.
  destruct (net_flux _ _ _ _ _ _ _ _ _ _) as [x| |]; cbn [bind] in Et; try discriminate.
  injection Et as <-. cbn [f_speed]. destruct (Z.eqb_spec e d); [lia|exact Ht].
Qed.

Lemma system_flat exchange u s u' s' e : dims <= e -> f_speed s e = 0%R ->
  system_flux dims g fx rc exchange u s = Ok (u', s') -> f_speed s' e = 0%R.
Proof.
  intros He H0 E. unfold system_flux in E.
  destruct (compute_flux _ _ _ _ u _ _ _) as [s1| |] eqn:E1; cbn [bind] in E; try discriminate.
  apply compute_flat with (e := e) in E1; [|exact He]. cbn [f_speed] in E1. rewrite H0 in E1.
  destruct (exchange u) as [u1| |]; cbn [bind] in E; try discriminate.
  destruct (for_ _ _ _ _) as [r| |] eqn:Er; cbn [bind] in E; try discriminate.
  injection E as <- <-. cbn [f_speed].
  assert (K : snd r e = 0%R).
  { revert Er. apply (for_keeps _ (fun t : fstate V * (Z -> R) => snd t e = 0%R)); [|reflexivity].
    intros d [t sides] t' Hd Ht Et. cbn [snd] in Ht. cbv beta iota zeta in Et.
    destruct (compute_flux _ _ _ _ u1 _ _ _) as [sb| |] eqn:Eb; cbn [bind] in Et; try discriminate.
    apply compute_flat with (e := e) in Eb; [|exact He]. cbn [f_speed] in Eb.
    destruct (compute_flux _ _ _ _ u1 _ _ _) as [sp| |] eqn:Ep; cbn [bind] in Et; try discriminate.
    apply compute_flat with (e := e) in Ep; [|exact He]. cbn [f_speed] in Ep.
    injection Et as <-. cbn [snd]. unfold speed_max. rewrite Ht, Eb, Ep, !(Rmax_left 0 0) by lra. reflexivity. }
  unfold speed_max. rewrite E1, K. now rewrite (Rmax_left 0 0) by lra.
Qed.
End Flat.

Section R.
Context {V : cvars} {St : storage V}.
Variables (b : bckind) (p : cell) (gr : grid) (junk : Z -> Z -> Z) (dims g nvars : Z).
Variables (lgs : Z -> grid) (nbs : Z -> Z -> Z) (fx : numflux V) (rc : recon V).
Hypothesis Hfit : S_Mpi.fits p (gr_cells gr) dims g.
Hypothesis Hbcs : forall s, gr_bc gr s = side_type b.
Hypothesis Hdet : determined V nvars.
Hypothesis Hcomp : compatible fx rc g.
Notation np := (processes p).
Notation N := (gr_cells gr).
Notation n := (per3 p (gr_cells gr)).
Hypothesis Hdec : forall r, 0 <= r < np -> decompose p gr r (junk r) = Ok (lgs r, nbs r).
Let Hdims : 1 <= dims <= 3 := proj1 Hfit.
Notation imN := (image (bc_image b) dims g (at3 N 0) (at3 N 1) (at3 N 2)).
Notation inN := (in_volume dims g (at3 N 0) (at3 N 1) (at3 N 2)).
Notation inn := (in_volume dims g (at3 n 0) (at3 n 1) (at3 n 2)).
Notation imn r := (image_masked (mpi_sides (lgs r)) (bc_image b) dims g (at3 n 0) (at3 n 1) (at3 n 2)).
Notation start r := (gr_start (lgs r)).

Lemma np_pos : 1 <= np.
Proof.
  pose proof (proj1 (proj2 (proj2 Hfit))) as Hp. unfold processes.
  pose proof (Hp 0 ltac:(lia)). pose proof (Hp 1 ltac:(lia)). pose proof (Hp 2 ltac:(lia)). nia.
Qed.
Lemma p_pos k : 0 <= k < 3 -> 1 <= at3 p k.
Proof. apply Hfit. Qed.
Lemma n_pos k : 0 <= k < 3 -> 1 <= at3 n k.
Proof. intros Hk. apply (n_spec p gr dims g Hfit k Hk). Qed.
Lemma n_ghost k : 0 <= k < 3 -> k < dims -> g <= at3 n k.
Proof. intros Hk. apply (n_spec p gr dims g Hfit k Hk). Qed.
Lemma N_n k : 0 <= k < 3 -> at3 N k = at3 n k * at3 p k.
Proof. apply (n_full p gr dims g Hfit). Qed.
Lemma N_pos k : 0 <= k < 3 -> 1 <= at3 N k.
Proof. intros Hk. rewrite (N_n k Hk). pose proof (p_pos k Hk). pose proof (n_pos k Hk). nia. Qed.
Lemma N_ghost k : 0 <= k < 3 -> k < dims -> g <= at3 N k.
Proof.
  intros Hk Hd. rewrite (N_n k Hk). pose proof (p_pos k Hk). pose proof (n_pos k Hk). pose proof (n_ghost k Hk Hd). nia.
Qed.
Lemma g_pos1 : 1 <= g.
Proof. destruct Hcomp. lia. Qed.

(** Interior cells of the blocks are the interior cells of the grid. *)
Lemma shifted_inner r c : 0 <= r < np -> inner dims g n c -> inner dims g N (shifted (start r) c).
Proof.
  intros Hr Hc k Hk. specialize (Hc k Hk).
  rewrite shifted_at, (start_at p gr junk dims g lgs nbs Hfit Hdec r k Hr Hk) by exact Hk. rewrite (N_n k Hk).
  pose proof (pos_at p gr dims g Hfit r k Hr Hk). pose proof (n_pos k Hk).
  destruct (k <? dims); nia.
Qed.
Lemma covered c : inner dims g N c -> exists r d, 0 <= r < np /\ inner dims g n d /\ c = shifted (start r) d.
Proof.
  intros Hc.
  set (off := fun k => if k <? dims then g else 0).
  set (pos := ((at3 c 0 - off 0) / at3 n 0, (at3 c 1 - off 1) / at3 n 1, (at3 c 2 - off 2) / at3 n 2) : cell).
  assert (Ep : forall k, 0 <= k < 3 -> at3 pos k = (at3 c k - off k) / at3 n k).
  { intros k Hk. k3case Hk; reflexivity. }
  assert (G : in_grid pos p).
  { intros k Hk. rewrite Ep by exact Hk. specialize (Hc k Hk). rewrite (N_n k Hk) in Hc.
    pose proof (n_pos k Hk). unfold off. destruct (k <? dims);
      (split; [apply Z.div_pos; lia|apply Z.div_lt_upper_bound; lia]). }
  pose proof (index_range pos p G) as Hr.
  exists (get_rank_index pos p).
  set (d := (at3 c 0 - at3 (start (get_rank_index pos p)) 0, at3 c 1 - at3 (start (get_rank_index pos p)) 1,
             at3 c 2 - at3 (start (get_rank_index pos p)) 2) : cell).
  assert (Ed : forall k, 0 <= k < 3 -> at3 d k = at3 c k - at3 (start (get_rank_index pos p)) k).
  { intros k Hk. k3case Hk; reflexivity. }
  exists d. split; [exact Hr|]. split.
  - intros k Hk. rewrite Ed by exact Hk.
    rewrite (start_at p gr junk dims g lgs nbs Hfit Hdec _ k Hr Hk), (coords_of_index pos p G), Ep by exact Hk.
    pose proof (n_pos k Hk). pose proof (Z.div_mod (at3 c k - off k) (at3 n k) ltac:(lia)).
    pose proof (Z.mod_pos_bound (at3 c k - off k) (at3 n k) ltac:(lia)).
    unfold off in *. destruct (k <? dims); lia.
  - apply at3_eq. intros k Hk. rewrite shifted_at, Ed by exact Hk. lia.
Qed.

(** The boundary conditions of a block. *)
Lemma masked_ok r k t : 0 <= k < 3 -> k < dims -> 0 <= t < at3 n k + 2 * g ->
  let m := masked (mpi_sides (lgs r) (2 * k)) (mpi_sides (lgs r) (2 * k + 1)) (bc_image b) g (at3 n k) in
  0 <= m t < at3 n k + 2 * g /\ m (m t) = m t /\ (g <= t < g + at3 n k -> m t = t).
Proof.
  intros Hk Hd Ht. cbv zeta. pose proof (n_pos k Hk). pose proof (n_ghost k Hk Hd). pose proof (proj1 (proj2 Hfit)) as Hg.
  set (lo := mpi_sides (lgs r) (2 * k)). set (hi := mpi_sides (lgs r) (2 * k + 1)).
  assert (Rg : g <= bc_image b g (at3 n k) t < g + at3 n k).
  { destruct b; cbn [bc_image]; [apply periodic1_range; lia|apply mirror1_range; lia]. }
  assert (Id : forall u, g <= u < g + at3 n k -> bc_image b g (at3 n k) u = u).
  { intros u Hu. destruct b; cbn [bc_image]; [now apply periodic1_mid|now apply mirror1_mid]. }
  assert (In : forall u, g <= u < g + at3 n k -> masked lo hi (bc_image b) g (at3 n k) u = u).
  { intros u Hu. unfold masked. destruct (_ || _); [reflexivity|now apply Id]. }
  split; [|split; [|apply In]].
  - unfold masked. destruct (_ || _); lia.
  - destruct (lo && (t <? g) || hi && (g + at3 n k <=? t)) eqn:E.
    + assert (Et : masked lo hi (bc_image b) g (at3 n k) t = t) by (unfold masked; now rewrite E). now rewrite !Et.
    + assert (Et : masked lo hi (bc_image b) g (at3 n k) t = bc_image b g (at3 n k) t) by (unfold masked; now rewrite E).
      rewrite Et. now apply In.
Qed.
Lemma imn_facts r c : inn c -> inn (imn r c) /\ imn r (imn r c) = imn r c /\ (inner dims g n c -> imn r c = c).
Proof.
  intros Hc. pose proof (proj1 (in_volume3 dims g n c Hdims) Hc) as Hv.
  split; [|split].
  - apply in_volume3; [exact Hdims|]. intros k Hk. specialize (Hv k Hk). rewrite masked_coord by lia.
    destruct (Z.ltb_spec k dims) as [L|L]; [|lia]. apply (masked_ok r k _ Hk L Hv).
  - apply at3_eq. intros k Hk. specialize (Hv k Hk). rewrite !masked_coord by lia.
    destruct (Z.ltb_spec k dims) as [L|L]; [|reflexivity]. apply (masked_ok r k _ Hk L Hv).
  - intros Hi. apply at3_eq. intros k Hk. specialize (Hv k Hk). specialize (Hi k Hk). rewrite !masked_coord by lia.
    destruct (Z.ltb_spec k dims) as [L|L]; [|reflexivity]. apply (masked_ok r k _ Hk L Hv). exact Hi.
Qed.

Definition filled_block r (v : vol V) : Prop :=
  ext3 dims g n v /\ forall c, inn c -> vget v c = vget v (imn r c).

Lemma local_bc_all r (v : vol V) : 0 <= r < np -> ext3 dims g n v ->
  exists v', local_bc b g lgs r v = Ok v' /\ ext3 dims g n v' /\
    forall c, inn c -> vget v' c = vget v (imn r c).
Proof.
  intros Hr Hv. unfold local_bc. pose proof (cells_at p gr junk dims g lgs nbs Hfit Hdec r Hr) as Ec.
  assert (Ea : active_dimension (gr_cells (lgs r)) = dims).
  { rewrite Ec. unfold active_dimension. pose proof (n_spec p gr dims g Hfit 2 ltac:(lia)) as (A1 & A2 & _ & A3).
    pose proof (n_spec p gr dims g Hfit 1 ltac:(lia)) as (B1 & B2 & _ & B3).
    destruct (Z.ltb_spec 1 (at3 n 2)); [|destruct (Z.ltb_spec 1 (at3 n 1))]; lia. }
  rewrite Ea.
  assert (E : exists areas', apply_boundary_conditions (bc_apply b) dims g (mpi_sides (lgs r)) [v] = Ok areas' /\
    Forall2 (fun v v' => has_extents v' dims g (at3 n 0) (at3 n 1) (at3 n 2) /\
      (forall c, inn c -> vget v' c = vget v (imn r c))) [v] areas').
  { pose proof (n_pos 0 ltac:(lia)). pose proof (n_pos 1 ltac:(lia)). pose proof (n_pos 2 ltac:(lia)).
    pose proof (n_ghost 0 ltac:(lia) ltac:(lia)). pose proof (n_ghost 1 ltac:(lia)). pose proof (n_ghost 2 ltac:(lia)).
    pose proof (proj1 (proj2 Hfit)).
    assert (Hin : forall v0, In v0 [v] -> has_extents v0 dims g (at3 n 0) (at3 n 1) (at3 n 2))
      by (intros v0 [<-|[]]; exact Hv).
    unfold bc_apply. cbn [bc_image].
    destruct b; cbn [bc_image]; [apply periodic_areas|apply neumann_areas]; auto; lia. }
  destruct E as (areas' & E & F). unfold apply_boundary_conditions in E. cbn [map_res] in E.
  destruct (apply_boundary (bc_apply b) dims g (mpi_sides (lgs r)) v) as [v'| |]; cbn [bind] in E; try discriminate.
  injection E as <-. inversion F as [|? ? ? ? [Hx' Hm]]; subst.
  exists v'. split; [reflexivity|]. split; [exact Hx'|exact Hm].
Qed.
Lemma local_bc_ok r v : 0 <= r < np -> ext3 dims g n v ->
  exists v', local_bc b g lgs r v = Ok v' /\ filled_block r v' /\
    forall c, inner dims g n c -> vget v' c = vget v c.
Proof.
  intros Hr Hv. destruct (local_bc_all r v Hr Hv) as (v' & E & Hx' & Hm).
  exists v'. split; [exact E|]. split.
  - split; [exact Hx'|]. intros c Hc. destruct (imn_facts r c Hc) as (F1 & F2 & _).
    rewrite (Hm c Hc), (Hm _ F1), F2. reflexivity.
  - intros c Hc. assert (inn c) as Hi.
    { apply in_volume3; [exact Hdims|]. intros k Hk. specialize (Hc k Hk). pose proof g_pos1. destruct (k <? dims); lia. }
    rewrite (Hm c Hi). destruct (imn_facts r c Hi) as (_ & _ & F3). now rewrite F3.
Qed.

Section OneFlux.
Variables (U : vol V) (l l2 : Z -> vol V).
Hypothesis HeU : ext3 dims g N U.
Hypothesis HU : forall c, inN c -> vget U c = vget U (imN c).
Hypothesis Hl : forall r, 0 <= r < np -> filled_block r (l r).
Hypothesis Hdist : distributed dims g np lgs (vget U) (fun r => vget (l r)).
Hypothesis Hex : exchange_volumes p gr junk g nvars np l l2.

Lemma star r c e j : 0 <= r < np -> inner dims g n c -> 0 <= e < dims -> - g <= j <= g ->
  vget (l2 r) (move e j c) = vget U (move e j (shifted (start r) c)).
Proof.
  intros Hr Hc He Hj. rewrite <- move_shifted by lia.
  apply (star_agrees b p gr junk dims g nvars lgs nbs Hfit Hbcs Hdet Hdec U l l2 HU); auto.
  - intros q Hq. apply (Hl q Hq).
  - intros q d Hq. apply (Hl q Hq).
Qed.
Lemma exchanged_block r : 0 <= r < np ->
  ext3 dims g n (l2 r) /\ forall c, inner dims g n c -> vget (l2 r) c = vget (l r) c.
Proof.
  intros Hr. destruct (after_exchange b p gr junk dims g nvars Hfit Hbcs Hdet l l2) with (r := r) as (A & B & _); auto.
  intros q Hq. apply (Hl q Hq).
Qed.
Lemma block_rhs r c : 0 <= r < np -> inner dims g n c ->
  rhs dims fx rc (vget (l2 r)) c = rhs dims fx rc (vget U) (shifted (start r) c).
Proof.
  intros Hr Hc. apply (rhs_ext dims g fx rc Hcomp). intros d j Hd Hj. now apply star.
Qed.
Lemma block_face r c e : 0 <= r < np -> 0 <= e < dims -> inner dims g n c \/ inner dims g n (move e 1 c) ->
  iface fx rc e (vget (l2 r)) c = iface fx rc e (vget U) (shifted (start r) c).
Proof.
  intros Hr He Hc. apply (iface_ext g fx rc Hcomp). intros j Hj. destruct Hc as [Hc|Hc].
  - apply star; auto; lia.
  - replace (move e j c) with (move e (j - 1) (move e 1 c)) by (rewrite move_move; f_equal; lia).
    rewrite star by (auto; lia). rewrite move_shifted by lia. rewrite move_move. do 2 f_equal. lia.
Qed.

Lemma block_system r s : 0 <= r < np -> ext_state dims g (at3 n 0) (at3 n 1) (at3 n 2) s ->
  exists s', system_flux dims g fx rc (fun _ => Ok (l2 r)) (l r) s = Ok (l2 r, s') /\
    ext_state dims g (at3 n 0) (at3 n 1) (at3 n 2) s' /\
    (forall c, inner dims g n c -> vget (f_out s') c = rhs dims fx rc (vget U) (shifted (start r) c)) /\
    is_wave_speed dims g (at3 n 0) (at3 n 1) (at3 n 2) fx rc (vget (l2 r)) (f_speed s').
Proof.
  intros Hr Hs. destruct (exchanged_block r Hr) as (E2 & K2).
  destruct (system_top dims g fx rc (at3 n 0) (at3 n 1) (at3 n 2) Hdims Hcomp) with
    (exchange := fun _ : vol V => Ok (l2 r)) (u := l r) (u' := l2 r) (s := s) as (s' & A & B & C & _ & W); auto.
  - pose proof (n_pos 0 ltac:(lia)). lia.
  - pose proof (n_pos 1 ltac:(lia)). lia.
  - pose proof (n_pos 2 ltac:(lia)). lia.
  - apply n_ghost; lia.
  - intros. apply n_ghost; lia.
  - intros. apply n_ghost; lia.
  - apply (Hl r Hr).
  - intros c Hc. apply K2. now apply interior3_inner.
  - exists s'. split; [exact A|]. split; [exact B|]. split; [|exact W].
    intros c Hc. rewrite C by now apply interior3_inner. now apply block_rhs.
Qed.
Lemma global_system s : ext_state dims g (at3 N 0) (at3 N 1) (at3 N 2) s ->
  exists s', system_flux dims g fx rc Ok U s = Ok (U, s') /\
    ext_state dims g (at3 N 0) (at3 N 1) (at3 N 2) s' /\
    (forall c, inner dims g N c -> vget (f_out s') c = rhs dims fx rc (vget U) c) /\
    is_wave_speed dims g (at3 N 0) (at3 N 1) (at3 N 2) fx rc (vget U) (f_speed s').
Proof.
  intros Hs.
  destruct (system_top dims g fx rc (at3 N 0) (at3 N 1) (at3 N 2) Hdims Hcomp) with
    (exchange := Ok (A := vol V)) (u := U) (u' := U) (s := s) as (s' & A & B & C & _ & W); auto.
  - pose proof (N_pos 0 ltac:(lia)). lia.
  - pose proof (N_pos 1 ltac:(lia)). lia.
  - pose proof (N_pos 2 ltac:(lia)). lia.
  - apply N_ghost; lia.
  - intros. apply N_ghost; lia.
  - intros. apply N_ghost; lia.
  - exists s'. split; [exact A|]. split; [exact B|]. split; [|exact W].
    intros c Hc. apply C. now apply interior3_inner.
Qed.

(** The largest wave speed of the blocks is the wave speed of the grid. *)
Lemma speeds_agree W (w : Z -> Z -> R) m e : 0 <= e < dims ->
  is_wave_speed dims g (at3 N 0) (at3 N 1) (at3 N 2) fx rc (vget U) W ->
  (forall r, 0 <= r < np -> is_wave_speed dims g (at3 n 0) (at3 n 1) (at3 n 2) fx rc (vget (l2 r)) (w r)) ->
  is_max_over np (fun r => w r e) m -> m = W e.
Proof.
  intros He HW Hw (M1 & r0 & Hr0 & M2). specialize (HW e He). cbv zeta in HW. destruct HW as (W0 & W1 & W2).
  assert (In : forall c, interior dims g (at3 n 0) (at3 n 1) (at3 n 2) c <-> inner dims g n c)
    by (intros c; apply interior3_inner; exact Hdims).
  assert (IN : forall c, interior dims g (at3 N 0) (at3 N 1) (at3 N 2) c <-> inner dims g N c)
    by (intros c; apply interior3_inner; exact Hdims).
  apply Rle_antisym.
  - rewrite M2. specialize (Hw r0 Hr0 e He). cbv zeta in Hw. destruct Hw as (_ & _ & [->|(c & Hc & ->)]); [exact W0|].
    rewrite !In in Hc. rewrite (block_face r0 c e Hr0 He Hc). apply W1. rewrite !IN.
    destruct Hc as [Hc|Hc]; [left|right].
    + now apply shifted_inner.
    + rewrite <- move_shifted by lia. now apply shifted_inner.
  - destruct W2 as [->|(c & Hc & ->)].
    + apply Rle_trans with (w r0 e); [|now apply M1]. apply (Hw r0 Hr0 e He).
    + rewrite !IN in Hc.
      assert (F : exists r d, 0 <= r < np /\ (inner dims g n d \/ inner dims g n (move e 1 d)) /\ c = shifted (start r) d).
      { destruct Hc as [Hc|Hc].
        - destruct (covered c Hc) as (r & d & Hr & Hd & ->). exists r, d. auto.
        - destruct (covered _ Hc) as (r & d & Hr & Hd & Ed). exists r, (move e (-1) d). split; [exact Hr|]. split.
          + right. rewrite move_move. change (-1 + 1) with 0. 
            assert (E0 : move e 0 d = d) by (apply at3_eq; intros k Hk; rewrite <- !coord_at3, coord_move by (apply dir3; lia); destruct (k =? e); lia).
            now rewrite E0.
          + rewrite move_shifted by lia. rewrite <- Ed, move_move. change (1 + -1) with 0.
            apply at3_eq; intros k Hk; rewrite <- !coord_at3, coord_move by (apply dir3; lia); destruct (k =? e); lia. }
      destruct F as (r & d & Hr & Hd & ->). rewrite <- (block_face r d e Hr He Hd).
      apply Rle_trans with (w r e); [|now apply M1]. specialize (Hw r Hr e He). cbv zeta in Hw.
      apply Hw. rewrite !In. exact Hd.
Qed.
End OneFlux.
End R.
