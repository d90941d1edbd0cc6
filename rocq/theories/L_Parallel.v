(** Exchanged blocks agree with the global volume wherever a flux looks. *)
From Coq Require Import ZArith Reals List Bool Lia Lra.
From Verif Require Import M_Base M_Vec M_Boundary M_Flux M_Sim M_Mpi M_Parallel S_Boundary S_Flux S_Sim S_Mpi
  S_Sum S_Parallel L_Base L_Loops L_Boundary L_Flux L_System L_Sum L_Conserve L_FluxTop L_Sim L_SimTop
  L_Decomp L_Exchange L_Match.
Import ListNotations.
Open Scope Z_scope.

Lemma dir3 k : dir k <-> 0 <= k < 3.
Proof. unfold dir. lia. Qed.
Lemma coord_at3 k c : coord k c = at3 c k.
Proof. destruct c as [[x y] z]. reflexivity. Qed.
Lemma nvec_at3 n k : dir k -> nvec (at3 n 0) (at3 n 1) (at3 n 2) k = at3 n k.
Proof. intros Hk. destruct n as [[x y] z]. dcase Hk; reflexivity. Qed.
Lemma shifted_at a c k : 0 <= k < 3 -> at3 (shifted a c) k = at3 a k + at3 c k.
Proof. intros H. unfold shifted. k3case H; reflexivity. Qed.

Lemma interior3_inner dims g n c : 1 <= dims <= 3 -> interior3 dims g n c <-> inner dims g n c.
Proof.
  intros Hd. unfold interior3. rewrite interior_iff by lia. unfold inner, ilo, ihi. split; intros H k Hk.
  - specialize (H k (proj2 (dir3 k) Hk)). rewrite nvec_at3, coord_at3 in H by now apply dir3.
    destruct (k <? dims); lia.
  - specialize (H k (proj1 (dir3 k) Hk)). rewrite nvec_at3, coord_at3 by exact Hk.
    destruct (k <? dims); lia.
Qed.

Lemma masked_coord mpi im dims g n c k : 1 <= dims -> 0 <= k < 3 ->
  at3 (image_masked mpi im dims g (at3 n 0) (at3 n 1) (at3 n 2) c) k =
  if k <? dims then masked (mpi (2 * k)) (mpi (2 * k + 1)) im g (at3 n k) (at3 c k) else at3 c k.
Proof.
  intros Hd Hk. destruct c as [[x y] z]. unfold image_masked. k3case Hk.
  - rewrite (proj2 (Z.ltb_lt 0 dims)) by lia. reflexivity.
  - change (at3 (x, y, z) 1) with y. destruct (1 <? dims); reflexivity.
  - change (at3 (x, y, z) 2) with z. destruct (2 <? dims); reflexivity.
Qed.
Lemma image_at im dims g n c k : 1 <= dims -> 0 <= k < 3 ->
  at3 (image im dims g (at3 n 0) (at3 n 1) (at3 n 2) c) k =
  if k <? dims then im g (at3 n k) (at3 c k) else at3 c k.
Proof.
  intros Hd Hk. rewrite <- coord_at3, image_coord by (try lia; now apply dir3).
  rewrite nvec_at3, coord_at3 by now apply dir3. reflexivity.
Qed.

Lemma at3_eq c c' : (forall k, 0 <= k < 3 -> at3 c k = at3 c' k) -> c = c'.
Proof. intros H. apply coord_ext. intros k Hk. rewrite !coord_at3. apply H. now apply dir3. Qed.

Lemma in_volume3 dims g n c : 1 <= dims <= 3 ->
  in_volume dims g (at3 n 0) (at3 n 1) (at3 n 2) c <->
  forall k, 0 <= k < 3 -> 0 <= at3 c k < at3 n k + (if k <? dims then 2 * g else 0).
Proof.
  intros Hd. destruct c as [[x y] z]. unfold in_volume. split.
  - intros (H1 & H2 & H3) k Hk. k3case Hk.
    + rewrite (proj2 (Z.ltb_lt 0 dims)) by lia. change (at3 (x, y, z) 0) with x. lia.
    + change (at3 (x, y, z) 1) with y. destruct (1 <? dims); lia.
    + change (at3 (x, y, z) 2) with z. destruct (2 <? dims); lia.
  - intros H. pose proof (H 0 ltac:(lia)) as H0. pose proof (H 1 ltac:(lia)) as H1. pose proof (H 2 ltac:(lia)) as H2.
    change (at3 (x, y, z) 0) with x in H0. change (at3 (x, y, z) 1) with y in H1. change (at3 (x, y, z) 2) with z in H2.
    rewrite (proj2 (Z.ltb_lt 0 dims)) in H0 by lia.
    destruct (1 <? dims); destruct (2 <? dims); lia.
Qed.

Lemma side_type_not_mpi b : side_type b <> MPI_BC.
Proof. destruct b; discriminate. Qed.

Lemma some_eq {A} (a b : A) : Some a = Some b -> a = b.
Proof. congruence. Qed.

Section P.
Context {V : cvars} {St : storage V}.
Variables (b : bckind) (p : cell) (gr : grid) (junk : Z -> Z -> Z) (dims g nvars : Z).
Variables (lgs : Z -> grid) (nbs : Z -> Z -> Z).
Hypothesis Hfit : S_Mpi.fits p (gr_cells gr) dims g.
Hypothesis Hbcs : forall s, gr_bc gr s = side_type b.
Hypothesis Hdet : determined V nvars.
Notation np := (processes p).
Notation N := (gr_cells gr).
Notation n := (per3 p (gr_cells gr)).
Hypothesis Hdec : forall r, 0 <= r < np -> decompose p gr r (junk r) = Ok (lgs r, nbs r).
Let Hdims : 1 <= dims <= 3 := proj1 Hfit.

Lemma Hpaired : paired (gr_bc gr).
Proof. intros d _. rewrite !Hbcs. tauto. Qed.

Lemma block_at r : 0 <= r < np -> block_of p gr r (junk r) (lgs r) (nbs r).
Proof.
  intros Hr.
  destruct (decompose_ok p gr r (junk r) (proj1 (proj2 (proj2 Hfit))) (cells_pos p gr dims g Hfit)
    (proj1 (proj2 (proj2 (proj2 Hfit)))) Hr) as (lg & nb & E & B).
  rewrite Hdec in E by exact Hr. injection E as <- <-. exact B.
Qed.
Lemma cells_at r : 0 <= r < np -> gr_cells (lgs r) = n.
Proof. intros Hr. apply (block_at r Hr). Qed.
Lemma start_at r k : 0 <= r < np -> 0 <= k < 3 ->
  at3 (gr_start (lgs r)) k = at3 n k * at3 (get_coordinates r p) k.
Proof.
  intros Hr Hk. destruct (block_at r Hr) as (_ & B & _). rewrite B by exact Hk. now rewrite at3_per3.
Qed.
Lemma side_at r s : 0 <= r < np -> 0 <= s < 2 * dims ->
  nbs r s = nb_at p gr r s /\ gr_bc (lgs r) s = bc_of p (gr_bc gr) (get_coordinates r p) s.
Proof.
  intros Hr Hs. destruct (block_at r Hr) as (_ & _ & _ & _ & _ & _ & B & _).
  rewrite (act_dims p gr dims g Hfit) in B. apply B. exact Hs.
Qed.

(** Two cells of the global volume with the same image. *)
Notation imN := (image (bc_image b) dims g (at3 N 0) (at3 N 1) (at3 N 2)).
Notation inN := (in_volume dims g (at3 N 0) (at3 N 1) (at3 N 2)).
Notation inn := (in_volume dims g (at3 n 0) (at3 n 1) (at3 n 2)).
Notation imn r := (image_masked (mpi_sides (lgs r)) (bc_image b) dims g (at3 n 0) (at3 n 1) (at3 n 2)).

Section Fill.
Variables (U : vol V) (l l2 : Z -> vol V).
Hypothesis HU : forall c, inN c -> vget U c = vget U (imN c).
Hypothesis Hl : forall r, 0 <= r < np -> ext3 dims g n (l r).
Hypothesis Hfill : forall r c, 0 <= r < np -> inn c -> vget (l r) c = vget (l r) (imn r c).
Hypothesis Hdist : distributed dims g np lgs (vget U) (fun r => vget (l r)).
Hypothesis Hex : exchange_volumes p gr junk g nvars np l l2.

Lemma addr_of r c : 0 <= r < np -> forall v : vol V, vnx v = vnx (l r) -> vny v = vny (l r) ->
  vget v c = vdat v (addr (volume_size n g) c).
Proof.
  intros Hr v Ex Ey. destruct c as [[x y] z]. unfold vget, addr. rewrite Ex, Ey.
  destruct (Hl r Hr) as (E1 & E2 & _). rewrite E1, E2.
  rewrite (vol_size p gr dims g Hfit 0), (vol_size p gr dims g Hfit 1) by lia.
  rewrite (proj2 (Z.ltb_lt 0 dims)) by lia. destruct (1 <? dims); reflexivity.
Qed.

Lemma after_exchange r : 0 <= r < np ->
  ext3 dims g n (l2 r) /\
  (forall c, inner dims g n c -> vget (l2 r) c = vget (l r) c) /\
  (forall s c q, face_ghost dims g n s c -> beyond p (gr_bc gr) (get_coordinates r p) s = Some q ->
     vget (l2 r) c = vget (l (get_rank_index q p)) (opposite_cell n s c)) /\
  (forall s c, face_ghost dims g n s c -> beyond p (gr_bc gr) (get_coordinates r p) s = None ->
     vget (l2 r) c = vget (l r) c).
Proof.
  intros Hr. destruct Hex as (m' & X & Hm). destruct (Hm r Hr) as (D1 & D2 & D3 & Hv).
  split. { destruct (Hl r Hr) as (E1 & E2 & E3). split; [|split]; congruence. }
  assert (Nn : forall k, 0 <= k < 3 -> 1 <= at3 n k)
    by (intros k Hk; apply (n_spec p gr dims g Hfit k Hk)).
  assert (G : forall k, 0 <= k < dims -> g <= at3 n k).
  { intros k Hk. assert (0 <= k < 3) by lia. apply (n_spec p gr dims g Hfit k); lia. }
  rewrite (world_messages p gr junk dims g nvars Hfit) in X.
  pose proof (fun v Hv0 => exchange_result dims g nvars np (volume_size n g) (nb_at p gr)
    (proj1 Hfit) (nb_sym p gr dims g Hfit Hpaired) n Nn (vol_size p gr dims g Hfit)
    (fun k Hk Hl => proj1 (proj2 (n_spec p gr dims g Hfit k Hk)) Hl) G (proj1 (proj2 Hfit)) (memory_of l) m' X r v Hr Hv0)
    as Res.
  split; [|split].
  - intros c Hc. rewrite (addr_of r c Hr (l2 r)), (addr_of r c Hr (l r)) by (auto; congruence).
    apply Hdet. intros i Hi. rewrite Hv by exact Hi. apply (Res i Hi). exact Hc.
  - intros s c q Hc Eq.
    assert (H6 : 0 <= s < 6) by (pose proof (proj1 Hc); lia).
    destruct (index_of_coords r p (proj1 (proj2 (proj2 Hfit))) Hr) as (Gr & _).
    pose proof (index_range q p (beyond_in _ _ _ _ _ Gr H6 Eq)) as Rq.
    assert (Enb : nb_at p gr r s = get_rank_index q p) by (unfold nb_at, nb_of; now rewrite Eq).
    rewrite (addr_of r c Hr (l2 r)) by (auto; congruence).
    rewrite (addr_of (get_rank_index q p) (opposite_cell n s c) Rq (l (get_rank_index q p))) by auto.
    apply Hdet. intros i Hi. rewrite Hv by exact Hi.
    destruct (Res i Hi) as (_ & R2 & _). rewrite (R2 s c Hc) by lia. rewrite Enb. reflexivity.
  - intros s c Hc Eq. rewrite (addr_of r c Hr (l2 r)), (addr_of r c Hr (l r)) by (auto; congruence).
    apply Hdet. intros i Hi. rewrite Hv by exact Hi.
    destruct (Res i Hi) as (_ & _ & R3). apply (R3 s c Hc). unfold nb_at, nb_of. rewrite Eq. lia.
Qed.

Lemma N_full k : 0 <= k < 3 -> at3 N k = at3 n k * at3 p k.
Proof. apply (n_full p gr dims g Hfit). Qed.
Lemma pos_at r k : 0 <= r < np -> 0 <= k < 3 -> 0 <= at3 (get_coordinates r p) k < at3 p k.
Proof.
  intros Hr Hk. apply (index_of_coords r p (proj1 (proj2 (proj2 Hfit))) Hr). exact Hk.
Qed.

(** Cells of the global volume with the same image hold the same value. *)
Lemma U_same c c' : inN c -> inN c' ->
  (forall k, 0 <= k < dims -> bc_image b g (at3 N k) (at3 c k) = bc_image b g (at3 N k) (at3 c' k)) ->
  (forall k, dims <= k < 3 -> at3 c k = at3 c' k) ->
  vget U c = vget U c'.
Proof.
  intros Hc Hc' H1 H2. rewrite (HU c Hc), (HU c' Hc'). f_equal. apply at3_eq. intros k Hk.
  rewrite !image_at by lia. destruct (Z.ltb_spec k dims); [apply H1|apply H2]; lia.
Qed.

(** A cell of a block with its ghost cells lies in the global volume. *)
Lemma shifted_in r c : 0 <= r < np -> inn c -> inN (shifted (gr_start (lgs r)) c).
Proof.
  intros Hr Hc. apply in_volume3; [exact Hdims|]. intros k Hk.
  apply in_volume3 with (k := k) in Hc; [|exact Hdims|exact Hk].
  rewrite shifted_at, start_at by assumption. rewrite (N_full k Hk).
  pose proof (pos_at r k Hr Hk). pose proof (n_spec p gr dims g Hfit k Hk) as (N1 & _).
  destruct (k <? dims); nia.
Qed.

Lemma inner_inn c : inner dims g n c -> inn c.
Proof.
  intros H. apply in_volume3; [exact Hdims|]. intros k Hk. specialize (H k Hk).
  pose proof (proj1 (proj2 Hfit)). destruct (k <? dims); lia.
Qed.
Lemma face_inn s c : face_ghost dims g n s c -> inn c.
Proof.
  intros (Hs & H1 & H2). assert (H6 : 0 <= s < 6) by lia.
  destruct (side_split s H6) as (_ & Hd & _ & Es). pose proof (proj1 (proj2 Hfit)).
  apply in_volume3; [exact Hdims|]. intros k Hk.
  destruct (Z.eq_dec k (side_dir s)) as [->|Hn].
  - pose proof (n_spec p gr dims g Hfit (side_dir s) Hd) as (N1 & _).
    destruct (Z.ltb_spec (side_dir s) dims); [|destruct (side_low s); lia].
    destruct (side_low s); lia.
  - specialize (H2 k Hk Hn). destruct (k <? dims); lia.
Qed.

(** One direction at a time: the ghost cell of a side of the whole grid. *)
Lemma mirror_step nn pp pos t (low : bool) :
  0 <= g -> 1 <= nn -> g <= nn -> 1 <= pp ->
  (if low then 0 <= t < g /\ pos = 0 else g + nn <= t < g + nn + g /\ pos = pp - 1) ->
  mirror1 g (nn * pp) (nn * pos + mirror1 g nn t) = mirror1 g (nn * pp) (nn * pos + t).
Proof.
  intros H0 H1 H2 H3 H. destruct low; destruct H as (H & ->); unfold mirror1.
  - rewrite (proj2 (Z.ltb_lt t g)) by lia. rewrite Z.mul_0_r, !Z.add_0_l.
    rewrite (proj2 (Z.ltb_lt t g)) by lia.
    rewrite (proj2 (Z.ltb_ge (2 * g - 1 - t) g)) by lia.
    rewrite (proj2 (Z.leb_gt (g + nn * pp) (2 * g - 1 - t))) by nia. reflexivity.
  - rewrite (proj2 (Z.ltb_ge t g)) by lia. rewrite (proj2 (Z.leb_le (g + nn) t)) by lia.
    assert (0 <= nn * (pp - 1)) by nia.
    assert (nn * pp = nn * (pp - 1) + nn) as E by ring. rewrite E. set (a := nn * (pp - 1)) in *.
    rewrite (proj2 (Z.ltb_ge (a + (2 * (g + nn) - 1 - t)) g)) by lia.
    rewrite (proj2 (Z.leb_gt (g + (a + nn)) (a + (2 * (g + nn) - 1 - t)))) by lia.
    rewrite (proj2 (Z.ltb_ge (a + t) g)) by lia.
    rewrite (proj2 (Z.leb_le (g + (a + nn)) (a + t))) by lia. lia.
Qed.

Lemma bc_idem nn t : 0 <= g -> 1 <= nn -> g <= nn -> 0 <= t < nn + 2 * g ->
  bc_image b g nn (bc_image b g nn t) = bc_image b g nn t.
Proof.
  intros H0 H1 H2 H3. destruct b; simpl.
  - apply periodic1_mid. apply periodic1_range. lia.
  - apply mirror1_mid. apply mirror1_range; lia.
Qed.

Lemma bc_mod nn t t' q : 1 <= nn -> t' = t + q * nn -> periodic1 g nn t = periodic1 g nn t'.
Proof.
  intros H ->. unfold periodic1. f_equal. replace (t + q * nn - g) with (t - g + q * nn) by ring.
  now rewrite Z_mod_plus_full.
Qed.

Lemma face_agrees r s c : 0 <= r < np -> face_ghost dims g n s c ->
  vget (l2 r) c = vget U (shifted (gr_start (lgs r)) c).
Proof.
  intros Hr Hf. pose proof Hf as (Hs & H1 & H2). assert (H6 : 0 <= s < 6) by lia.
  destruct (side_split s H6) as (_ & Hd & _ & Es). pose proof (proj1 (proj2 Hfit)) as Hg.
  assert (Hdd : side_dir s < dims) by (destruct (side_low s); lia).
  pose proof (n_spec p gr dims g Hfit (side_dir s) Hd) as (N1 & _ & N2 & _). specialize (N2 Hdd).
  pose proof (proj1 (proj2 (proj2 Hfit)) (side_dir s) Hd) as P1.
  destruct (after_exchange r Hr) as (_ & _ & A2 & A3).
  pose proof (pos_at r (side_dir s) Hr Hd) as Pr.
  destruct (beyond p (gr_bc gr) (get_coordinates r p) s) as [q|] eqn:Eq.
  - (* a neighbour *)
    destruct (index_of_coords r p (proj1 (proj2 (proj2 Hfit))) Hr) as (Gr & _).
    pose proof (beyond_in _ _ _ _ _ Gr H6 Eq) as Gq.
    pose proof (index_range q p Gq) as Rq.
    rewrite (A2 s c q Hf Eq).
    assert (G : forall k, 0 <= k < dims -> g <= at3 n k).
    { intros k Hk. assert (0 <= k < 3) by lia. apply (n_spec p gr dims g Hfit k); lia. }
    pose proof (opposite_inner dims g Hdims n G s c Hf) as Hin.
    rewrite (Hdist (get_rank_index q p) (opposite_cell n s c) Rq)
      by (rewrite cells_at by exact Rq; now apply interior3_inner).
    apply U_same.
    + apply shifted_in; [exact Rq|now apply inner_inn].
    + apply shifted_in; [exact Hr|now apply (face_inn s)].
    + intros k Hk. rewrite !shifted_at, !start_at by (auto; lia).
      rewrite (coords_of_index q p Gq). unfold opposite_cell. rewrite at3_set3 by (auto; lia).
      rewrite (N_full k) by lia.
      destruct (Z.eqb_spec k (side_dir s)) as [->|Hn].
      * unfold beyond in Eq.
        destruct ((0 <=? at3 (get_coordinates r p) (side_dir s) + step_of s)
          && (at3 (get_coordinates r p) (side_dir s) + step_of s <? at3 p (side_dir s))) eqn:E1.
        -- apply some_eq in Eq. rewrite <- Eq, at3_set3, Z.eqb_refl by auto. f_equal.
           unfold step_of. destruct (side_low s); ring.
        -- rewrite Hbcs in Eq. destruct b; cbn [side_type] in Eq; [|discriminate].
           destruct (Z.eqb_spec (at3 p (side_dir s)) 1) as [|Np]; [discriminate|].
           apply some_eq in Eq. rewrite <- Eq, at3_set3, Z.eqb_refl by auto. cbn [bc_image].
           set (pp := at3 p (side_dir s)) in *. set (pos := at3 (get_coordinates r p) (side_dir s)) in *.
           set (nn := at3 n (side_dir s)) in *.
           apply andb_false_iff in E1. rewrite Z.leb_gt, Z.ltb_ge in E1.
           unfold step_of in *. destruct (side_low s).
           ++ assert (pos = 0) by lia. assert (Em : (pos + -1) mod pp = pp - 1).
              { symmetry. apply (Z.mod_unique_pos _ _ (-1)); lia. }
              rewrite Em. apply bc_mod with (q := -1); [nia|]. rewrite H. ring.
           ++ assert (pos = pp - 1) by lia. assert (Em : (pos + 1) mod pp = 0).
              { replace (pos + 1) with pp by lia. apply Z_mod_same_full. }
              rewrite Em. apply bc_mod with (q := 1); [nia|]. rewrite H. ring.
      * assert (Ek : at3 q k = at3 (get_coordinates r p) k); [|now rewrite Ek]. unfold beyond in Eq.
        destruct ((0 <=? at3 (get_coordinates r p) (side_dir s) + step_of s)
          && (at3 (get_coordinates r p) (side_dir s) + step_of s <? at3 p (side_dir s))) eqn:E1.
        -- apply some_eq in Eq. rewrite <- Eq, at3_set3 by (auto; lia). destruct (Z.eqb_spec k (side_dir s)); [lia|reflexivity].
        -- destruct (gr_bc gr s); try discriminate. destruct (at3 p (side_dir s) =? 1); [discriminate|].
           apply some_eq in Eq. rewrite <- Eq, at3_set3 by (auto; lia). destruct (Z.eqb_spec k (side_dir s)); [lia|reflexivity].
    + intros k Hk. rewrite !shifted_at, !start_at by (auto; lia).
      unfold opposite_cell. rewrite at3_set3 by (auto; lia).
      destruct (Z.eqb_spec k (side_dir s)) as [->|Hn]; [lia|].
      pose proof (p_flat p gr dims g Hfit k) as Pf. specialize (Pf ltac:(lia) ltac:(lia)).
      pose proof (pos_at r k Hr ltac:(lia)). pose proof (pos_at (get_rank_index q p) k Rq ltac:(lia)).
      assert (at3 (get_coordinates (get_rank_index q p) p) k = 0) as -> by lia.
      assert (at3 (get_coordinates r p) k = 0) as -> by lia. reflexivity.
  - (* a side of the whole grid *)
    rewrite (A3 s c Hf Eq). pose proof (face_inn s c Hf) as Hin.
    rewrite (Hfill r c Hr Hin).
    assert (Mk : mpi_sides (lgs r) s = false).
    { unfold mpi_sides. destruct (side_at r s Hr Hs) as (_ & ->). unfold bc_of. rewrite Eq, Hbcs. now destruct b. }
    assert (Im : forall k, 0 <= k < 3 -> at3 (imn r c) k =
       if k =? side_dir s then bc_image b g (at3 n k) (at3 c k) else at3 c k).
    { intros k Hk. rewrite masked_coord by lia. destruct (Z.eqb_spec k (side_dir s)) as [->|Hn].
      - rewrite (proj2 (Z.ltb_lt _ _)) by exact Hdd. unfold masked.
        destruct (side_low s).
        + replace (2 * side_dir s) with s by lia. rewrite Mk. cbn [andb orb].
          rewrite (proj2 (Z.leb_gt _ _)) by lia. rewrite andb_false_r. reflexivity.
        + rewrite <- Es. rewrite Mk. rewrite (proj2 (Z.ltb_ge _ _)) by lia. rewrite andb_false_r. reflexivity.
      - specialize (H2 k Hk Hn). destruct (k <? dims); [|reflexivity].
        unfold masked. destruct (_ || _); [reflexivity|].
        destruct b; cbn [bc_image]; [now apply periodic1_mid|now apply mirror1_mid]. }
    assert (Hi : inner dims g n (imn r c)).
    { intros k Hk. rewrite Im by exact Hk. destruct (Z.eqb_spec k (side_dir s)) as [->|Hn].
      - rewrite (proj2 (Z.ltb_lt _ _)) by exact Hdd.
        apply in_volume3 with (k := side_dir s) in Hin; [|exact Hdims|exact Hd].
        rewrite (proj2 (Z.ltb_lt _ _)) in Hin by exact Hdd.
        destruct b; cbn [bc_image]; [apply periodic1_range; lia|apply mirror1_range; lia].
      - apply H2; auto. }
    rewrite (Hdist r (imn r c) Hr) by (rewrite cells_at by exact Hr; now apply interior3_inner).
    apply U_same.
    + apply shifted_in; [exact Hr|now apply inner_inn].
    + apply shifted_in; [exact Hr|exact Hin].
    + intros k Hk. rewrite !shifted_at, !start_at by (auto; lia). rewrite Im by lia.
      destruct (Z.eqb_spec k (side_dir s)) as [->|Hn]; [|reflexivity].
      rewrite (N_full (side_dir s) Hd).
      apply in_volume3 with (k := side_dir s) in Hin; [|exact Hdims|exact Hd].
      rewrite (proj2 (Z.ltb_lt _ _)) in Hin by exact Hdd.
      unfold beyond in Eq. rewrite Hbcs in Eq.
      set (pp := at3 p (side_dir s)) in *. set (pos := at3 (get_coordinates r p) (side_dir s)) in *.
      set (nn := at3 n (side_dir s)) in *. set (t := at3 c (side_dir s)) in *.
      destruct ((0 <=? pos + step_of s) && (pos + step_of s <? pp)) eqn:E1; [discriminate|].
      apply andb_false_iff in E1. rewrite Z.leb_gt, Z.ltb_ge in E1.
      destruct (Z.eq_dec pp 1) as [E|Np].
      * assert (pos = 0) as -> by lia. rewrite E, Z.mul_1_r, Z.mul_0_r, !Z.add_0_l. apply bc_idem; lia.
      * destruct b; cbn [side_type bc_image] in *.
        { destruct (Z.eqb_spec pp 1); [lia|discriminate]. }
        apply (mirror_step nn pp pos t (side_low s)); try lia.
        unfold step_of in E1. destruct (side_low s); lia.
    + intros k Hk. rewrite !shifted_at by lia. rewrite Im by lia.
      destruct (Z.eqb_spec k (side_dir s)); [lia|reflexivity].
Qed.

(** Everything a flux of an interior cell looks at. *)
Lemma star_agrees r c e j : 0 <= r < np -> inner dims g n c -> 0 <= e < dims -> - g <= j <= g ->
  vget (l2 r) (move e j c) = vget U (shifted (gr_start (lgs r)) (move e j c)).
Proof.
  intros Hr Hc He Hj. assert (He3 : 0 <= e < 3) by lia.
  assert (M : forall k, 0 <= k < 3 -> at3 (move e j c) k = at3 c k + (if k =? e then j else 0)).
  { intros k Hk. rewrite <- !coord_at3. apply coord_move; now apply dir3. }
  pose proof (Hc e He3) as Ce. rewrite (proj2 (Z.ltb_lt e dims)) in Ce by lia.
  assert (Rest : forall k, 0 <= k < 3 -> k <> e ->
    if k <? dims then g <= at3 (move e j c) k < g + at3 n k else 0 <= at3 (move e j c) k < at3 n k).
  { intros k Hk Hn. rewrite M by exact Hk. destruct (Z.eqb_spec k e); [contradiction|].
    rewrite Z.add_0_r. apply (Hc k Hk). }
  assert (Me := M e He3). rewrite Z.eqb_refl in Me.
  destruct (Z_lt_ge_dec (at3 (move e j c) e) g) as [Lo|Lo]; [|destruct (Z_lt_ge_dec (at3 (move e j c) e) (g + at3 n e)) as [Hi|Hi]].
  - apply (face_agrees r (2 * e)); [exact Hr|].
    assert (Sd : side_dir (2 * e) = e) by (unfold side_dir; rewrite Z.mul_comm; apply Z.div_mul; lia).
    assert (Sl : side_low (2 * e) = true) by (unfold side_low; rewrite Z.even_mul; reflexivity).
    split; [lia|]. rewrite Sd, Sl. split; [lia|exact Rest].
  - assert (Hin : inner dims g n (move e j c)).
    { intros k Hk. destruct (Z.eq_dec k e) as [->|Hn]; [|apply Rest; auto].
      rewrite (proj2 (Z.ltb_lt e dims)) by lia. lia. }
    destruct (after_exchange r Hr) as (_ & A1 & _). rewrite A1 by exact Hin.
    apply Hdist; [exact Hr|]. rewrite cells_at by exact Hr. now apply interior3_inner.
  - apply (face_agrees r (2 * e + 1)); [exact Hr|].
    assert (Sd : side_dir (2 * e + 1) = e) by (unfold side_dir; rewrite Z.mul_comm, Z.div_add_l by lia; change (1 / 2) with 0; lia).
    assert (Sl : side_low (2 * e + 1) = false) by (unfold side_low; rewrite Z.even_add, Z.even_mul; reflexivity).
    split; [lia|]. rewrite Sd, Sl. split; [lia|exact Rest].
Qed.

Lemma move_shifted a e j c : 0 <= e < 3 -> shifted a (move e j c) = move e j (shifted a c).
Proof.
  intros He. apply at3_eq. intros k Hk. rewrite shifted_at by exact Hk.
  rewrite <- !coord_at3, !coord_move by (now apply dir3). rewrite !coord_at3, shifted_at by exact Hk. lia.
Qed.
End Fill.
End P.
