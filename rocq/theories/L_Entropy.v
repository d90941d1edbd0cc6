(** Summation by parts on a periodic grid. *)
From Coq Require Import ZArith Reals List Bool Lia Lra.
From Verif Require Import M_Base M_Vec M_Boundary M_Flux M_Combined S_Boundary S_Flux S_Sum S_Entropy L_Base L_Loops
  L_Boundary L_Flux L_System L_Sum L_Conserve.
Import ListNotations.
Open Scope Z_scope.

Section P.
Context {V : cvars}.
Variables (dims g nx ny nz : Z).
Hypothesis Hdims : 1 <= dims <= 3.
Hypothesis Hg : 1 <= g.
Hypothesis (Hx : 0 < nx) (Hy : 0 < ny) (Hz : 0 < nz).
Hypothesis (Gx : g <= nx) (Gy : 1 < dims -> g <= ny) (Gz : 2 < dims -> g <= nz).
Variable u : cell -> V.
Hypothesis Hp : forall c, in_volume dims g nx ny nz c -> u c = u (image periodic1 dims g nx ny nz c).

(** A cell on the low side of the interior in direction d. *)
Definition low_cell d c :=
  (forall k, dir k -> k <> d -> ilo dims g k <= coord k c < ihi dims g (nvec nx ny nz) k) /\
  coord d c = ilo dims g d - 1.

Lemma nvec_g d : 0 <= d < dims -> g <= nvec nx ny nz d.
Proof.
  intros Hd. unfold nvec. destruct (Z.eqb_spec d 0); [assumption|].
  destruct (Z.eqb_spec d 1); [apply Gy; lia|apply Gz; lia].
Qed.

Lemma move_in_volume d c t : 0 <= d < dims -> low_cell d c -> - (g - 1) <= t < nvec nx ny nz d + g + 1 ->
  in_volume dims g nx ny nz (move d t c).
Proof.
  intros Hd (Hc & Hcd) Ht. assert (Dd : dir d) by (unfold dir; lia).
  assert (Ld : ilo dims g d = g) by (unfold ilo; destruct (Z.ltb_spec d dims); lia).
  apply (in_volume_iff (mkvol (nx + 2 * g) (if 1 <? dims then ny + 2 * g else ny)
             (if 2 <? dims then nz + 2 * g else nz) (fun _ : Z => 0))); [lia|repeat split|].
  apply inr_iff. intros k Hk.
  rewrite (total_extents _ dims g nx ny nz k) by (repeat split; auto; lia).
  rewrite coord_move by auto. destruct (Z.eqb_spec k d) as [->|Nk].
  - destruct (Z.ltb_spec d dims); lia.
  - specialize (Hc k Hk Nk). unfold ilo, ihi in Hc. destruct (k <? dims); lia.
Qed.

Lemma shift_periodic d c s : 0 <= d < dims -> low_cell d c -> - (g - 1) <= s <= g ->
  u (move d (nvec nx ny nz d + s) c) = u (move d s c).
Proof.
  intros Hd Hc Hs. assert (Dd : dir d) by (unfold dir; lia). pose proof (nvec_g d Hd) as HN.
  assert (Dm : d <? dims = true) by (apply Z.ltb_lt; lia).
  rewrite (Hp (move d (_ + s) c)) by (apply move_in_volume; auto; lia).
  rewrite (Hp (move d s c)) by (apply move_in_volume; auto; lia). f_equal.
  apply coord_ext. intros k Hk. rewrite !image_coord by (auto; lia).
  rewrite !coord_move by auto.
  destruct (Z.eqb_spec k d) as [->|Nk]; [|reflexivity].
  rewrite Dm. unfold periodic1. f_equal. set (N := nvec nx ny nz d) in *.
  replace (coord d c + (N + s) - g) with (coord d c + s - g + 1 * N) by ring.
  apply Z.mod_add. lia.
Qed.

(** Differences of a quantity that depends on the field near a face sum to
    zero. *)
Lemma telescope_periodic d (K : cell -> R) : 0 <= d < dims ->
  (forall c, low_cell d c -> K (move d (nvec nx ny nz d) c) = K c) ->
  isum dims g (nvec nx ny nz) (fun c => (K (move d (-1) c) - K c)%R) = 0%R.
Proof.
  intros Hd HK. assert (Dd : dir d) by (unfold dir; lia). unfold isum.
  rewrite sum3_telescope.
  - rewrite (sum3_faces_eq _ _ d _ (nvec nx ny nz d)); [ring|exact Dd| |].
    + unfold ilo, ihi. destruct (Z.ltb_spec d dims); lia.
    + intros c H1 H2. apply HK. split; assumption.
  - exact Dd.
  - pose proof (nvec_g d Hd). unfold ilo, ihi. destruct (d <? dims); lia.
Qed.

Variable v : V -> V -> R.
Hypothesis Hv : forall w, linear (v w).
Lemma v_add w x y : v w (vadd x y) = (v w x + v w y)%R.
Proof. apply Hv. Qed.
Lemma v_scal w a x : v w (vscal a x) = (a * v w x)%R.
Proof. apply Hv. Qed.
Lemma v_zero w : v w vzero = 0%R.
Proof. apply Hv. Qed.
Notation n := (nvec nx ny nz).

(** An entropy balance direction by direction. *)
Lemma entropy_by_direction (fx : numflux V) rc (K : Z -> cell -> R) :
  (forall d c, 0 <= d < dims -> interior dims g nx ny nz c ->
     (v (u c) (fst (iface fx rc d u (move d (-1) c))) - v (u c) (fst (iface fx rc d u c))
      = K d (move d (-1) c) - K d c)%R) ->
  (forall d c, 0 <= d < dims -> low_cell d c -> K d (move d (n d) c) = K d c) ->
  entropy_rate dims g v fx rc n u = 0%R.
Proof.
  intros H1 H2. unfold entropy_rate.
  rewrite (isum_ext dims g n _ (fun c => fold_right Rplus 0%R (map (fun d => (K d (move d (-1) c) - K d c)%R) (zrange 0 dims)))).
  - assert (Hl : forall d, In d (zrange 0 dims) -> 0 <= d < dims).
    { intros d Hd. now apply zrange_In in Hd. }
    induction (zrange 0 dims) as [|d l IH]; cbn [map fold_right].
    + unfold isum. apply sum3_zero.
    + unfold isum in *. rewrite sum3_plus. rewrite IH by (intros; apply Hl; now right).
      assert (Hd : 0 <= d < dims) by (apply Hl; now left).
      pose proof (telescope_periodic d (K d) Hd (fun c => H2 d c Hd)) as HT. unfold isum in HT.
      rewrite HT. ring.
  - intros c Hc. assert (Hi : interior dims g nx ny nz c) by (apply interior_iff; [lia|exact Hc]).
    unfold rhs.
    assert (Hl : forall d, In d (zrange 0 dims) -> 0 <= d < dims).
    { intros d Hd. now apply zrange_In in Hd. }
    assert (G : forall l a, (forall d, In d l -> 0 <= d < dims) ->
      v (u c) (fold_left (fun a d =>
      vadd a (vadd (fst (iface fx rc d u (move d (-1) c)))
                   (vscal (-1) (fst (iface fx rc d u c))))) l a) =
      (v (u c) a + fold_right Rplus 0 (map (fun d => K d (move d (-1) c) - K d c) l))%R).
    { induction l as [|d l IH]; intros a Hd; cbn [fold_left map fold_right]; [ring|].
      rewrite IH by (intros; apply Hd; now right). rewrite !v_add, v_scal.
      rewrite <- (H1 d c) by (auto; apply Hd; now left). ring. }
    rewrite G, v_zero by assumption. ring.
Qed.

Variable P : V -> Prop.
Hypothesis HP : forall c, interior dims g nx ny nz c -> P (u c).
Variables (psi : Z -> V -> R) (f : Z -> V -> V -> V * R).
Hypothesis Hf : entropy_conservative dims P v psi f.

Lemma image_interior c : in_volume dims g nx ny nz c -> interior dims g nx ny nz (image periodic1 dims g nx ny nz c).
Proof.
  intros Hc. apply interior_iff; [lia|]. intros k Hk. rewrite image_coord by (auto; lia).
  apply (in_volume_iff (mkvol (nx + 2 * g) (if 1 <? dims then ny + 2 * g else ny)
             (if 2 <? dims then nz + 2 * g else nz) (fun _ : Z => 0))) in Hc; [|lia|repeat split].
  rewrite inr_iff in Hc. specialize (Hc k Hk).
  rewrite (total_extents _ dims g nx ny nz k) in Hc by (repeat split; auto; lia).
  unfold ilo, ihi. destruct (k <? dims); [|lia].
  unfold periodic1. assert (0 < nvec nx ny nz k) by (unfold nvec; dcase Hk; simpl; lia).
  pose proof (Z.mod_pos_bound (coord k c - g) (nvec nx ny nz k)). lia.
Qed.
Lemma P_volume c : in_volume dims g nx ny nz c -> P (u c).
Proof. intros H. rewrite Hp by exact H. apply HP. now apply image_interior. Qed.

Lemma interior_move d c t : 0 <= d < dims -> interior dims g nx ny nz c -> - g <= t <= g ->
  in_volume dims g nx ny nz (move d t c).
Proof.
  intros Hd Hc Ht. assert (Dd : dir d) by (unfold dir; lia).
  apply (in_volume_iff (mkvol (nx + 2 * g) (if 1 <? dims then ny + 2 * g else ny)
             (if 2 <? dims then nz + 2 * g else nz) (fun _ : Z => 0))); [lia|repeat split|].
  apply inr_iff. intros k Hk. apply interior_iff with (k := k) in Hc; [|lia|exact Hk].
  rewrite (total_extents _ dims g nx ny nz k) by (repeat split; auto; lia).
  rewrite coord_move by auto. unfold ilo, ihi in Hc. destruct (Z.eqb_spec k d) as [->|Nk].
  - destruct (Z.ltb_spec d dims); lia.
  - destruct (k <? dims); lia.
Qed.

(** F at distance k, from cell c. *)
Definition far (d k : Z) (c : cell) : V := fst (f d (u c) (u (move d k c))).
(** Numerical entropy flux. *)
Definition hh (d k : Z) (c : cell) : R := (v (u c) (far d k c) - psi d (u c))%R.

Lemma far_balance d k c : 0 <= d < dims -> interior dims g nx ny nz c -> 0 <= k <= g ->
  (v (u c) (far d k (move d (- k) c)) - v (u c) (far d k c)
   = hh d k (move d (- k) c) - hh d k c)%R.
Proof.
  intros Hd Hc Hk. unfold hh. 
  assert (E : far d k (move d (- k) c) = fst (f d (u (move d (-k) c)) (u c))).
  { unfold far. rewrite move_move. replace (- k + k) with 0 by ring.
    f_equal. f_equal. f_equal. destruct c as [[x y] z]. unfold move.
    destruct (d =? 0); [|destruct (d =? 1)]; rewrite Z.add_0_r; reflexivity. }
  rewrite E.
  pose proof (Hf d (u (move d (- k) c)) (u c) Hd) as H.
  specialize (H ltac:(apply P_volume; apply interior_move; auto; lia)
                ltac:(now apply HP)). lra.
Qed.

Lemma move0 d c : move d 0 c = c.
Proof. destruct c as [[x y] z]. unfold move. destruct (d =? 0); [|destruct (d =? 1)]; now rewrite Z.add_0_r. Qed.

Lemma hh_periodic d k c s : 0 <= d < dims -> low_cell d c -> - (g - 1) <= s -> s + k <= g -> 0 <= k ->
  hh d k (move d s (move d (n d) c)) = hh d k (move d s c).
Proof.
  intros Hd Hc Hs Hs' Hk. unfold hh, far. rewrite !move_move.
  replace (n d + s + k) with (n d + (s + k)) by ring.
  rewrite (shift_periodic d c s), (shift_periodic d c (s + k)) by (auto; lia). reflexivity.
Qed.

Lemma hh_periodic0 d k c : 0 <= d < dims -> low_cell d c -> 0 <= k <= g ->
  hh d k (move d (n d) c) = hh d k c.
Proof.
  intros Hd Hc Hk. rewrite <- (move0 d (move d (n d) c)), hh_periodic by (auto; lia). now rewrite move0.
Qed.

Lemma rec_none d c : rec_at no_reconstruction d u c = (u c, u c).
Proof.
  unfold rec_at, no_reconstruction. cbn [rec_fun rec_ghosts]. change (zrange (- (1 - 1)) 1) with [0].
  cbn [map]. now rewrite move0.
Qed.

Theorem entropy_two_point : entropy_rate dims g v (Flux2 f) no_reconstruction n u = 0%R.
Proof.
  apply (entropy_by_direction (Flux2 f) no_reconstruction (fun d c => hh d 1 c)).
  - intros d c Hd Hc. unfold iface. rewrite !rec_none. cbn [fst snd].
    apply (far_balance d 1 c); auto. lia.
  - intros d c Hd Hc. rewrite ?hh_periodic0, ?hh_periodic by (auto; lia). reflexivity.
Qed.

Ltac zn H := cbv [Z.add Z.opp Z.pos_sub Pos.add Pos.pred_double Pos.succ Z.double Z.succ_double Z.pred_double] in H; rewrite ?move0 in H.

Theorem entropy_combined4 : 2 <= g ->
  entropy_rate dims g v (combined4 f) no_reconstruction n u = 0%R.
Proof.
  intros G2.
  apply (entropy_by_direction (combined4 f) no_reconstruction
    (fun d c => 4 / 3 * hh d 1 c - 1 / 6 * (hh d 2 c + hh d 2 (move d (-1) c)))%R).
  - intros d c Hd Hc. unfold iface, combined4. cbn [map]. rewrite !rec_none. cbn [fst snd].
    pose proof (far_balance d 1 c Hd Hc ltac:(lia)) as F1.
    pose proof (far_balance d 2 c Hd Hc ltac:(lia)) as F2.
    assert (E1 : forall s, fst (f d (u (move d s c)) (u (move d (s + 1) c))) = far d 1 (move d s c)).
    { intros s. unfold far. now rewrite move_move. }
    assert (E2 : forall s, fst (f d (u (move d s c)) (u (move d (s + 2) c))) = far d 2 (move d s c)).
    { intros s. unfold far. now rewrite move_move. }
    rewrite ?move_move. rewrite !v_add, !v_scal, !v_add.
    pose proof (E1 0) as A0. pose proof (E1 (-1)) as A1.
    pose proof (E2 0) as B0. pose proof (E2 (-1)) as B1. pose proof (E2 (-2)) as B2.
    zn A0. zn A1. zn B0. zn B1. zn B2. zn F1. zn F2. cbv [Z.add Z.opp Z.pos_sub Pos.add Pos.pred_double Pos.succ Z.double Z.succ_double Z.pred_double]. rewrite ?move0.
    rewrite A0, A1, B0, B1, B2. lra.
  - intros d c Hd Hc. rewrite ?hh_periodic0, ?hh_periodic by (auto; lia). reflexivity.
Qed.

Theorem entropy_combined6 : 3 <= g ->
  entropy_rate dims g v (combined6 f) no_reconstruction n u = 0%R.
Proof.
  intros G2.
  apply (entropy_by_direction (combined6 f) no_reconstruction
    (fun d c => 3 / 2 * hh d 1 c - 3 / 10 * (hh d 2 c + hh d 2 (move d (-1) c))
                + 1 / 30 * (hh d 3 c + hh d 3 (move d (-1) c) + hh d 3 (move d (-2) c)))%R).
  - intros d c Hd Hc. unfold iface, combined6. cbn [map]. rewrite !rec_none. cbn [fst snd].
    pose proof (far_balance d 1 c Hd Hc ltac:(lia)) as F1.
    pose proof (far_balance d 2 c Hd Hc ltac:(lia)) as F2.
    pose proof (far_balance d 3 c Hd Hc ltac:(lia)) as F3.
    assert (E : forall k s, fst (f d (u (move d s c)) (u (move d (s + k) c))) = far d k (move d s c)).
    { intros k s. unfold far. now rewrite move_move. }
    rewrite ?move_move. rewrite !v_add, !v_scal, !v_add.
    pose proof (E 1 0) as A0. pose proof (E 1 (-1)) as A1.
    pose proof (E 2 0) as B0. pose proof (E 2 (-1)) as B1. pose proof (E 2 (-2)) as B2.
    pose proof (E 3 0) as C0. pose proof (E 3 (-1)) as C1. pose proof (E 3 (-2)) as C2. pose proof (E 3 (-3)) as C3.
    zn A0. zn A1. zn B0. zn B1. zn B2. zn C0. zn C1. zn C2. zn C3. zn F1. zn F2. zn F3. cbv [Z.add Z.opp Z.pos_sub Pos.add Pos.pred_double Pos.succ Z.double Z.succ_double Z.pred_double]. rewrite ?move0.
    rewrite A0, A1, B0, B1, B2, C0, C1, C2, C3. lra.
  - intros d c Hd Hc. rewrite ?hh_periodic0, ?hh_periodic by (auto; lia). reflexivity.
Qed.
End P.
