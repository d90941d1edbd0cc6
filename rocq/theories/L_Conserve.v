(** Sums of the right hand side over the interior. *)
From Coq Require Import ZArith Reals List Bool Lia Lra.
From Verif Require Import M_Base M_Vec M_Boundary M_Flux S_Boundary S_Flux S_Sum L_Base L_Loops
  L_Boundary L_Flux L_System L_Sum.
Import ListNotations.
Open Scope Z_scope.

Lemma total_extents {A} (u : vol A) dims g nx ny nz k : dir k ->
  1 <= dims -> has_extents u dims g nx ny nz ->
  total u k = nvec nx ny nz k + (if k <? dims then 2 * g else 0).
Proof.
  intros Hk Hd (H1 & H2 & H3). unfold total, nvec. dcase Hk; simpl.
  - destruct (Z.ltb_spec 0 dims); lia.
  - rewrite H2. destruct (1 <? dims); lia.
  - rewrite H3. destruct (2 <? dims); lia.
Qed.

Lemma interior_iff dims g nx ny nz c : 1 <= dims ->
  interior dims g nx ny nz c <->
  forall k, dir k -> ilo dims g k <= coord k c < ihi dims g (nvec nx ny nz) k.
Proof.
  intros Hd. destruct c as [[x y] z]. unfold interior, interior1, ilo, ihi. split.
  - intros (H1 & H2 & H3) k Hk. unfold nvec. dcase Hk; simpl.
    + destruct (Z.ltb_spec 0 dims); lia.
    + destruct (1 <? dims); lia.
    + destruct (2 <? dims); lia.
  - intros H. pose proof (H 0 ltac:(unfold dir; auto)) as H0. pose proof (H 1 ltac:(unfold dir; auto)) as H1.
    pose proof (H 2 ltac:(unfold dir; auto)) as H2. unfold nvec in *. simpl in *.
    destruct (Z.ltb_spec 0 dims); [|lia].
    destruct (1 <? dims); destruct (2 <? dims); lia.
Qed.

Lemma in_volume_iff {A} (u : vol A) dims g nx ny nz c : 1 <= dims -> has_extents u dims g nx ny nz ->
  in_volume dims g nx ny nz c <-> inr u c.
Proof.
  intros Hd (H1 & H2 & H3). destruct c as [[x y] z]. unfold in_volume, inr. rewrite H1, H2, H3.
  destruct (1 <? dims); destruct (2 <? dims); lia.
Qed.

Lemma interior_inreg {A} (u : vol A) dims g nx ny nz c : 1 <= dims -> has_extents u dims g nx ny nz ->
  interior dims g nx ny nz c <->
  inreg (int_lo dims g) (fun k => total u k - ghost dims g k) c = true.
Proof.
  intros Hd He. rewrite interior_iff, inreg_iff by assumption.
  assert (forall k, dir k -> int_lo dims g k = ilo dims g k /\
    total u k - ghost dims g k = ihi dims g (nvec nx ny nz) k).
  { intros k Hk. rewrite (total_extents u dims g nx ny nz k) by assumption.
    unfold int_lo, ghost, ilo, ihi. destruct (k <? dims); lia. }
  split; intros HH k Hk; specialize (HH k Hk); specialize (H k Hk); lia.
Qed.

Lemma image_coord im dims g nx ny nz c k : 1 <= dims -> dir k ->
  coord k (image im dims g nx ny nz c) =
  if k <? dims then im g (nvec nx ny nz k) (coord k c) else coord k c.
Proof.
  intros Hd Hk. destruct c as [[x y] z]. unfold image, nvec. dcase Hk; simpl.
  - destruct (Z.ltb_spec 0 dims); [reflexivity|lia].
  - destruct (1 <? dims); reflexivity.
  - destruct (2 <? dims); reflexivity.
Qed.

Lemma coord_ext c c' : (forall k, dir k -> coord k c = coord k c') -> c = c'.
Proof.
  intros H. destruct c as [[x y] z], c' as [[x' y'] z'].
  pose proof (H 0 ltac:(unfold dir; auto)). pose proof (H 1 ltac:(unfold dir; auto)).
  pose proof (H 2 ltac:(unfold dir; auto)). simpl in *. congruence.
Qed.

Section C.
Context {V : cvars}.
Variables (dims g : Z) (fx : numflux V) (rc : recon V).
Hypothesis Hdims : 1 <= dims <= 3.
Hypothesis Hcomp : compatible fx rc g.

Lemma comp_rhs i u c :
  comp i (rhs dims fx rc u c) =
  fold_right Rplus 0%R (map (fun d => (comp i (fst (iface fx rc d u (move d (-1) c))) -
                                      comp i (fst (iface fx rc d u c)))%R) (zrange 0 dims)).
Proof.
  unfold rhs.
  assert (G : forall l a, comp i (fold_left (fun a d =>
      vadd a (vadd (fst (iface fx rc d u (move d (-1) c)))
                   (vscal (-1) (fst (iface fx rc d u c))))) l a) =
      (comp i a + fold_right Rplus 0 (map (fun d => (comp i (fst (iface fx rc d u (move d (-1) c))) -
                                      comp i (fst (iface fx rc d u c)))) l))%R).
  { induction l as [|d l IH]; intros a; cbn [fold_left map fold_right].
    - ring.
    - rewrite IH, !comp_add, comp_scal. ring. }
  rewrite G, comp_zero. ring.
Qed.

(** Balance: what the interior gains is what enters through its faces. *)
Lemma rhs_balance i u (n : Z -> Z) :
  (forall k, dir k -> 0 <= n k) ->
  isum dims g n (fun c => comp i (rhs dims fx rc u c)) =
  fold_right Rplus 0%R (map (fun d =>
    (sum3 (upd (ilo dims g) d (ilo dims g d - 1)) (upd (ihi dims g n) d (ilo dims g d))
          (fun c => comp i (fst (iface fx rc d u c))) -
     sum3 (upd (ilo dims g) d (ihi dims g n d - 1)) (upd (ihi dims g n) d (ihi dims g n d))
          (fun c => comp i (fst (iface fx rc d u c))))%R) (zrange 0 dims)).
Proof.
  intros Hn. unfold isum.
  rewrite (sum3_ext _ _ _ (fun c => fold_right Rplus 0%R (map (fun d =>
     (comp i (fst (iface fx rc d u (move d (-1) c))) -
      comp i (fst (iface fx rc d u c)))%R) (zrange 0 dims)))).
  2: { intros c _. apply comp_rhs. }
  assert (Hl : forall d, In d (zrange 0 dims) -> dir d).
  { intros d Hd. apply zrange_In in Hd. unfold dir. lia. }
  induction (zrange 0 dims) as [|d l IH]; cbn [map fold_right].
  - apply sum3_zero.
  - rewrite sum3_plus. rewrite IH by (intros; apply Hl; now right). f_equal.
    apply (sum3_telescope _ _ d (fun c => comp i (fst (iface fx rc d u c)))).
    + apply Hl. now left.
    + specialize (Hn d (Hl d (or_introl eq_refl))). unfold ilo, ihi. destruct (d <? dims); lia.
Qed.

(** On a periodic field the interface fluxes are periodic. *)
Lemma iface_periodic (u : cell -> V) nx ny nz d c :
  0 < nx -> 0 < ny -> 0 < nz ->
  0 <= d < dims -> g <= nvec nx ny nz d ->
  (forall c, in_volume dims g nx ny nz c -> u c = u (image periodic1 dims g nx ny nz c)) ->
  (forall k, dir k -> k <> d -> ilo dims g k <= coord k c < ihi dims g (nvec nx ny nz) k) ->
  coord d c = ilo dims g d - 1 ->
  iface fx rc d u (move d (nvec nx ny nz d) c) = iface fx rc d u c.
Proof.
  intros Hx Hy Hz Hd Hg Hp Hc Hcd.
  assert (Dd : dir d) by (unfold dir; lia).
  assert (Hg0 : 1 <= g) by (destruct Hcomp; lia).
  assert (Ld : ilo dims g d = g).
  { unfold ilo. destruct (Z.ltb_spec d dims); lia. }
  assert (Dm : d <? dims = true) by (apply Z.ltb_lt; lia).
  set (N := nvec nx ny nz d) in *.
  assert (Inv : forall t, 0 <= coord d c + t < N + 2 * g -> in_volume dims g nx ny nz (move d t c)).
  { intros t Ht.
    apply (in_volume_iff (mkvol (nx + 2 * g) (if 1 <? dims then ny + 2 * g else ny)
             (if 2 <? dims then nz + 2 * g else nz) (fun _ : Z => 0))); [lia|repeat split|].
    apply inr_iff. intros k Hk.
    rewrite (total_extents _ dims g nx ny nz k) by (repeat split; auto; lia).
    rewrite coord_move by auto. destruct (Z.eqb_spec k d) as [->|Nk].
    - rewrite Dm. fold N. lia.
    - specialize (Hc k Hk Nk). unfold ilo, ihi in Hc. destruct (k <? dims); lia. }
  apply (iface_ext g fx rc Hcomp). intros s Hs. rewrite !move_move.
  rewrite (Hp (move d (N + s) c)) by (apply Inv; lia).
  rewrite (Hp (move d s c)) by (apply Inv; lia). f_equal.
  apply coord_ext. intros k Hk. rewrite !image_coord by (auto; lia).
  rewrite !coord_move by auto.
  destruct (Z.eqb_spec k d) as [->|Nk]; [|reflexivity].
  rewrite Dm. fold N. unfold periodic1. f_equal.
  replace (coord d c + (N + s) - g) with (coord d c + s - g + 1 * N) by ring.
  apply Z.mod_add. unfold N, nvec. destruct (d =? 0); destruct (d =? 1); lia.
Qed.

Lemma rhs_periodic_sum i (u : cell -> V) nx ny nz :
  0 < nx -> 0 < ny -> 0 < nz ->
  g <= nx -> (1 < dims -> g <= ny) -> (2 < dims -> g <= nz) ->
  (forall c, in_volume dims g nx ny nz c -> u c = u (image periodic1 dims g nx ny nz c)) ->
  isum dims g (nvec nx ny nz) (fun c => comp i (rhs dims fx rc u c)) = 0%R.
Proof.
  intros Hx Hy Hz Gx Gy Gz Hp. rewrite rhs_balance.
  2: { intros k Hk. unfold nvec. dcase Hk; simpl; lia. }
  assert (Hl : forall d, In d (zrange 0 dims) -> 0 <= d < dims).
  { intros d Hd. now apply zrange_In in Hd. }
  induction (zrange 0 dims) as [|d l IH]; cbn [map fold_right]; [reflexivity|].
  rewrite IH by (intros; apply Hl; now right).
  specialize (Hl d (or_introl eq_refl)).
  rewrite (sum3_faces_eq _ _ d _ (nvec nx ny nz d)); [ring|unfold dir; lia| |].
  - unfold ilo, ihi. destruct (Z.ltb_spec d dims); lia.
  - intros c Hc Hcd. rewrite iface_periodic; auto.
    unfold nvec. destruct (Z.eqb_spec d 0); [assumption|].
    destruct (Z.eqb_spec d 1); [apply Gy; lia|apply Gz; lia].
Qed.

Lemma fits_extents (u : vol V) nx ny nz :
  has_extents u dims g nx ny nz -> 0 <= nx -> 0 <= ny -> 0 <= nz ->
  g <= nx -> (1 < dims -> g <= ny) -> (2 < dims -> g <= nz) -> fits dims g u.
Proof.
  intros He Hx Hy Hz Gx Gy Gz k Hk. rewrite (total_extents u dims g nx ny nz k) by (auto; lia).
  unfold ghost, nvec. dcase Hk; simpl.
  - destruct (Z.ltb_spec 0 dims); lia.
  - destruct (Z.ltb_spec 1 dims); lia.
  - destruct (Z.ltb_spec 2 dims); lia.
Qed.

Lemma isum_ext (n : Z -> Z) f h :
  (forall c, (forall k, dir k -> ilo dims g k <= coord k c < ihi dims g n k) -> f c = h c) ->
  isum dims g n f = isum dims g n h.
Proof. apply sum3_ext. Qed.

End C.
