(** Properties C27 (mean and variance), C28 (one-point moments), C29 (directional
    bounded variation), C59 (bounded variation) of the statistics over samples. *)
From Coq Require Import ZArith Reals List Bool Lia Lra Permutation.
From Verif Require Import M_Base L_Base M_Sim L_Sim M_Memory S_Memory L_Memory S_Sum L_Sum
  L_Flux T_Variation M_Stats S_Stats L_Stats L_StatsRun M_Balancer L_Balancer T_Balancer.
Import ListNotations.
Open Scope Z_scope.

(** * Auxiliary: the statistics are additive *)

Lemma add_additive d nm : 0 <= dsize d < 2 ^ 31 ->
  additive (has_dims d) (mkitem nm dims_of (fun s u => mem_add s u)) d (fun u i => vdat u i).
Proof.
  intros Hs. split; [exact Hs|]. intros u Hu. destruct d as [[nx ny] nz]. cbn [it_dims it_update].
  split; [unfold dims_of; destruct Hu as (-> & -> & ->); reflexivity|].
  intros v Hv. pose proof (has_dims_size _ _ Hu) as Su. pose proof (has_dims_size _ _ Hv) as Sv.
  destruct (ew_all (int_bound v) (fun i a => b <- mload u i;; Ok (a + b)%R) (fun i => vdat v i + vdat u i)%R v)
    as (v' & E & A & B & C & W).
  { apply int_bound_small. change (elements v) with (vsize v). lia. }
  { intros i Hi. rewrite mload_ok by lia. reflexivity. }
  exists v'. split; [exact E|]. destruct Hv as (? & ? & ?). split; [repeat split; congruence|].
  intros i Hi. apply W. change (elements v) with (vsize v). lia.
Qed.

Lemma addpower_additive d nm p : 0 <= dsize d < 2 ^ 31 ->
  additive (has_dims d) (mkitem nm dims_of (fun s u => mem_addpower s u (Z.of_nat p))) d
    (fun u i => vdat u i ^ p)%R.
Proof.
  intros Hs. split; [exact Hs|]. intros u Hu. destruct d as [[nx ny] nz]. cbn [it_dims it_update].
  split; [unfold dims_of; destruct Hu as (-> & -> & ->); reflexivity|].
  intros v Hv. pose proof (has_dims_size _ _ Hu) as Su. pose proof (has_dims_size _ _ Hv) as Sv.
  unfold mem_addpower. rewrite same_size_true by congruence. cbn [negb].
  destruct (ew_all (vsize v) (fun i a => b <- mload u i;; Ok (a + cpow b (Z.of_nat p))%R)
     (fun i => vdat v i + vdat u i ^ p)%R v) as (v' & E & A & B & C & W); [reflexivity| |].
  { intros i Hi. rewrite mload_ok by lia. cbn [bind]. now rewrite cpow_nat. }
  exists v'. split; [exact E|]. destruct Hv as (? & ? & ?). split; [repeat split; congruence|].
  intros i Hi. apply W. change (elements v) with (vsize v). lia.
Qed.

Lemma sample_mean_ext M f g : (forall n, 0 <= n < M -> f n = g n) -> sample_mean M f = sample_mean M g.
Proof. intros H. unfold sample_mean. f_equal. now apply sumz_ext. Qed.

Lemma sumz_const lo hi c : lo <= hi -> sumz lo hi (fun _ => c) = (IZR (hi - lo) * c)%R.
Proof.
  intros H. replace hi with (lo + Z.of_nat (Z.to_nat (hi - lo))) at 1 by lia.
  replace (hi - lo) with (Z.of_nat (Z.to_nat (hi - lo))) at 2 by lia.
  induction (Z.to_nat (hi - lo)) as [|m IH].
  - unfold sumz. rewrite zrange_empty by lia. cbn. lra.
  - replace (lo + Z.of_nat (S m)) with (lo + Z.of_nat m + 1) by lia.
    rewrite sumz_snoc by lia. rewrite IH. rewrite Nat2Z.inj_succ. unfold Z.succ. rewrite plus_IZR. ring.
Qed.

(** Second moment minus squared mean. *)
Lemma variance_formula M f : 0 < M ->
  (sample_mean M (fun n => f n ^ 2) - sample_mean M f ^ 2)%R = sample_variance M f.
Proof.
  intros HM. unfold sample_variance. set (m := sample_mean M f).
  assert (Em : sumz 0 M f = (IZR M * m)%R).
  { unfold m, sample_mean. field. apply not_0_IZR. lia. }
  unfold sample_mean.
  rewrite (sumz_ext 0 M (fun n => (f n - m) ^ 2)%R (fun n => ((f n ^ 2) - ((2 * m) * f n - m ^ 2))%R))
    by (intros; ring).
  rewrite sumz_minus, sumz_minus, sumz_scal, sumz_const, Em by lia. rewrite Z.sub_0_r.
  field. apply not_0_IZR. lia.
Qed.

Lemma variance_nonneg M f : 0 < M -> (0 <= sample_variance M f)%R.
Proof.
  intros HM. unfold sample_variance, sample_mean at 1. apply Rmult_le_pos.
  - apply sumz_nonneg. intros. apply pow2_ge_0.
  - left. apply Rinv_0_lt_compat. apply IZR_lt. lia.
Qed.

Lemma keys_mean_variance ts k : In k (keys_of mean_variance ts) <->
  exists t, In t ts /\ (k = (t, n_mean) \/ k = (t, n_variance)).
Proof.
  rewrite keys_of_In. cbn [mean_variance In]. split.
  - intros (t & it & Ht & [<-|[<-|[]]] & ->); exists t; auto.
  - intros (t & Ht & [-> | ->]); exists t; eexists; split; eauto.
Qed.

(** finalizeStatistics *)
Lemma finalize_spec ts d st : 0 <= dsize d < 2 ^ 31 ->
  map fst st = keys_of mean_variance ts -> NoDup (map fst st) ->
  (forall t n, In t ts -> n = n_mean \/ n = n_variance -> exists v, lookup (t, n) st = Some v /\ has_dims d v) ->
  exists st', finalize_mean_variance st = Ok st' /\
    forall t, In t ts -> lookup (t, n_mean) st' = lookup (t, n_mean) st /\
      exists v', lookup (t, n_variance) st' = Some v' /\
        forall m v, lookup (t, n_mean) st = Some m -> lookup (t, n_variance) st = Some v ->
          forall i, 0 <= i < dsize d -> vdat v' i = (vdat v i - vdat m i ^ 2)%R.
Proof.
  intros Hs K N H. unfold finalize_mean_variance.
  destruct (fold_res_inv (fun k st0 => if snd k =? n_variance then
      match lookup k st0, lookup (fst k, n_mean) st0 with
      | Some v, Some m => v' <- mem_subpower v m 2;; Ok (replace k v' st0)
      | _, _ => UB
      end else Ok st0)
    (fun pre st0 => map fst st0 = map fst st /\
      (forall t, lookup (t, n_mean) st0 = lookup (t, n_mean) st) /\
      (forall t, ~ In (t, n_variance) pre -> lookup (t, n_variance) st0 = lookup (t, n_variance) st) /\
      (forall t, In (t, n_variance) pre -> exists v', lookup (t, n_variance) st0 = Some v' /\
        forall m v, lookup (t, n_mean) st = Some m -> lookup (t, n_variance) st = Some v ->
          forall i, 0 <= i < dsize d -> vdat v' i = (vdat v i - vdat m i ^ 2)%R))
    (map fst st) st) as (st' & E & _ & M' & _ & V').
  - repeat split; auto. intros t [].
  - intros pre [t n] post st0 Ek (K0 & M0 & U0 & V0). cbn [fst snd].
    assert (Hin : In (t, n) (map fst st)) by (rewrite Ek; apply in_or_app; right; now left).
    assert (Npre : ~ In (t, n) pre).
    { rewrite Ek in N. apply NoDup_remove_2 in N. intros X. apply N. apply in_or_app. now left. }
    rewrite K in Hin. apply keys_mean_variance in Hin. destruct Hin as (t' & Ht' & Hk).
    destruct (n =? n_variance) eqn:En.
    + apply Z.eqb_eq in En. subst n.
      assert (t' = t) by (destruct Hk as [X|X]; injection X; auto). subst t'.
      destruct (H t n_mean Ht') as (m & Lm & Dm); auto. destruct (H t n_variance Ht') as (v & Lv & Dv); auto.
      rewrite (U0 t Npre), Lv, M0, Lm.
      pose proof (has_dims_size _ _ Dm) as Sm. pose proof (has_dims_size _ _ Dv) as Sv.
      unfold mem_subpower. rewrite same_size_true by congruence. cbn [negb].
      destruct (ew_all (vsize v) (fun i a => b <- mload m i;; Ok (a - cpow b 2)%R)
        (fun i => vdat v i - vdat m i ^ 2)%R v) as (v' & E & _ & _ & _ & W); [reflexivity| |].
      { intros i Hi. rewrite mload_ok by lia. cbn [bind]. change 2 with (Z.of_nat 2) at 1. now rewrite cpow_nat. }
      rewrite E. cbn [bind]. exists (replace (t, n_variance) v' st0). split; [reflexivity|].
      split; [rewrite replace_keys; exact K0|]. split; [|split].
      * intros t0. rewrite lookup_replace_other by (intros X; injection X; discriminate). apply M0.
      * intros t0 Hn. rewrite in_app_iff in Hn. cbn in Hn.
        rewrite lookup_replace_other by (intros X; injection X as ->; tauto). apply U0. tauto.
      * intros t0 Hi. apply in_app_iff in Hi. cbn in Hi. destruct (Z.eq_dec t0 t) as [->|Nt].
        -- exists v'. split; [apply lookup_replace_same; rewrite (U0 t Npre), Lv; discriminate|].
           intros m1 v1 Lm1 Lv1 i Hr. rewrite Lm in Lm1. rewrite Lv in Lv1. injection Lm1 as <-. injection Lv1 as <-.
           apply W. change (elements v) with (vsize v). lia.
        -- destruct Hi as [Hi|[Hi|[]]]; [|congruence]. destruct (V0 t0 Hi) as (v1 & L1 & W1). exists v1.
           split; [|exact W1]. rewrite lookup_replace_other; auto. intros X. injection X as X. contradiction.
    + exists st0. split; [reflexivity|]. split; [exact K0|]. split; [exact M0|]. split.
      * intros t0 Hn. apply U0. intros X. apply Hn. apply in_or_app. now left.
      * intros t0 Hi. apply in_app_iff in Hi. destruct Hi as [Hi|[Hi|[]]]; [now apply V0|].
        injection Hi as -> ->. rewrite Z.eqb_refl in En. discriminate.
  - exists st'. split; [exact E|]. intros t Ht. split; [apply M'|]. apply V'.
    rewrite K. apply keys_mean_variance. eauto.
Qed.

(** * C27 *)

(** For every distribution of the samples over processes and every order of
    reduction, "mean" and "variance" are the mean and the variance over all
    samples, element by element, at every time. *)
Theorem C27_mean_and_variance : forall u ts assign M red d,
  0 < M -> distribution_of M assign -> NoDup ts ->
  (forall l, l <> [] -> reduction l (red l)) ->
  0 <= dsize d < 2 ^ 31 -> (forall n t, 0 <= n < M -> In t ts -> has_dims d (u n t)) ->
  exists st,
    (st0 <- run_statistics mean_variance red (IZR M) (map (calls_of u ts) assign);;
     finalize_mean_variance st0) = Ok st /\
    forall t, In t ts -> exists m v,
      lookup (t, n_mean) st = Some m /\ lookup (t, n_variance) st = Some v /\
      forall i, 0 <= i < dsize d ->
        vdat m i = sample_mean M (fun n => vdat (u n t) i) /\
        vdat v i = sample_variance M (fun n => vdat (u n t) i) /\ (0 <= vdat v i)%R.
Proof.
  intros u ts assign M red d HM Hd Nts Hred Hs HPu.
  destruct (average_spec mean_variance (has_dims d) (fun _ => d)
    (fun it => if it_name it =? n_mean then fun u i => vdat u i else fun u i => (vdat u i ^ 2)%R))
    with (u := u) (ts := ts) (assign := assign) (M := M) (red := red) as (st0 & E0 & K0 & N0 & W0); auto.
  - intros it [<-|[<-|[]]]; cbn [it_name Z.eqb n_mean n_variance].
    + now apply add_additive.
    + change 2 with (Z.of_nat 2) at 1. now apply addpower_additive.
  - cbn. repeat constructor; cbn; [intros [X|[]]; discriminate|intros []].
  - rewrite E0. cbn [bind].
    destruct (finalize_spec ts d st0) as (st & E & W); auto.
    { intros t n Ht [->| ->].
      - destruct (W0 t (mkitem n_mean dims_of (fun s u => mem_add s u)) Ht) as (v & Lv & Dv & _); [now left|].
        exists v. auto.
      - destruct (W0 t (mkitem n_variance dims_of (fun s u => mem_addpower s u 2)) Ht) as (v & Lv & Dv & _);
          [right; now left|]. exists v. auto. }
    exists st. split; [exact E|]. intros t Ht.
    destruct (W0 t (mkitem n_mean dims_of (fun s u => mem_add s u)) Ht) as (m & Lm & Dm & Wm); [now left|].
    destruct (W0 t (mkitem n_variance dims_of (fun s u => mem_addpower s u 2)) Ht) as (q & Lq & Dq & Wq); [right; now left|].
    cbn [it_name Z.eqb n_mean n_variance] in Lm, Wm, Lq, Wq.
    destruct (W t Ht) as (Em & v & Lv & Wv). exists m, v. split; [rewrite Em; exact Lm|]. split; [exact Lv|].
    intros i Hi. rewrite (Wv m q Lm Lq i Hi), (Wm i Hi), (Wq i Hi).
    rewrite variance_formula by exact HM. auto using variance_nonneg.
Qed.

(** * C28 *)

(** OnePointMoment with power p is the mean of the p-th powers. *)
Theorem C28_one_point_moment : forall u ts assign M red d p,
  0 < M -> distribution_of M assign -> NoDup ts ->
  (forall l, l <> [] -> reduction l (red l)) ->
  0 <= dsize d < 2 ^ 31 -> (forall n t, 0 <= n < M -> In t ts -> has_dims d (u n t)) ->
  exists st,
    run_statistics (one_point_moment (Z.of_nat p)) red (IZR M) (map (calls_of u ts) assign) = Ok st /\
    forall t, In t ts -> exists v, lookup (t, 0) st = Some v /\
      forall i, 0 <= i < dsize d -> vdat v i = sample_mean M (fun n => vdat (u n t) i ^ p)%R.
Proof.
  intros u ts assign M red d p HM Hd Nts Hred Hs HPu.
  destruct (average_spec (one_point_moment (Z.of_nat p)) (has_dims d) (fun _ => d) (fun _ u i => (vdat u i ^ p)%R))
    with (u := u) (ts := ts) (assign := assign) (M := M) (red := red) as (st & E & _ & _ & W); auto.
  - intros it [<-|[]]. now apply addpower_additive.
  - cbn. repeat constructor. intros [].
  - exists st. split; [exact E|]. intros t Ht.
    destruct (W t _ Ht (or_introl eq_refl)) as (v & Lv & _ & Wv). exists v. auto.
Qed.

(** * C59 *)

(** BoundedVariation in one dimension is the mean of the total variations of the
    interior cells. *)
Theorem C59_bounded_variation_partial : forall u ts assign M red nx g p,
  0 < M -> distribution_of M assign -> NoDup ts ->
  (forall l, l <> [] -> reduction l (red l)) ->
  0 <= g -> nx < 2 ^ 31 -> (forall n t, 0 <= n < M -> In t ts -> has_dims (nx, 1, 1) (u n t)) ->
  exists st,
    run_statistics (bounded_variation (Z.of_nat p) (g, 0, 0)) red (IZR M) (map (calls_of u ts) assign) = Ok st /\
    forall t, In t ts -> exists v, lookup (t, 0) st = Some v /\
      vdat v 0 = sample_mean M (fun n =>
        pair_sum p 0 (comp (g, 0, 0)) (comp (nx - g, 1, 1)) (vget (u n t))).
Proof.
  intros u ts assign M red nx g p HM Hd Nts Hred Hg Hx HPu.
  destruct (average_spec (bounded_variation (Z.of_nat p) (g, 0, 0)) (has_dims (nx, 1, 1)) (fun _ => (1, 1, 1))
      (fun _ u i => if i =? 0 then pair_sum p 0 (comp (g, 0, 0)) (comp (nx - g, 1, 1)) (vget u) else 0%R))
    with (u := u) (ts := ts) (assign := assign) (M := M) (red := red) as (st & E & _ & _ & W); auto.
  - intros it [<-|[]]. split; [cbn; lia|]. intros w Hw. cbn [it_dims it_update]. split; [reflexivity|].
    intros v Hv. destruct Hw as (Wx & Wy & Wz). unfold bv_stop.
    rewrite Wx, Wy, Wz. rewrite !Z.sub_0_r.
    rewrite C47_line_partial by lia. cbn [bind].
    pose proof (has_dims_size _ _ Hv) as Sv. cbn in Sv.
    rewrite mload_ok by lia. cbn [bind].
    destruct (mstore_ok v 0 (Rplus (vdat v 0) (pair_sum p 0 (comp (g, 0, 0)) (comp (nx - g, 1, 1)) (vget w))))
      as (v' & E & (A & B & C) & W); [lia|].
    exists v'. split; [exact E|]. destruct Hv as (? & ? & ?). split; [repeat split; congruence|].
    intros i Hi. cbn in Hi. assert (i = 0) by lia. subst i. rewrite W. reflexivity.
  - cbn. repeat constructor. intros [].
  - exists st. split; [exact E|]. intros t Ht.
    destruct (W t _ Ht (or_introl eq_refl)) as (v & Lv & _ & Wv). exists v. split; [exact Lv|].
    rewrite Wv by (cbn; lia). reflexivity.
Qed.

(** In two dimensions: the mean of the sums over the interior cells that have a
    left and a lower interior neighbour (see [C47_plane_partial]; the pairs in the
    first row and column are missing). *)
Theorem C59_plane_partial : forall u ts assign M red nx ny g p,
  0 < M -> distribution_of M assign -> NoDup ts ->
  (forall l, l <> [] -> reduction l (red l)) ->
  0 <= g -> 1 < ny -> nx * ny < 2 ^ 31 ->
  (forall n t, 0 <= n < M -> In t ts -> has_dims (nx, ny, 1) (u n t)) ->
  exists st,
    run_statistics (bounded_variation (Z.of_nat p) (g, g, 0)) red (IZR M) (map (calls_of u ts) assign) = Ok st /\
    forall t, In t ts -> exists v, lookup (t, 0) st = Some v /\
      vdat v 0 = sample_mean M (fun n =>
        gradient_sum p (comp (g, g, 0)) (comp (nx - g, ny - g, 1)) (vget (u n t))).
Proof.
  intros u ts assign M red nx ny g p HM Hd Nts Hred Hg Hy Hs HPu.
  destruct (average_spec (bounded_variation (Z.of_nat p) (g, g, 0)) (has_dims (nx, ny, 1)) (fun _ => (1, 1, 1))
      (fun _ u i => if i =? 0 then gradient_sum p (comp (g, g, 0)) (comp (nx - g, ny - g, 1)) (vget u) else 0%R))
    with (u := u) (ts := ts) (assign := assign) (M := M) (red := red) as (st & E & _ & _ & W); auto.
  - intros it [<-|[]]. split; [cbn; lia|]. intros w Hw. cbn [it_dims it_update]. split; [reflexivity|].
    intros v Hv. destruct Hw as (Wx & Wy & Wz). unfold bv_stop.
    rewrite Wx, Wy, Wz. rewrite !Z.sub_0_r.
    rewrite C47_plane_partial by (rewrite ?Wx, ?Wy; lia). cbn [bind].
    pose proof (has_dims_size _ _ Hv) as Sv. cbn in Sv.
    rewrite mload_ok by lia. cbn [bind].
    destruct (mstore_ok v 0 (Rplus (vdat v 0) (gradient_sum p (comp (g, g, 0)) (comp (nx - g, ny - g, 1)) (vget w))))
      as (v' & E & (A & B & C) & W); [lia|].
    exists v'. split; [exact E|]. destruct Hv as (? & ? & ?). split; [repeat split; congruence|].
    intros i Hi. cbn in Hi. assert (i = 0) by lia. subst i. rewrite W. reflexivity.
  - cbn. repeat constructor. intros [].
  - exists st. split; [exact E|]. intros t Ht.
    destruct (W t _ Ht (or_introl eq_refl)) as (v & Lv & _ & Wv). exists v. split; [exact Lv|].
    rewrite Wv by (cbn; lia). reflexivity.
Qed.

(** * C29 *)

Lemma dimensions_accepts u d : dir d -> 0 < vny u -> 0 < vnz u -> d < dimensions u ->
  d <= 1 + b2z (1 <? vny u) + b2z (1 <? vnz u).
Proof.
  intros Hd Hy Hz. unfold dimensions.
  assert (0 <= b2z (1 <? vny u)) by (destruct (1 <? vny u); cbn; lia).
  assert (0 <= b2z (1 <? vnz u)) by (destruct (1 <? vnz u); cbn; lia).
  destruct (Z.eqb_spec (vny u) 1); [lia|].
  rewrite (proj2 (Z.ltb_lt 1 (vny u))) in * by lia. cbn [b2z] in *. destruct (vnz u =? 1); lia.
Qed.

Lemma fold_last {A} (f : A -> R) (l : list A) x a : fold_left (fun _ n => f n) (l ++ [x]) a = f x.
Proof. rewrite fold_left_app. reflexivity. Qed.

(** What BoundedVariationDirection gives: computeStatistics assigns instead of
    adding, so only the last sample of each process counts, and the sum over the
    processes is divided by the number of all samples. *)
Theorem C29_last_samples_only : forall u ts assign M red nx ny nz gx gy gz p d,
  0 < M -> distribution_of M assign -> NoDup ts ->
  (forall l, l <> [] -> reduction l (red l)) ->
  0 < nx -> 0 < ny -> 0 < nz -> 0 <= gx -> 0 <= gy -> 0 <= gz ->
  (forall n t, 0 <= n < M -> In t ts -> has_dims (nx, ny, nz) (u n t)) ->
  dir d -> d < (if ny =? 1 then 1 else if nz =? 1 then 2 else 3) ->
  exists st,
    run_statistics (bounded_variation_direction (Z.of_nat p) (gx, gy, gz)) red (IZR M)
      (map (calls_of u ts) assign) = Ok st /\
    forall t, In t ts -> exists v, lookup (t, d) st = Some v /\
      vdat v 0 = (suml (fun ids => pair_sum p d (comp (gx, gy, gz)) (comp (nx - gx, ny - gy, nz - gz)%Z)
                                     (vget (u (last ids 0%Z) t))) assign / IZR M)%R.
Proof.
  intros u ts assign M red nx ny nz gx gy gz p d HM Hd Nts Hred Hx Hy Hz Gx Gy Gz HPu Hdir Hlt.
  set (tv := fun d w => pair_sum p d (comp (gx, gy, gz)) (comp (nx - gx, ny - gy, nz - gz)) (vget w)).
  pose (dm := if ny =? 1 then 1 else if nz =? 1 then 2 else 3).
  destruct (combined_spec (bounded_variation_direction (Z.of_nat p) (gx, gy, gz)) (has_dims (nx, ny, nz))
      (fun _ => (1, 1, 1))
      (fun it w i a => if it_name it <? dm then if i =? 0 then tv (it_name it) w else a else a))
    with (u := u) (ts := ts) (assign := assign) (M := M) (red := red) as (st & E & _ & _ & W); auto.
  - intros it Hit.
    assert (Hit' : exists e, dir e /\ it = bv_item e (Z.of_nat p) (gx, gy, gz)).
    { destruct Hit as [<-|[<-|[<-|[]]]]; eexists; split; try reflexivity; red; auto. }
    destruct Hit' as (e & He & ->). clear Hit.
    split; [cbn; lia|]. intros w Hw. cbn [bv_item it_dims it_update it_name]. split; [reflexivity|].
    intros v Hv. destruct Hw as (Wx & Wy & Wz).
    assert (Ed : dimensions w = dm) by (unfold dimensions, dm; rewrite Wy, Wz; reflexivity).
    rewrite Ed. destruct (e <? dm) eqn:El.
    + unfold bv_stop. rewrite Wx, Wy, Wz.
      rewrite C47_directional.
      * cbn [bind]. pose proof (has_dims_size _ _ Hv) as Sv. cbn in Sv.
        destruct (mstore_ok v 0 (tv e w)) as (v' & E & (A & B & C) & W); [lia|].
        exists v'. split; [exact E|]. destruct Hv as (? & ? & ?). split; [repeat split; congruence|].
        intros i Hi. rewrite W. reflexivity.
      * exact He.
      * apply dimensions_accepts; try lia; auto.
      * intros k [->|[->| ->]]; cbn; lia.
    + exists v. auto.
  - cbn. repeat constructor; cbn; intuition discriminate.
  - exists st. split; [exact E|]. intros t Ht.
    destruct (W t (bv_item d (Z.of_nat p) (gx, gy, gz)) Ht) as (v & Lv & _ & Wv).
    { destruct Hdir as [->|[->| ->]]; cbn; auto. }
    exists v. split; [exact Lv|]. rewrite Wv by (cbn; lia). f_equal. apply suml_ext. intros ids Hids.
    unfold collected. cbn [bv_item it_name Z.eqb]. fold dm in Hlt.
    rewrite (proj2 (Z.ltb_lt d dm)) by exact Hlt.
    destruct Hd as (_ & _ & Hne). rewrite Forall_forall in Hne. pose proof (Hne ids Hids) as Hn.
    destruct (exists_last Hn) as (l & x & ->). rewrite last_last.
    rewrite (fold_last (fun n => tv d (u n t))). reflexivity.
Qed.

(** So it is the mean when every process has exactly one sample.  Full statement:
    for every distribution; refuted below. *)
Theorem C29_one_sample_each_partial : forall u ts M red nx ny nz gx gy gz p d,
  0 < M -> NoDup ts ->
  (forall l, l <> [] -> reduction l (red l)) ->
  0 < nx -> 0 < ny -> 0 < nz -> 0 <= gx -> 0 <= gy -> 0 <= gz ->
  (forall n t, 0 <= n < M -> In t ts -> has_dims (nx, ny, nz) (u n t)) ->
  dir d -> d < (if ny =? 1 then 1 else if nz =? 1 then 2 else 3) ->
  exists st,
    run_statistics (bounded_variation_direction (Z.of_nat p) (gx, gy, gz)) red (IZR M)
      (map (calls_of u ts) (map (fun n => [n]) (zrange 0 M))) = Ok st /\
    forall t, In t ts -> exists v, lookup (t, d) st = Some v /\
      vdat v 0 = sample_mean M (fun n =>
        pair_sum p d (comp (gx, gy, gz)) (comp (nx - gx, ny - gy, nz - gz)) (vget (u n t))).
Proof.
  intros u ts M red nx ny nz gx gy gz p d HM Nts Hred Hx Hy Hz Gx Gy Gz HPu Hdir Hlt.
  destruct (C29_last_samples_only u ts (map (fun n => [n]) (zrange 0 M)) M red nx ny nz gx gy gz p d)
    as (st & E & W); auto.
  - split; [|split].
    + rewrite (zrange_cons 0 M) by lia. discriminate.
    + assert (X : concat (map (fun n : Z => [n]) (zrange 0 M)) = zrange 0 M).
      { induction (zrange 0 M); [reflexivity|]. cbn. now rewrite IHl. }
      rewrite X. apply Permutation_refl.
    + apply Forall_forall. intros l Hl. apply in_map_iff in Hl. destruct Hl as (n & <- & _). discriminate.
  - exists st. split; [exact E|]. intros t Ht. destruct (W t Ht) as (v & Lv & Wv). exists v. split; [exact Lv|].
    rewrite Wv. unfold sample_mean. f_equal. rewrite suml_map, suml_sumz. reflexivity.
Qed.

(** The sum is a reduction. *)
Lemma sum_is_reduction l : l <> [] -> reduction l (suml (fun a => a) l).
Proof.
  induction l as [|a l IH]; [congruence|]. intros _. destruct l as [|b l].
  - cbn. rewrite Rplus_0_r. constructor.
  - apply (red_join _ [a] (b :: l)); [constructor|apply IH; discriminate|apply Permutation_refl].
Qed.

(** Two samples on one process, with total variations 1 and 0: the statistic is 0
    instead of 1/2. *)
Definition step_sample (n t : Z) : vol R :=
  mkvol 2 1 1 (fun i => if (n =? 0) && (i =? 0) then 1%R else 0%R).

Theorem C29_mean_of_variations_refuted : exists u ts assign M red st v,
  0 < M /\ distribution_of M assign /\ NoDup ts /\ (forall l, l <> [] -> reduction l (red l)) /\
  (forall n t, 0 <= n < M -> In t ts -> has_dims (2, 1, 1) (u n t)) /\ In 0 ts /\
  run_statistics (bounded_variation_direction 1 (0, 0, 0)) red (IZR M) (map (calls_of u ts) assign) = Ok st /\
  lookup (0, 0) st = Some v /\
  sample_mean M (fun n => pair_sum 1 0 (comp (0, 0, 0)) (comp (2, 1, 1)) (vget (u n 0))) = (/ 2)%R /\
  vdat v 0 = 0%R.
Proof.
  assert (D : distribution_of 2 [[0; 1]]).
  { split; [discriminate|]. split; [apply Permutation_refl|]. repeat constructor. discriminate. }
  assert (N : NoDup [0]) by (repeat constructor; intros []).
  assert (H : forall n t, 0 <= n < 2 -> In t [0] -> has_dims (2, 1, 1) (step_sample n t))
    by (intros; repeat split).
  destruct (C29_last_samples_only step_sample [0] [[0; 1]] 2 (suml (fun a => a)) 2 1 1 0 0 0 1 0)
    as (st & E & W); auto using sum_is_reduction; try (now left); try (cbn; lia).
  destruct (W 0) as (v & Lv & Wv); [now left|].
  exists step_sample, [0], [[0; 1]], 2, (suml (fun a => a)), st, v.
  split; [lia|]. split; [exact D|]. split; [exact N|]. split; [apply sum_is_reduction|].
  split; [exact H|]. split; [now left|]. split; [exact E|]. split; [exact Lv|]. split.
  - unfold sample_mean, pair_sum, sum3, sumz, step_sample. lazy -[Rplus Rmult Rdiv IZR Rinv Rabs Rminus].
    replace (0 - 1)%R with (Ropp 1) by ring. replace (0 - 0)%R with 0%R by ring.
    rewrite Rabs_R0, Rabs_Ropp, Rabs_R1. lra.
  - rewrite Wv. unfold suml, pair_sum, sum3, sumz, step_sample. lazy -[Rplus Rmult Rdiv IZR Rinv Rabs Rminus].
    replace (0 - 0)%R with 0%R by ring. rewrite Rabs_R0. lra.
Qed.

(** * The distributions are those of the load balancer *)

(** The samples 0, ..., M - 1, distributed by SimpleLoadBalancer (Properties C22),
    are distributed in the sense of the theorems above. *)
Theorem C27_load_balanced : forall ms sx sy sz M,
  0 < M -> servable ms sx sy sz (all_samples 0 M) ->
  exists group : Z -> list Z,
    distribution_of M (map group (zrange 0 ms)) /\
    forall r l sc pc, 0 <= r < ms * sx * sy * sz ->
      load_balance ms sx sy sz (ms * sx * sy * sz) (all_samples 0 M) r = Ok (l, sc, pc) ->
      l = group (crank sc).
Proof.
  intros ms sx sy sz M HM Hs.
  destruct (C22_samples_partitioned ms sx sy sz (all_samples 0 M) Hs) as (group & Hg & Hc & Hl).
  exists group. split; [|exact Hg].
  assert (Ea : all_samples 0 M = zrange 0 M).
  { unfold all_samples. rewrite <- (map_id (zrange 0 M)) at 2. apply map_ext. intros. lia. }
  rewrite Ea in *.
  destruct Hs as (Hm & _).
  split; [|split].
  - rewrite (zrange_cons 0 ms) by lia. discriminate.
  - rewrite <- flat_map_concat_map, Hc. apply Permutation_refl.
  - apply Forall_forall. intros l Hi. apply in_map_iff in Hi. destruct Hi as (k & <- & Hk).
    apply zrange_In in Hk. pose proof (Hl k Hk) as L. rewrite zrange_length in L.
    intros X. rewrite X in L. cbn in L. lia.
Qed.

Print Assumptions C27_mean_and_variance.
Print Assumptions C27_load_balanced.
Print Assumptions C28_one_point_moment.
Print Assumptions C29_last_samples_only.
Print Assumptions C29_one_sample_each_partial.
Print Assumptions C29_mean_of_variations_refuted.
Print Assumptions C59_bounded_variation_partial.
Print Assumptions C59_plane_partial.

(** Samples 1, 2 and 6 on two processes: mean 3, variance 14/3. *)
Example C27_example : exists st m v,
  (st0 <- run_statistics mean_variance (suml (fun a => a)) 3
     (map (calls_of (fun n t => mkvol 1 1 1 (fun _ => if n =? 0 then 1%R else if n =? 1 then 2%R else 6%R)) [7])
       [[2; 0]; [1]]);;
   finalize_mean_variance st0) = Ok st /\
  lookup (7, n_mean) st = Some m /\ lookup (7, n_variance) st = Some v /\
  vdat m 0 = 3%R /\ vdat v 0 = (14 / 3)%R.
Proof.
  destruct (C27_mean_and_variance
    (fun n t => mkvol 1 1 1 (fun _ => if n =? 0 then 1%R else if n =? 1 then 2%R else 6%R)) [7]
    [[2; 0]; [1]] 3 (suml (fun a => a)) (1, 1, 1)) as (st & E & W); auto using sum_is_reduction; try lia.
  - split; [discriminate|]. split; [|repeat constructor; discriminate].
    change (zrange 0 3) with [0; 1; 2]. cbn [concat app].
    apply (Permutation_cons_append [0; 1] 2).
  - repeat constructor. intros [].
  - cbn. lia.
  - intros. repeat split.
  - destruct (W 7 (or_introl eq_refl)) as (m & v & Lm & Lv & Wi). exists st, m, v.
    destruct (Wi 0) as (Wm & Wv & _); [cbn; lia|].
    split; [exact E|]. split; [exact Lm|]. split; [exact Lv|]. rewrite Wm, Wv.
    unfold sample_variance, sample_mean, sumz. change (zrange 0 3) with [0; 1; 2].
    cbn [map fold_right vdat Z.eqb Pos.eqb]. split; field.
Qed.
