(** Datatypes, matching and delivery of the cell exchange. *)
From Coq Require Import ZArith Reals List Bool Lia Lra.
From Verif Require Import M_Base M_Mpi S_Mpi L_Base L_Decomp.
Import ListNotations.
Open Scope Z_scope.

(** ** Addresses of the datatypes *)
Definition stride (t : cell) (d : Z) : Z :=
  if d =? 0 then 1 else if d =? 1 then at3 t 0 else at3 t 0 * at3 t 1.
Definition seg_stride (side dims : Z) (t : cell) : Z :=
  if dims =? 1 then 0
  else if dims =? 2 then (if side <? 2 then at3 t 0 else 0)
  else if side <? 2 then at3 t 0
  else if side <? 4 then at3 t 0 * at3 t 1 else 0.
Definition slab_lo (side : Z) (t : cell) (g base : Z) : Z :=
  if side_low side then base else at3 t (side_dir side) - g - base.

Definition side_ok (dims s : Z) : Prop :=
  (dims = 1 /\ (s = 0 \/ s = 1)) \/ (dims = 2 /\ (s = 0 \/ s = 1 \/ s = 2 \/ s = 3)) \/
  (dims = 3 /\ (s = 0 \/ s = 1 \/ s = 2 \/ s = 3 \/ s = 4 \/ s = 5)).
Lemma side_ok_iff dims s : 1 <= dims <= 3 -> 0 <= s < 2 * dims <-> side_ok dims s.
Proof. unfold side_ok. lia. Qed.
Ltac sidecase H :=
  let H1 := fresh in
  destruct H as [[-> H1]|[[-> H1]|[-> H1]]];
  [destruct H1 as [->| ->]
  |destruct H1 as [->|[->|[->| ->]]]
  |destruct H1 as [->|[->|[->|[->|[->| ->]]]]]].

Ltac zcl := repeat first
  [ progress change (0 / 2) with 0 in * | progress change (1 / 2) with 0 in *
  | progress change (2 / 2) with 1 in * | progress change (3 / 2) with 1 in *
  | progress change (4 / 2) with 2 in * | progress change (5 / 2) with 2 in *
  | progress change (Z.rem 0 2) with 0 in * | progress change (Z.rem 1 2) with 1 in *
  | progress change (Z.rem 2 2) with 0 in * | progress change (Z.rem 3 2) with 1 in *
  | progress change (Z.rem 4 2) with 0 in * | progress change (Z.rem 5 2) with 1 in *
  | progress cbn [Z.even Z.eqb Pos.eqb Z.ltb Z.compare Pos.compare Pos.compare_cont andb orb negb] in *].

Lemma displacement_closed side dims t g base i prev :
  side_ok dims side -> 0 <= i ->
  (0 < i -> prev = slab_lo side t g base * stride t (side_dir side) + (i - 1) * seg_stride side dims t) ->
  displacement side dims t g base i prev =
    slab_lo side t g base * stride t (side_dir side) + i * seg_stride side dims t.
Proof.
  intros Hs Hi Hp. destruct t as [[nx ny] nz].
  assert (C : i = 0 \/ 0 < i) by lia.
  sidecase Hs; cbv [slab_lo stride seg_stride side_low side_dir displacement at3] in *; zcl;
    destruct C as [->|C];
    try (rewrite ?Z.ltb_irrefl; cbn [Z.eqb andb orb]; ring);
    try (rewrite ?(proj2 (Z.ltb_lt 0 i) C), ?(proj2 (Z.eqb_neq i 0)) by lia;
         cbn [andb orb]; rewrite ?Hp by exact C; ring).
Qed.

Lemma displacements_closed side dims t g base : side_ok dims side ->
  displacements side dims t g base =
  map (fun j => slab_lo side t g base * stride t (side_dir side) + j * seg_stride side dims t)
      (zrange 0 (number_of_segments side dims t)).
Proof.
  intros Hs. unfold displacements.
  set (f := fun j => slab_lo side t g base * stride t (side_dir side) + j * seg_stride side dims t).
  assert (K : forall n i prev, 0 <= i -> (0 < i -> prev = f (i - 1)) ->
    displacements_from side dims t g base i prev n = map f (zrange i (i + Z.of_nat n))).
  { induction n as [|n IH]; intros i prev Hi Hp.
    - rewrite zrange_empty by lia. reflexivity.
    - rewrite zrange_cons by lia. cbn [displacements_from map].
      rewrite (displacement_closed side dims t g base i prev Hs Hi Hp). fold (f i).
      f_equal. rewrite IH by (try lia; intros _; f_equal; lia).
      f_equal. f_equal; lia. }
  destruct (Z_le_gt_dec (number_of_segments side dims t) 0) as [L|L].
  - rewrite zrange_empty by lia. replace (Z.to_nat _) with O by lia. reflexivity.
  - rewrite (K _ 0 0) by lia. f_equal. f_equal. lia.
Qed.

Lemma combine_map_repeat {A B} (f : A -> B) (a : Z) l :
  combine (map f l) (repeat a (length l)) = map (fun j => (f j, a)) l.
Proof. induction l as [|x l IH]; cbn; [reflexivity|]. now rewrite IH. Qed.

Lemma indexed_closed side dims t g base : side_ok dims side ->
  indexed (lengths side dims t g) (displacements side dims t g base) =
  flat_map (fun j =>
      let d := slab_lo side t g base * stride t (side_dir side) + j * seg_stride side dims t in
      zrange d (d + segment_length side dims t g))
    (zrange 0 (number_of_segments side dims t)).
Proof.
  intros Hs. unfold indexed, lengths. rewrite (displacements_closed side dims t g base Hs).
  replace (Z.to_nat (number_of_segments side dims t))
    with (length (zrange 0 (number_of_segments side dims t)))
    by (rewrite zrange_length; f_equal; lia).
  rewrite combine_map_repeat, !flat_map_concat_map, map_map. reflexivity.
Qed.

(** ** The two ends of a message have the same shape *)
Definition shift_of (side : Z) (t : cell) (g : Z) : Z :=
  (if side_low side then 1 else -1) * (at3 t (side_dir side) - 2 * g) * stride t (side_dir side).

Lemma zrange_shift a lo hi : zrange (lo + a) (hi + a) = map (fun p => p + a) (zrange lo hi).
Proof.
  unfold zrange. rewrite map_map. replace (hi + a - (lo + a)) with (hi - lo) by lia.
  apply map_ext. intros k. lia.
Qed.
Lemma flat_map_map_out {A B C} (f : A -> list B) (h : B -> C) l :
  map h (flat_map f l) = flat_map (fun a => map h (f a)) l.
Proof. induction l as [|a l IH]; cbn; [reflexivity|]. now rewrite map_app, IH. Qed.

Lemma side_ok_across dims s : side_ok dims s -> side_ok dims (across s).
Proof. intros H. sidecase H; unfold side_ok; vm_compute; intuition. Qed.
Lemma side_ok_6 dims s : side_ok dims s -> 0 <= s < 6.
Proof. unfold side_ok. lia. Qed.

Lemma send_type_shift dims t g s : side_ok dims s ->
  send_type (across s) dims t g = map (fun p => p + shift_of s t g) (receive_type s dims t g).
Proof.
  intros Hs. unfold send_type, receive_type.
  rewrite (indexed_closed (across s)), (indexed_closed s) by (auto using side_ok_across).
  rewrite flat_map_map_out.
  assert (E1 : number_of_segments (across s) dims t = number_of_segments s dims t)
    by (sidecase Hs; reflexivity).
  assert (E2 : segment_length (across s) dims t g = segment_length s dims t g)
    by (sidecase Hs; reflexivity).
  assert (E3 : seg_stride (across s) dims t = seg_stride s dims t)
    by (sidecase Hs; reflexivity).
  rewrite E1, E2, E3. apply flat_map_ext. intros j. cbv zeta. rewrite <- zrange_shift.
  pose proof (across_eq s (side_ok_6 dims s Hs)) as (_ & _ & Ed & El & _).
  unfold slab_lo, shift_of. rewrite Ed, El.
  destruct (side_low s); cbn [negb]; f_equal; ring.
Qed.

(** ** Which cells a receive writes *)
Definition cells_of (side : Z) (t : cell) (g : Z) (c : cell) : Prop :=
  (forall k, 0 <= k < 3 -> 0 <= at3 c k < at3 t k) /\
  slab_lo side t g 0 <= at3 c (side_dir side) < slab_lo side t g 0 + g.
Definition flat_beyond (dims : Z) (t : cell) : Prop :=
  (forall k, 0 <= k < 3 -> 0 < at3 t k) /\
  (dims < 2 -> at3 t 1 = 1) /\ (dims < 3 -> at3 t 2 = 1).

Lemma receive_In dims t g s p : side_ok dims s -> flat_beyond dims t -> 0 <= g ->
  (forall k, 0 <= k < dims -> g <= at3 t k) ->
  In p (receive_type s dims t g) <-> exists c, cells_of s t g c /\ p = addr t c.
Proof.
  intros Hs (Hpos & F1 & F2) Hg Hgt. unfold receive_type. rewrite (indexed_closed s) by exact Hs.
  rewrite in_flat_map. cbv zeta.
  assert (Hl : 0 <= slab_lo s t g 0 <= at3 t (side_dir s) - g).
  { unfold slab_lo. assert (0 <= side_dir s < dims).
    { sidecase Hs; vm_compute; intuition congruence. }
    pose proof (Hgt (side_dir s) ltac:(lia)). destruct (side_low s); lia. }
  unfold cells_of, addr, index. set (lo := slab_lo s t g 0) in *. clearbody lo.
  pose proof (Hpos 0 ltac:(lia)) as P0. pose proof (Hpos 1 ltac:(lia)) as P1.
  pose proof (Hpos 2 ltac:(lia)) as P2. clear Hpos Hgt.
  destruct t as [[nx ny] nz].
  assert (Q :
     (exists c, (( forall k, 0 <= k < 3 -> 0 <= at3 c k < at3 (nx, ny, nz) k) /\
        lo <= at3 c (side_dir s) < lo + g) /\ p = (let '(x, y, z) := c in z * at3 (nx, ny, nz) 0 * at3 (nx, ny, nz) 1 + y * at3 (nx, ny, nz) 0 + x)) <->
     (exists x y z, 0 <= x < nx /\ 0 <= y < ny /\ 0 <= z < nz /\
        lo <= at3 (x, y, z) (side_dir s) < lo + g /\ p = z * nx * ny + y * nx + x)).
  { split.
    - intros ([[x y] z] & (H1 & H2) & H3). exists x, y, z.
      pose proof (H1 0 ltac:(lia)). pose proof (H1 1 ltac:(lia)). pose proof (H1 2 ltac:(lia)).
      cbn in *. repeat (split; [assumption|]). exact H3.
    - intros (x & y & z & H1 & H2 & H3 & H4 & H5). exists (x, y, z). split; [split|exact H5].
      + intros k Hk. k3case Hk; cbn; lia.
      + exact H4. }
  rewrite Q. clear Q.
  assert (R : forall a b, In p (zrange a b) <-> a <= p < b) by (intros; apply zrange_In).
  setoid_rewrite R. setoid_rewrite zrange_In. clear R.
  sidecase Hs; cbv [stride seg_stride segment_length number_of_segments side_dir at3] in *; zcl;
    try (rewrite (F1 ltac:(lia)) in *); try (rewrite (F2 ltac:(lia)) in *); clear F1 F2.
  (* x sides: one short segment for each row *)
  1,2: (split;
    [ intros (j & Hj & H); assert (j = 0) by lia; subst j; exists p, 0, 0; lia
    | intros (x & y & z & Hx & Hy & Hz & H1 & H2); assert (y = 0) by lia; assert (z = 0) by lia; subst;
      exists 0; lia ]).
  1,2: (split;
    [ intros (j & Hj & H); exists (p - j * nx), j, 0; nia
    | intros (x & y & z & Hx & Hy & Hz & H1 & H2); assert (z = 0) by lia; subst; exists y; nia ]).
  1,2: (split;
    [ intros (j & Hj & H); exists (p mod nx), (p / nx), 0;
      pose proof (Z.div_mod p nx ltac:(lia)); pose proof (Z.mod_pos_bound p nx ltac:(lia));
      assert (lo <= p / nx < lo + g)
        by (split; [apply Z.div_le_lower_bound; nia|apply Z.div_lt_upper_bound; nia]); nia
    | intros (x & y & z & Hx & Hy & Hz & H1 & H2); assert (z = 0) by lia; subst; exists 0; nia ]).
  1,2: (split;
    [ intros (j & Hj & H); exists (p - j * nx), (j mod ny), (j / ny);
      pose proof (Z.div_mod j ny ltac:(lia)); pose proof (Z.mod_pos_bound j ny ltac:(lia));
      assert (0 <= j / ny < nz)
        by (split; [apply Z.div_pos; lia|apply Z.div_lt_upper_bound; lia]);
      split; [nia|]; split; [lia|]; split; [lia|]; split; [nia|];
      rewrite (Z.mul_comm j nx); nia
    | intros (x & y & z & Hx & Hy & Hz & H1 & H2); exists (y + z * ny); subst; split; [nia|nia] ]).
  1,2: (split;
    [ intros (j & Hj & H); exists ((p - j * (nx * ny)) mod nx), ((p - j * (nx * ny)) / nx), j;
      pose proof (Z.div_mod (p - j * (nx * ny)) nx ltac:(lia));
      pose proof (Z.mod_pos_bound (p - j * (nx * ny)) nx ltac:(lia));
      assert (lo <= (p - j * (nx * ny)) / nx < lo + g)
        by (split; [apply Z.div_le_lower_bound; nia|apply Z.div_lt_upper_bound; nia]); nia
    | intros (x & y & z & Hx & Hy & Hz & H1 & H2); exists z; subst; split; [lia|nia] ]).
  1,2: (split;
    [ intros (j & Hj & H); assert (j = 0) by lia; subst j;
      exists (p mod nx), ((p / nx) mod ny), (p / nx / ny);
      pose proof (Z.div_mod p nx ltac:(lia)); pose proof (Z.mod_pos_bound p nx ltac:(lia));
      pose proof (Z.div_mod (p / nx) ny ltac:(lia)); pose proof (Z.mod_pos_bound (p / nx) ny ltac:(lia));
      assert (lo <= p / nx / ny < lo + g)
        by (rewrite Z.div_div by lia;
            split; [apply Z.div_le_lower_bound; nia|apply Z.div_lt_upper_bound; nia]); nia
    | intros (x & y & z & Hx & Hy & Hz & H1 & H2); exists 0; subst; split; [lia|];
      assert (0 <= y * nx <= (ny - 1) * nx) by nia;
      assert (lo * (nx * ny) <= z * (nx * ny) <= (lo + g - 1) * (nx * ny)) by nia;
      rewrite <- (Z.mul_assoc z nx ny); nia ]).
Qed.

(** ** Delivery in any order *)
Section Deliver.
Context {A : Type} (ms : list msg) (m0 : memory A).

Definition target (r v p : Z) : Prop :=
  exists i m k, nth_error ms i = Some m /\ m_dst m = r /\ m_rvar m = v /\ nth_error (m_rtype m) k = Some p.
Definition brings (r v p : Z) (x : A) : Prop :=
  forall i m k, nth_error ms i = Some m -> m_dst m = r -> m_rvar m = v -> nth_error (m_rtype m) k = Some p ->
    exists q, nth_error (m_stype m) k = Some q /\ ~ target (m_src m) (m_svar m) q /\
              m0 (m_src m) (m_svar m) q = x.

Lemma mwrite_same (m : memory A) r v p a : mwrite m r v p a r v p = a.
Proof. unfold mwrite. now rewrite !Z.eqb_refl. Qed.
Lemma mwrite_other (m : memory A) r v p a r' v' p' : (r', v', p') <> (r, v, p) ->
  mwrite m r v p a r' v' p' = m r' v' p'.
Proof.
  intros H. unfold mwrite. destruct (Z.eqb_spec r' r); [subst|reflexivity].
  destruct (Z.eqb_spec v' v); [subst|reflexivity]. destruct (Z.eqb_spec p' p); [subst|reflexivity].
  now contradict H.
Qed.
Lemma nset_same (n : nat -> nat -> transit A) i k x : nset n i k x i k = x.
Proof. unfold nset. now rewrite !Nat.eqb_refl. Qed.
Lemma nset_cases (n : nat -> nat -> transit A) i k x i' k' :
  (i' = i /\ k' = k /\ nset n i k x i' k' = x) \/ nset n i k x i' k' = n i' k'.
Proof.
  unfold nset. destruct (Nat.eqb_spec i' i), (Nat.eqb_spec k' k); cbn; auto.
Qed.

Lemma untouched s : msteps ms (mstart m0) s -> forall r v p, ~ target r v p ->
  ms_mem s r v p = m0 r v p.
Proof.
  intros H. remember (mstart m0) as s0 eqn:E. induction H as [s|s s' s'' Hs IH Hstep]; intros r v p Ht.
  - now subst.
  - specialize (IH E). destruct Hstep as [s' i m k q Hm Hq Hn|s' i m k q a Hm Hq Hn]; cbn [ms_mem].
    + now apply IH.
    + rewrite mwrite_other; [now apply IH|]. intros X. injection X as -> -> ->.
      apply Ht. exists i, m, k. auto.
Qed.

Lemma delivered s r v p x : msteps ms (mstart m0) s -> brings r v p x ->
  (ms_mem s r v p = m0 r v p \/ ms_mem s r v p = x) /\
  forall i m k, nth_error ms i = Some m -> m_dst m = r -> m_rvar m = v -> nth_error (m_rtype m) k = Some p ->
    (forall a, ms_net s i k = Moving a -> a = x) /\ (ms_net s i k = Done -> ms_mem s r v p = x).
Proof.
  intros H Hb. remember (mstart m0) as s0 eqn:E. induction H as [s|s s' s'' Hs IH Hstep].
  - subst. cbn. split; [now left|]. intros; split; discriminate.
  - specialize (IH E). destruct IH as (I0 & I).
    destruct Hstep as [s' i m k q Hm Hq Hn|s' i m k q a Hm Hq Hn]; cbn [ms_mem ms_net].
    + split; [exact I0|]. intros i' m' k' Hm' Hd Hv Hp. specialize (I i' m' k' Hm' Hd Hv Hp).
      destruct (nset_cases (ms_net s') i k (Moving (ms_mem s' (m_src m) (m_svar m) q)) i' k')
        as [(-> & -> & ->)| ->]; [|exact I].
      rewrite Hm in Hm'. injection Hm' as <-.
      destruct (Hb i m k Hm Hd Hv Hp) as (q' & Hq' & Ht & Hx).
      rewrite Hq in Hq'. injection Hq' as <-.
      split; [|discriminate]. intros a Ea. injection Ea as <-. rewrite <- Hx.
      subst s. apply untouched; assumption.
    + assert (W : forall r' v' p', (r', v', p') = (m_dst m, m_rvar m, q) -> r' = r -> v' = v -> p' = p -> a = x).
      { intros r' v' p' X -> -> ->. injection X as Xr Xv Xp. subst q.
        apply (I i m k); auto. }
      assert (M : mwrite (ms_mem s') (m_dst m) (m_rvar m) q a r v p = ms_mem s' r v p \/
                  mwrite (ms_mem s') (m_dst m) (m_rvar m) q a r v p = x).
      { unfold mwrite. destruct (Z.eqb_spec r (m_dst m)); [|now left].
        destruct (Z.eqb_spec v (m_rvar m)); [|now left]. destruct (Z.eqb_spec p q); [|now left].
        right. cbn. apply (W r v p); congruence. }
      split; [destruct M as [-> | ->]; [exact I0|now right]|].
      intros i' m' k' Hm' Hd Hv Hp. specialize (I i' m' k' Hm' Hd Hv Hp).
      destruct (nset_cases (ms_net s') i k (@Done A) i' k') as [(-> & -> & ->)| ->].
      * split; [discriminate|]. intros _. rewrite Hm in Hm'. injection Hm' as <-.
        rewrite Hq in Hp. injection Hp as <-. rewrite <- Hd, <- Hv, mwrite_same.
        apply (W (m_dst m) (m_rvar m) q); auto.
      * destruct I as (I1 & I2). split; [exact I1|]. intros Dn.
        destruct M as [-> | ->]; [now apply I2|reflexivity].
Qed.

Lemma exchanged_keeps m' r v p : exchanged ms m0 m' -> ~ target r v p -> m' r v p = m0 r v p.
Proof. intros (s & Hs & _ & <-). now apply untouched. Qed.
Lemma exchanged_brings m' r v p x : exchanged ms m0 m' -> target r v p -> brings r v p x -> m' r v p = x.
Proof.
  intros (s & Hs & Hf & <-) (i & m & k & Hm & Hd & Hv & Hp) Hb.
  destruct (delivered s r v p x Hs Hb) as (_ & I). destruct (I i m k Hm Hd Hv Hp) as (_ & I2).
  apply I2. apply (Hf i m k Hm). apply nth_error_Some. congruence.
Qed.

(** *** An exchange never gets stuck and always ends *)
Hypothesis Hlen : forall i m, nth_error ms i = Some m -> length (m_stype m) = length (m_rtype m).

Definition weight (x : transit A) : nat := match x with Waiting => 2 | Moving _ => 1 | Done => 0 end.
Definition sumn (f : nat -> nat) (n : nat) : nat := list_sum (map f (seq 0 n)).
Definition msg_len (i : nat) : nat := match nth_error ms i with Some m => length (m_rtype m) | None => 0 end.
Definition left_over (n : nat -> nat -> transit A) : nat :=
  sumn (fun i => sumn (fun k => weight (n i k)) (msg_len i)) (length ms).

Lemma sumn_S f n : sumn f (S n) = (sumn f n + f n)%nat.
Proof. unfold sumn. rewrite seq_S, map_app, list_sum_app. cbn. lia. Qed.
Lemma sumn_ext f h n : (forall i, (i < n)%nat -> f i = h i) -> sumn f n = sumn h n.
Proof. induction n as [|n IH]; intros H; [reflexivity|]. rewrite !sumn_S, IH by (intros; apply H; lia). rewrite H by lia. reflexivity. Qed.
Lemma sumn_lt f h n j : (forall i, (i < n)%nat -> i <> j -> f i = h i) -> (j < n)%nat -> (f j < h j)%nat ->
  (sumn f n < sumn h n)%nat.
Proof.
  induction n as [|n IH]; intros H Hj Hlt; [lia|]. rewrite !sumn_S.
  destruct (Nat.eq_dec n j) as [->|N].
  - rewrite (sumn_ext f h j) by (intros; apply H; lia). lia.
  - rewrite (H n) by lia. assert (sumn f n < sumn h n)%nat; [|lia].
    apply IH; [intros; apply H; lia|lia|exact Hlt].
Qed.
Lemma sumn_pos f n : (0 < sumn f n)%nat -> exists j, (j < n)%nat /\ (0 < f j)%nat.
Proof.
  induction n as [|n IH]; intros H; [cbn in H; lia|]. rewrite sumn_S in H.
  destruct (f n) eqn:E.
  - destruct IH as (j & Hj & P); [lia|]. exists j. lia.
  - exists n. lia.
Qed.
Lemma sumn_zero f n j : sumn f n = 0%nat -> (j < n)%nat -> f j = 0%nat.
Proof.
  induction n as [|n IH]; intros H Hj; [lia|]. rewrite sumn_S in H.
  destruct (Nat.eq_dec j n) as [->|]; [lia|]. apply IH; lia.
Qed.

Lemma nset_less n i k x m : nth_error ms i = Some m -> (k < length (m_rtype m))%nat ->
  (weight x < weight (n i k))%nat -> (left_over (nset n i k x) < left_over n)%nat.
Proof.
  intros Hm Hk Hw. unfold left_over. apply sumn_lt with i.
  - intros i' Hi' N. apply sumn_ext. intros k' _.
    unfold nset. destruct (Nat.eqb_spec i' i); [contradiction|reflexivity].
  - apply nth_error_Some. congruence.
  - unfold msg_len. rewrite Hm. apply sumn_lt with k.
    + intros k' _ N. unfold nset. rewrite Nat.eqb_refl. destruct (Nat.eqb_spec k' k); [contradiction|reflexivity].
    + exact Hk.
    + now rewrite nset_same.
Qed.

Lemma mstep_less s s' : mstep ms s s' -> (left_over (ms_net s') < left_over (ms_net s))%nat.
Proof.
  intros H. destruct H as [s i m k p Hm Hp Hn|s i m k p a Hm Hp Hn]; cbn [ms_net].
  - apply nset_less with m; auto.
    + rewrite <- (Hlen i m Hm). apply nth_error_Some. congruence.
    + rewrite Hn. cbn. lia.
  - apply nset_less with m; auto.
    + apply nth_error_Some. congruence.
    + rewrite Hn. cbn. lia.
Qed.

Lemma final_zero (s : mstate A) : left_over (ms_net s) = 0%nat <-> mfinal ms s.
Proof.
  split.
  - intros H i m k Hm Hk. unfold left_over in H.
    apply sumn_zero with (j := i) in H; [|apply nth_error_Some; congruence].
    unfold msg_len in H. rewrite Hm in H. apply sumn_zero with (j := k) in H; [|exact Hk].
    destruct (ms_net s i k); cbn in H; try lia. reflexivity.
  - intros H. destruct (left_over (ms_net s)) eqn:E; [reflexivity|].
    destruct (sumn_pos (fun i => sumn (fun k => weight (ms_net s i k)) (msg_len i)) (length ms)) as (i & Hi & P).
    { unfold left_over in E. lia. }
    apply sumn_pos in P. destruct P as (k & Hk & P). apply nth_error_Some in Hi.
    unfold msg_len in Hk. destruct (nth_error ms i) as [m|] eqn:Em; [|contradiction].
    rewrite (H i m k Em Hk) in P. cbn in P. lia.
Qed.

Lemma not_stuck (s : mstate A) : mfinal ms s \/ exists s', mstep ms s s'.
Proof.
  destruct (left_over (ms_net s)) eqn:E; [left; now apply final_zero|right].
  destruct (sumn_pos (fun i => sumn (fun k => weight (ms_net s i k)) (msg_len i)) (length ms)) as (i & Hi & P).
  { unfold left_over in E. lia. }
  apply sumn_pos in P. destruct P as (k & Hk & P). apply nth_error_Some in Hi.
  unfold msg_len in Hk. destruct (nth_error ms i) as [m|] eqn:Em; [|contradiction].
  destruct (ms_net s i k) eqn:En.
  - destruct (nth_error (m_stype m) k) as [p|] eqn:Ep.
    + eexists. eapply step_read; eassumption.
    + apply nth_error_None in Ep. rewrite (Hlen i m Em) in Ep. lia.
  - destruct (nth_error (m_rtype m) k) as [p|] eqn:Ep.
    + eexists. eapply step_write; eassumption.
    + apply nth_error_None in Ep. lia.
  - cbn in P. lia.
Qed.

Lemma msteps_trans (s s' s'' : mstate A) : msteps ms s s' -> msteps ms s' s'' -> msteps ms s s''.
Proof.
  intros H1 H2. revert H1. induction H2 as [|a b c Hab IH Hbc]; intros H1; [assumption|].
  apply steps_next with b; [now apply IH|exact Hbc].
Qed.

Lemma completes (s : mstate A) : exists s', msteps ms s s' /\ mfinal ms s'.
Proof.
  remember (left_over (ms_net s)) as n eqn:E. revert s E.
  induction n as [n IH] using lt_wf_ind. intros s E.
  destruct (not_stuck s) as [F|(s1 & S1)].
  - exists s. split; [constructor|exact F].
  - destruct (IH (left_over (ms_net s1))) with (s := s1) as (s2 & S2 & F2); auto.
    + subst n. now apply mstep_less.
    + exists s2. split; [|exact F2]. eapply msteps_trans; [|exact S2].
      eapply steps_next; [constructor|exact S1].
Qed.
End Deliver.
