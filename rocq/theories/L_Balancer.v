(** Lemmas on the load balancer. *)
From Coq Require Import ZArith List Bool Lia.
From Verif Require Import M_Base L_Base M_Balancer.
Import ListNotations.
Open Scope Z_scope.

Lemma imul_ok a b : - 2 ^ 31 <= a * b < 2 ^ 31 -> imul a b = Ok (a * b).
Proof.
  intros H. unfold imul.
  rewrite (proj2 (Z.leb_le (- 2 ^ 31) (a * b))) by lia.
  rewrite (proj2 (Z.ltb_lt (a * b) (2 ^ 31))) by lia. reflexivity.
Qed.

Lemma imul_inv a b c : imul a b = Ok c -> c = a * b.
Proof. unfold imul. destruct (_ && _); congruence. Qed.

Lemma filter_false {A} (f : A -> bool) l :
  (forall x, In x l -> f x = false) -> filter f l = [].
Proof.
  induction l as [|x l IH]; cbn; intros H; [reflexivity|].
  rewrite (H x (or_introl eq_refl)). apply IH. auto.
Qed.

Lemma filter_true {A} (f : A -> bool) l :
  (forall x, In x l -> f x = true) -> filter f l = l.
Proof.
  induction l as [|x l IH]; cbn; intros H; [reflexivity|].
  rewrite (H x (or_introl eq_refl)). f_equal. apply IH. auto.
Qed.

Lemma NoDup_same_length {A} (l l' : list A) :
  NoDup l -> NoDup l' -> (forall x, In x l <-> In x l') -> length l = length l'.
Proof.
  intros H H' E. apply Nat.le_antisymm;
    (apply NoDup_incl_length; [assumption|intros x Hx; apply E; exact Hx]).
Qed.

Lemma filter_count n f (l' : list Z) :
  NoDup l' -> (forall x, In x l' <-> 0 <= x < n /\ f x = true) ->
  length (filter f (zrange 0 n)) = length l'.
Proof.
  intros H' E. apply NoDup_same_length.
  - apply NoDup_filter, zrange_NoDup.
  - exact H'.
  - intros x. rewrite filter_In, zrange_In, E. tauto.
Qed.

Lemma map_NoDup_inj {A B} (f : A -> B) l :
  (forall x y, In x l -> In y l -> f x = f y -> x = y) -> NoDup l -> NoDup (map f l).
Proof.
  intros Hinj H. induction H as [|x l Hx Hl IH]; cbn; constructor.
  - rewrite in_map_iff. intros (y & Ey & Hy). apply Hx.
    rewrite (Hinj x y); cbn; auto.
  - apply IH. intros; apply Hinj; cbn; auto.
Qed.

Section Ranks.
  Variables m p : Z.
  Hypothesis Hm : 1 <= m.
  Hypothesis Hp : 1 <= p.

  Lemma quot_rem_of_pair k j : 0 <= k -> 0 <= j < p ->
    Z.quot (k * p + j) p = k /\ Z.rem (k * p + j) p = j.
  Proof.
    intros Hk Hj. assert (0 <= k * p) by (apply Z.mul_nonneg_nonneg; lia).
    rewrite Z.quot_div_nonneg, Z.rem_mod_nonneg by lia.
    split.
    - rewrite Z.div_add_l by lia. rewrite Z.div_small by lia. lia.
    - rewrite Z.add_comm, Z.mod_add by lia. apply Z.mod_small. lia.
  Qed.

  Lemma rank_split r : 0 <= r < m * p ->
    r = Z.quot r p * p + Z.rem r p /\ 0 <= Z.quot r p < m /\ 0 <= Z.rem r p < p.
  Proof.
    intros Hr. rewrite Z.quot_div_nonneg, Z.rem_mod_nonneg by lia.
    pose proof (Z.div_mod r p ltac:(lia)). pose proof (Z.mod_pos_bound r p ltac:(lia)).
    split; [lia|]. split; [|lia]. split.
    - apply Z.div_pos; lia.
    - apply Z.div_lt_upper_bound; lia.
  Qed.

  Lemma stat_members r : 0 <= r < m * p ->
    forall q, In q (cmembers (comm_split (m * p) (fun q => Z.rem q p) (fun q => Z.quot q p) r))
              <-> 0 <= q < m * p /\ Z.rem q p = Z.rem r p.
  Proof.
    intros Hr q. unfold comm_split; cbn [cmembers].
    rewrite filter_In, zrange_In, Z.eqb_eq. tauto.
  Qed.

  Lemma spat_members r : 0 <= r < m * p ->
    forall q, In q (cmembers (comm_split (m * p) (fun q => Z.quot q p) (fun q => Z.rem q p) r))
              <-> 0 <= q < m * p /\ Z.quot q p = Z.quot r p.
  Proof.
    intros Hr q. unfold comm_split; cbn [cmembers].
    rewrite filter_In, zrange_In, Z.eqb_eq. tauto.
  Qed.

  Lemma filter_filter {A} (f g : A -> bool) l :
    filter f (filter g l) = filter (fun x => g x && f x) l.
  Proof.
    induction l as [|x l IH]; cbn; [reflexivity|].
    destruct (g x) eqn:E; cbn; rewrite IH; reflexivity.
  Qed.

  Lemma pair_range k j : 0 <= k < m -> 0 <= j < p -> 0 <= k * p + j < m * p.
  Proof. intros. nia. Qed.

  Lemma stat_comm r : 0 <= r < m * p ->
    crank (comm_split (m * p) (fun q => Z.rem q p) (fun q => Z.quot q p) r) = Z.quot r p
    /\ csize (comm_split (m * p) (fun q => Z.rem q p) (fun q => Z.quot q p) r) = m.
  Proof.
    intros Hr. destruct (rank_split r Hr) as (Er & Hk & Hj).
    unfold comm_split; cbn [crank csize]. rewrite filter_filter. split.
    - rewrite (filter_count _ _ (map (fun k => k * p + Z.rem r p) (zrange 0 (Z.quot r p)))).
      + rewrite map_length, zrange_length. lia.
      + apply map_NoDup_inj; [|apply zrange_NoDup].
        intros x y _ _ E. assert (x * p = y * p) by lia.
        apply Z.mul_cancel_r in H; lia.
      + intros x. rewrite in_map_iff. split.
        * intros (k & <- & Hk'). apply zrange_In in Hk'.
          split; [apply pair_range; lia|].
          destruct (quot_rem_of_pair k (Z.rem r p)) as [E1 E2]; [lia|lia|].
          rewrite E1, E2, Z.eqb_refl. cbn.
          apply orb_true_iff. left. apply Z.ltb_lt. lia.
        * intros [Hx Hf]. apply andb_true_iff in Hf. destruct Hf as [H1 H2].
          apply Z.eqb_eq in H1. destruct (rank_split x Hx) as (Ex & Hkx & Hjx).
          exists (Z.quot x p). rewrite <- H1. split; [lia|]. apply zrange_In.
          apply orb_true_iff in H2. destruct H2 as [H2|H2].
          -- apply Z.ltb_lt in H2. lia.
          -- apply andb_true_iff in H2. destruct H2 as [H2 H3].
             apply Z.eqb_eq in H2. apply Z.ltb_lt in H3. rewrite H1, H2 in Ex. lia.
    - rewrite (filter_count _ _ (map (fun k => k * p + Z.rem r p) (zrange 0 m))).
      + rewrite map_length, zrange_length. lia.
      + apply map_NoDup_inj; [|apply zrange_NoDup].
        intros x y _ _ E. assert (x * p = y * p) by lia.
        apply Z.mul_cancel_r in H; lia.
      + intros x. rewrite in_map_iff. split.
        * intros (k & <- & Hk'). apply zrange_In in Hk'.
          split; [apply pair_range; lia|].
          destruct (quot_rem_of_pair k (Z.rem r p)) as [E1 E2]; [lia|lia|].
          rewrite E2. apply Z.eqb_refl.
        * intros [Hx H1]. apply Z.eqb_eq in H1.
          destruct (rank_split x Hx) as (Ex & Hkx & Hjx).
          exists (Z.quot x p). rewrite <- H1. split; [lia|]. apply zrange_In. lia.
  Qed.

  Lemma spat_comm r : 0 <= r < m * p ->
    crank (comm_split (m * p) (fun q => Z.quot q p) (fun q => Z.rem q p) r) = Z.rem r p
    /\ csize (comm_split (m * p) (fun q => Z.quot q p) (fun q => Z.rem q p) r) = p.
  Proof.
    intros Hr. destruct (rank_split r Hr) as (Er & Hk & Hj).
    unfold comm_split; cbn [crank csize]. rewrite filter_filter. split.
    - rewrite (filter_count _ _ (map (fun j => Z.quot r p * p + j) (zrange 0 (Z.rem r p)))).
      + rewrite map_length, zrange_length. lia.
      + apply map_NoDup_inj; [|apply zrange_NoDup]. intros x y _ _ E. lia.
      + intros x. rewrite in_map_iff. split.
        * intros (k & <- & Hk'). apply zrange_In in Hk'.
          split; [apply pair_range; lia|].
          destruct (quot_rem_of_pair (Z.quot r p) k) as [E1 E2]; [lia|lia|].
          rewrite E1, E2, Z.eqb_refl. cbn.
          apply orb_true_iff. left. apply Z.ltb_lt. lia.
        * intros [Hx Hf]. apply andb_true_iff in Hf. destruct Hf as [H1 H2].
          apply Z.eqb_eq in H1. destruct (rank_split x Hx) as (Ex & Hkx & Hjx).
          exists (Z.rem x p). rewrite <- H1. split; [lia|]. apply zrange_In.
          apply orb_true_iff in H2. destruct H2 as [H2|H2].
          -- apply Z.ltb_lt in H2. lia.
          -- apply andb_true_iff in H2. destruct H2 as [H2 H3].
             apply Z.eqb_eq in H2. apply Z.ltb_lt in H3. rewrite H1, H2 in Ex. lia.
    - rewrite (filter_count _ _ (map (fun j => Z.quot r p * p + j) (zrange 0 p))).
      + rewrite map_length, zrange_length. lia.
      + apply map_NoDup_inj; [|apply zrange_NoDup]. intros x y _ _ E. lia.
      + intros x. rewrite in_map_iff. split.
        * intros (k & <- & Hk'). apply zrange_In in Hk'.
          split; [apply pair_range; lia|].
          destruct (quot_rem_of_pair (Z.quot r p) k) as [E1 E2]; [lia|lia|].
          rewrite E1. apply Z.eqb_refl.
        * intros [Hx H1]. apply Z.eqb_eq in H1.
          destruct (rank_split x Hx) as (Ex & Hkx & Hjx).
          exists (Z.rem x p). rewrite <- H1. split; [lia|]. apply zrange_In. lia.
  Qed.
End Ranks.

(** The loop returns the contiguous block. *)
Lemma take_samples_ok l lo hi :
  0 <= lo -> hi <= Z.of_nat (length l) ->
  take_samples l lo hi = Ok (map (fun i => nth (Z.to_nat i) l 0) (zrange lo hi)).
Proof.
  intros Hlo Hhi. unfold take_samples, for_.
  assert (G : forall r acc, (forall i, In i r -> i < Z.of_nat (length l)) ->
    fold_res (fun i acc0 => if Z.of_nat (length l) <=? i then Throw
                            else Ok (acc0 ++ [nth (Z.to_nat i) l 0])) r acc
    = Ok (acc ++ map (fun i => nth (Z.to_nat i) l 0) r)).
  { induction r as [|i r IH]; intros acc H; cbn [fold_res map].
    - now rewrite app_nil_r.
    - rewrite (proj2 (Z.leb_gt (Z.of_nat (length l)) i)) by (apply H; cbn; auto).
      cbn [bind]. rewrite IH by (intros; apply H; cbn; auto).
      now rewrite <- app_assoc. }
  rewrite G; [reflexivity|]. intros i Hi. apply zrange_In in Hi. lia.
Qed.

Lemma nth_all l : map (fun i => nth (Z.to_nat i) l 0) (zrange 0 (Z.of_nat (length l))) = l.
Proof.
  unfold zrange. rewrite map_map, Z.sub_0_r, Nat2Z.id.
  induction l as [|x l IH]; [reflexivity|].
  cbn [length seq map]. f_equal. rewrite <- seq_shift, map_map.
  rewrite <- IH at 2. apply map_ext. intros k.
  replace (Z.to_nat (0 + Z.of_nat (S k))) with (S (Z.to_nat (0 + Z.of_nat k))) by lia.
  reflexivity.
Qed.

(** Blocks of equal length cover the range. *)
Lemma blocks_cover per (k : nat) :
  0 <= per ->
  flat_map (fun i => zrange (per * i) (per * (i + 1))) (zrange 0 (Z.of_nat k))
  = zrange 0 (per * Z.of_nat k).
Proof.
  intros Hper. induction k as [|k IH].
  - replace (Z.of_nat 0) with 0 by lia. rewrite Z.mul_0_r, !zrange_empty by lia. reflexivity.
  - replace (Z.of_nat (S k)) with (Z.of_nat k + 1) by lia.
    rewrite zrange_snoc by lia. rewrite flat_map_app, IH. cbn [flat_map].
    rewrite app_nil_r. rewrite <- zrange_app by nia. reflexivity.
Qed.

Lemma load_balance_ok ms sx sy sz samples r :
  1 <= ms -> 1 <= sx -> 1 <= sy -> 1 <= sz -> ms * sx * sy * sz < 2 ^ 31 ->
  Z.of_nat (length samples) mod ms = 0 ->
  0 <= r < ms * (sx * sy * sz) ->
  let p := sx * sy * sz in
  let per := Z.of_nat (length samples) / ms in
  load_balance ms sx sy sz (ms * sx * sy * sz) samples r
  = Ok (map (fun i => nth (Z.to_nat i) samples 0)
          (zrange (per * Z.quot r p) (per * (Z.quot r p + 1))),
        comm_split (ms * p) (fun q => Z.rem q p) (fun q => Z.quot q p) r,
        comm_split (ms * p) (fun q => Z.quot q p) (fun q => Z.rem q p) r).
Proof.
  intros Hm Hx Hy Hz Hfit Hmod Hr p per.
  assert (Hxy : 1 <= sx * sy) by nia.
  assert (Hp : 1 <= p) by (subst p; nia).
  assert (Ep : ms * sx * sy * sz = ms * p) by (subst p; ring).
  assert (Hmx : 1 <= ms * sx) by nia.
  assert (Hmxy : 1 <= ms * sx * sy) by nia.
  assert (B2 : ms * sx * sy <= ms * sx * sy * sz) by nia.
  assert (B1 : ms * sx <= ms * sx * sy) by nia.
  assert (Bp : p <= ms * p) by nia.
  assert (Bxy : sx * sy <= p) by (subst p; nia).
  assert (Bm : ms <= ms * p) by nia.
  unfold load_balance.
  rewrite (imul_ok ms sx) by lia. cbn [bind].
  rewrite (imul_ok (ms * sx) sy) by lia. cbn [bind].
  rewrite (imul_ok (ms * sx * sy) sz) by lia. cbn [bind].
  rewrite Z.eqb_refl. cbn [negb].
  assert (Es : size_of_int ms = ms) by (unfold size_of_int; apply Z.mod_small; lia).
  rewrite Es. rewrite (proj2 (Z.eqb_neq ms 0)) by lia.
  rewrite Hmod. cbn [Z.eqb negb].
  rewrite (imul_ok sx sy) by lia. cbn [bind].
  rewrite (imul_ok (sx * sy) sz) by (fold p; lia). cbn [bind]. fold p.
  rewrite (proj2 (Z.eqb_neq p 0)) by lia.
  rewrite Ep. fold per.
  destruct (stat_comm ms p Hm Hp r) as [E1 _]; [exact Hr|]. rewrite E1.
  destruct (rank_split ms p Hp r) as (_ & Hk & _); [exact Hr|].
  assert (Eper : Z.of_nat (length samples) = ms * per).
  { subst per. apply Z_div_exact_full_2; [lia|exact Hmod]. }
  assert (Hper : 0 <= per) by (subst per; apply Z.div_pos; lia).
  rewrite take_samples_ok; [reflexivity| |].
  - apply Z.mul_nonneg_nonneg; lia.
  - rewrite Eper. rewrite (Z.mul_comm ms). apply Z.mul_le_mono_nonneg_l; lia.
Qed.
