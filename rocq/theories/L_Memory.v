(** Lemmas about the element-wise loops, sums and coarsening. *)
From Coq Require Import ZArith Reals List Bool Lia Lra.
From Verif Require Import M_Base L_Base L_Loops M_Sim L_Sim M_Memory S_Boundary S_Sum L_Sum S_Memory.
Import ListNotations.
Open Scope Z_scope.

Lemma mload_ok v i : 0 <= i < vsize v -> mload v i = Ok (vdat v i).
Proof.
  intros. unfold mload. rewrite (proj2 (Z.leb_le 0 i)), (proj2 (Z.ltb_lt i (vsize v))) by lia. reflexivity.
Qed.

Lemma mload_ub v i : ~ (0 <= i < vsize v) -> mload v i = UB.
Proof.
  intros. unfold mload. destruct (0 <=? i) eqn:A; [|reflexivity].
  destruct (i <? vsize v) eqn:B; [|reflexivity]. apply Z.leb_le in A. apply Z.ltb_lt in B. lia.
Qed.

Lemma mstore_ub v i a : ~ (0 <= i < vsize v) -> mstore v i a = UB.
Proof.
  intros. unfold mstore. destruct (0 <=? i) eqn:A; [|reflexivity].
  destruct (i <? vsize v) eqn:B; [|reflexivity]. apply Z.leb_le in A. apply Z.ltb_lt in B. lia.
Qed.

Lemma mstore_ok v i a : 0 <= i < vsize v ->
  exists v', mstore v i a = Ok v' /\ same_dims v v' /\
    forall j, vdat v' j = if j =? i then a else vdat v j.
Proof.
  intros. unfold mstore. rewrite (proj2 (Z.leb_le 0 i)), (proj2 (Z.ltb_lt i (vsize v))) by lia.
  eexists. split; [reflexivity|]. split; [repeat split|]. intros; reflexivity.
Qed.

Lemma vsize_same {A B} (v : vol A) (w : vol B) : same_dims v w -> vsize v = vsize w.
Proof. intros (a & b & c). unfold vsize. congruence. Qed.

(** The element-wise loop. *)
Lemma ew_spec hi (f : Z -> R -> res R) (g : Z -> R) v :
  hi <= vsize v ->
  (forall i, 0 <= i < hi -> f i (vdat v i) = Ok (g i)) ->
  exists v', ew_loop hi f v = Ok v' /\ same_dims v v' /\
    forall i, vdat v' i = if (0 <=? i) && (i <? hi) then g i else vdat v i.
Proof.
  intros Hhi Hf. destruct (Z_lt_ge_dec hi 0) as [Hn|Hn].
  - unfold ew_loop, for_. rewrite zrange_empty by lia. exists v. split; [reflexivity|].
    split; [apply same_dims_refl|]. intros i.
    destruct (0 <=? i) eqn:A; [|reflexivity]. destruct (i <? hi) eqn:B; [|reflexivity].
    apply Z.leb_le in A. apply Z.ltb_lt in B. lia.
  - unfold ew_loop.
    destruct (for_inv (fun k w => same_dims v w /\
        forall i, vdat w i = if (0 <=? i) && (i <? k) then g i else vdat v i)
      0 hi (fun i w => a <- mload w i;; b <- f i a;; mstore w i b) v) as (v' & E & D & W); [lia| | |].
    + split; [apply same_dims_refl|]. intros i.
      destruct (0 <=? i) eqn:A; [|reflexivity]. destruct (i <? 0) eqn:B; [|reflexivity].
      apply Z.leb_le in A. apply Z.ltb_lt in B. lia.
    + intros k w Hk (D & W). pose proof (vsize_same _ _ D) as S.
      rewrite mload_ok by lia. cbn [bind]. rewrite W.
      replace ((0 <=? k) && (k <? k)) with false by (rewrite Z.ltb_irrefl; now rewrite andb_false_r).
      rewrite Hf by lia. cbn [bind].
      destruct (mstore_ok w k (g k)) as (w' & E & D' & W'); [lia|].
      exists w'. split; [exact E|]. split; [eapply same_dims_trans; eauto|].
      intros i. rewrite W', W. destruct (Z.eqb_spec i k) as [->|N].
      * rewrite (proj2 (Z.leb_le 0 k)), (proj2 (Z.ltb_lt k (k + 1))) by lia. reflexivity.
      * destruct (0 <=? i); [|reflexivity]. cbn [andb].
        destruct (Z.ltb_spec i k), (Z.ltb_spec i (k + 1)); try reflexivity; lia.
    + exists v'. auto.
Qed.

Lemma ew_all hi f g v : hi = vsize v ->
  (forall i, 0 <= i < vsize v -> f i (vdat v i) = Ok (g i)) ->
  acts_on_all v (ew_loop hi f v) g.
Proof.
  intros -> Hf. destruct (ew_spec (vsize v) f g v) as (v' & E & (a & b & c) & W); [lia|auto|].
  exists v'. repeat split; try congruence. intros i Hi. rewrite W.
  change (elements v) with (vsize v) in Hi.
  rewrite (proj2 (Z.leb_le 0 i)), (proj2 (Z.ltb_lt i (vsize v))) by lia. reflexivity.
Qed.

Lemma int_bound_small v : 0 <= elements v < 2 ^ 31 -> int_bound v = vsize v.
Proof. intros H. unfold int_bound. apply int32_small. exact H. Qed.

Lemma int32_lt z : 2 ^ 31 <= z -> int32 z < z.
Proof.
  intros. unfold int32. pose proof (Z.mod_pos_bound (z + 2 ^ 31) (2 ^ 32) ltac:(lia)).
  assert (2 ^ 32 = 2 * 2 ^ 31) by reflexivity. lia.
Qed.

Lemma int32_range z : - 2 ^ 31 <= int32 z < 2 ^ 31.
Proof.
  unfold int32. pose proof (Z.mod_pos_bound (z + 2 ^ 31) (2 ^ 32) ltac:(lia)).
  assert (2 ^ 32 = 2 * 2 ^ 31) by reflexivity. lia.
Qed.

Lemma int32_neg z : 2 ^ 31 <= z < 2 ^ 32 -> int32 z = z - 2 ^ 32.
Proof.
  intros. unfold int32. assert (E : 2 ^ 32 = 2 * 2 ^ 31) by reflexivity.
  replace (z + 2 ^ 31) with ((z - 2 ^ 31) + 1 * 2 ^ 32) by lia.
  rewrite Z_mod_plus_full, Z.mod_small by lia. lia.
Qed.

Lemma same_size_true v w : vsize v = vsize w -> same_size v w = true.
Proof. intros. unfold same_size. now apply Z.eqb_eq. Qed.

(** Loops that add up. *)
Lemma for_acc lo hi (body : Z -> R -> res R) (g : Z -> R) s :
  (forall i a, lo <= i < hi -> body i a = Ok (a + g i)%R) ->
  for_ lo hi body s = Ok (s + sumz lo hi g)%R.
Proof.
  intros H. destruct (Z_lt_ge_dec lo hi) as [L|L].
  - destruct (for_inv (fun k a => a = (s + sumz lo k g)%R) lo hi body s) as (a & E & ->); [lia| | |exact E].
    + unfold sumz. rewrite zrange_empty by lia. cbn. lra.
    + intros i a Hi ->. rewrite H by lia. eexists. split; [reflexivity|].
      rewrite sumz_snoc by lia. ring.
  - unfold for_, sumz. rewrite zrange_empty by lia. cbn. f_equal. lra.
Qed.

Lemma for3_acc (lo hi : Z -> Z) (body : Z -> Z -> Z -> R -> res R) (g : cell -> R) s :
  (forall x y z a, lo 0 <= x < hi 0 -> lo 1 <= y < hi 1 -> lo 2 <= z < hi 2 ->
     body x y z a = Ok (a + g (x, y, z))%R) ->
  for3 (lo 2) (hi 2) (lo 1) (hi 1) (lo 0) (hi 0) body s = Ok (s + sum3 lo hi g)%R.
Proof.
  intros H. unfold for3, sum3. apply for_acc. intros z a Hz. apply for_acc. intros y b Hy.
  apply for_acc. intros x c Hx. now apply H.
Qed.

Lemma sumz_nonneg lo hi f : (forall i, lo <= i < hi -> (0 <= f i)%R) -> (0 <= sumz lo hi f)%R.
Proof.
  intros H. unfold sumz. assert (K : forall i, In i (zrange lo hi) -> (0 <= f i)%R).
  { intros i Hi. apply H. now apply zrange_In. }
  induction (zrange lo hi) as [|i l IH]; cbn; [lra|].
  assert (0 <= f i)%R by (apply K; now left).
  assert (0 <= fold_right Rplus 0 (map f l))%R by (apply IH; intros; apply K; now right). lra.
Qed.

Lemma sumz_zero_inv lo hi f : (forall i, lo <= i < hi -> (0 <= f i)%R) ->
  sumz lo hi f = 0%R -> forall i, lo <= i < hi -> f i = 0%R.
Proof.
  intros H. unfold sumz. assert (K : forall i, In i (zrange lo hi) -> (0 <= f i)%R).
  { intros i Hi. apply H. now apply zrange_In. }
  intros E i Hi. apply zrange_In in Hi. revert E K Hi. generalize (zrange lo hi) as l.
  induction l as [|j l IH]; cbn; intros E K Hi; [contradiction|].
  assert (0 <= f j)%R by (apply K; now left).
  assert (0 <= fold_right Rplus 0 (map f l))%R.
  { clear -K. induction l as [|k l IH]; cbn; [lra|].
    assert (0 <= f k)%R by (apply K; right; now left).
    assert (0 <= fold_right Rplus 0 (map f l))%R by (apply IH; intros m Hm; apply K; destruct Hm; [left; auto|right; now right]). lra. }
  destruct Hi as [->|Hi]; [lra|]. apply IH; auto. lra.
Qed.

Lemma sum3_zero_inv lo hi f : (forall x y z, lo 0 <= x < hi 0 -> lo 1 <= y < hi 1 -> lo 2 <= z < hi 2 -> (0 <= f (x, y, z))%R) ->
  sum3 lo hi f = 0%R ->
  forall x y z, lo 0 <= x < hi 0 -> lo 1 <= y < hi 1 -> lo 2 <= z < hi 2 -> f (x, y, z) = 0%R.
Proof.
  intros P E x y z Hx Hy Hz. unfold sum3 in E.
  eapply sumz_zero_inv in E; [| |exact Hz].
  2:{ intros z' Hz'. apply sumz_nonneg. intros y' Hy'. apply sumz_nonneg. intros x' Hx'. now apply P. }
  cbv beta in E. eapply sumz_zero_inv in E; [| |exact Hy].
  2:{ intros y' Hy'. apply sumz_nonneg. intros x' Hx'. now apply P. }
  cbv beta in E. eapply sumz_zero_inv in E; [exact E| |exact Hx].
  intros x' Hx'. now apply P.
Qed.

Lemma cpow_nat x n : cpow x (Z.of_nat n) = (x ^ n)%R.
Proof. unfold cpow. now rewrite pow_powerRZ. Qed.

Lemma sqrt_one_diff d : sqrt (cpow 0 2 + cpow d 2) = Rabs d.
Proof.
  unfold cpow. change 2 with (Z.of_nat 2). rewrite <- !pow_powerRZ.
  replace (0 ^ 2 + d ^ 2)%R with (Rsqr d) by (unfold Rsqr; ring). apply sqrt_Rsqr_abs.
Qed.

Lemma pow_zero_iff x n : (0 < n)%nat -> (x ^ n = 0)%R -> x = 0%R.
Proof.
  intros H E. destruct (Req_dec x 0) as [|N]; [auto|]. exfalso. now apply (pow_nonzero x n).
Qed.
