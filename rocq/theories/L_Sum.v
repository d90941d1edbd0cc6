From Coq Require Import ZArith Reals List Lia Lra.
From Verif Require Import M_Base M_Vec M_Flux S_Boundary S_Flux S_Sum L_Base L_Flux.
Import ListNotations.
Open Scope R_scope.

Lemma sumz_ext lo hi f h : (forall i, (lo <= i < hi)%Z -> f i = h i) -> sumz lo hi f = sumz lo hi h.
Proof.
  intros H. unfold sumz. f_equal. apply map_ext_in. intros i Hi. apply H. now apply zrange_In.
Qed.
Lemma sumz_plus lo hi f h : sumz lo hi (fun i => f i + h i) = sumz lo hi f + sumz lo hi h.
Proof. unfold sumz. induction (zrange lo hi); simpl; [ring|rewrite IHl; ring]. Qed.
Lemma sumz_scal lo hi c f : sumz lo hi (fun i => c * f i) = c * sumz lo hi f.
Proof. unfold sumz. induction (zrange lo hi); simpl; [ring|rewrite IHl; ring]. Qed.
Lemma sumz_minus lo hi f h : sumz lo hi (fun i => f i - h i) = sumz lo hi f - sumz lo hi h.
Proof. unfold sumz. induction (zrange lo hi); simpl; [ring|rewrite IHl; ring]. Qed.
Lemma sumz_zero lo hi : sumz lo hi (fun _ => 0) = 0.
Proof. unfold sumz. induction (zrange lo hi); simpl; [ring|rewrite IHl; ring]. Qed.
Lemma sumz_one t f : sumz t (t + 1) f = f t.
Proof.
  unfold sumz. rewrite zrange_cons by lia. rewrite zrange_empty by lia. simpl. ring.
Qed.
Lemma fold_plus_app l1 l2 : fold_right Rplus 0 (l1 ++ l2) = fold_right Rplus 0 l1 + fold_right Rplus 0 l2.
Proof. induction l1; simpl; [ring|rewrite IHl1; ring]. Qed.
Lemma sumz_snoc lo hi f : (lo <= hi)%Z -> sumz lo (hi + 1) f = sumz lo hi f + f hi.
Proof.
  intros. unfold sumz. rewrite zrange_snoc by lia. rewrite map_app, fold_plus_app. simpl. ring.
Qed.
Lemma sumz_shift lo hi k f : sumz (lo + k) (hi + k) f = sumz lo hi (fun i => f (i + k)%Z).
Proof.
  unfold sumz, zrange. f_equal. rewrite !map_map.
  replace (hi + k - (lo + k))%Z with (hi - lo)%Z by lia.
  apply map_ext. intros. f_equal. lia.
Qed.

Lemma sumz_telescope lo hi F : (lo <= hi)%Z ->
  sumz lo hi (fun i => F (i - 1)%Z - F i) = F (lo - 1)%Z - F (hi - 1)%Z.
Proof.
  intros H. replace hi with (lo + Z.of_nat (Z.to_nat (hi - lo)))%Z by lia.
  induction (Z.to_nat (hi - lo)) as [|m IH].
  - rewrite Z.add_0_r. unfold sumz. rewrite zrange_empty by lia. simpl. ring.
  - rewrite Nat2Z.inj_succ. replace (lo + Z.succ (Z.of_nat m))%Z with (lo + Z.of_nat m + 1)%Z by lia.
    rewrite sumz_snoc by lia. rewrite IH.
    replace (lo + Z.of_nat m + 1 - 1)%Z with (lo + Z.of_nat m)%Z by lia. ring.
Qed.

Lemma sum3_ext lo hi f h :
  (forall c, (forall k, dir k -> (lo k <= coord k c < hi k)%Z) -> f c = h c) ->
  sum3 lo hi f = sum3 lo hi h.
Proof.
  intros H. unfold sum3. apply sumz_ext. intros z Hz. apply sumz_ext. intros y Hy.
  apply sumz_ext. intros x Hx. apply H. intros k Hk. dcase Hk; assumption.
Qed.
Lemma sum3_plus lo hi f h : sum3 lo hi (fun c => f c + h c) = sum3 lo hi f + sum3 lo hi h.
Proof.
  unfold sum3. rewrite <- sumz_plus. apply sumz_ext. intros. rewrite <- sumz_plus.
  apply sumz_ext. intros. apply sumz_plus.
Qed.
Lemma sum3_minus lo hi f h : sum3 lo hi (fun c => f c - h c) = sum3 lo hi f - sum3 lo hi h.
Proof.
  unfold sum3. rewrite <- sumz_minus. apply sumz_ext. intros. rewrite <- sumz_minus.
  apply sumz_ext. intros. apply sumz_minus.
Qed.
Lemma sum3_scal lo hi k f : sum3 lo hi (fun c => k * f c) = k * sum3 lo hi f.
Proof.
  unfold sum3. rewrite <- sumz_scal. apply sumz_ext. intros. rewrite <- sumz_scal.
  apply sumz_ext. intros. apply sumz_scal.
Qed.
Lemma sum3_zero lo hi : sum3 lo hi (fun _ => 0) = 0.
Proof.
  unfold sum3. erewrite sumz_ext.
  - apply sumz_zero.
  - intros z _. cbv beta. erewrite sumz_ext; [apply sumz_zero|].
    intros y _. cbv beta. apply sumz_zero.
Qed.

(** Telescoping in direction [d]: only the two faces remain. *)
Lemma sum3_telescope lo hi d F : dir d -> (lo d <= hi d)%Z ->
  sum3 lo hi (fun c => F (move d (-1) c) - F c) =
  sum3 (upd lo d (lo d - 1)) (upd hi d (lo d)) F -
  sum3 (upd lo d (hi d - 1)) (upd hi d (hi d)) F.
Proof.
  intros Hd Hle.
  assert (E1 : forall a f, sumz (a - 1) a f = f (a - 1)%Z).
  { intros. rewrite <- (sumz_one (a - 1) f). f_equal. lia. }
  unfold sum3, upd. dcase Hd; cbn [Z.eqb Pos.eqb].
  - rewrite <- sumz_minus. apply sumz_ext. intros z _. rewrite <- sumz_minus. apply sumz_ext.
    intros y _. rewrite !E1.
    rewrite <- (sumz_telescope (lo 0%Z) (hi 0%Z) (fun x => F (x, y, z))) by exact Hle.
    apply sumz_ext. intros x _. unfold move. cbn [Z.eqb Pos.eqb]. f_equal.
  - rewrite <- sumz_minus. apply sumz_ext. intros z _. rewrite !E1.
    rewrite <- (sumz_telescope (lo 1%Z) (hi 1%Z)
       (fun y => sumz (lo 0%Z) (hi 0%Z) (fun x => F (x, y, z)))) by exact Hle.
    apply sumz_ext. intros y _. rewrite <- sumz_minus. apply sumz_ext. intros x _.
    unfold move. cbn [Z.eqb Pos.eqb]. f_equal.
  - rewrite !E1.
    rewrite <- (sumz_telescope (lo 2%Z) (hi 2%Z)
       (fun z => sumz (lo 1%Z) (hi 1%Z) (fun y => sumz (lo 0%Z) (hi 0%Z) (fun x => F (x, y, z))))) by exact Hle.
    apply sumz_ext. intros z _. rewrite <- sumz_minus. apply sumz_ext. intros y _.
    rewrite <- sumz_minus. apply sumz_ext. intros x _.
    unfold move. cbn [Z.eqb Pos.eqb]. f_equal.
Qed.

(** Two faces whose values agree cell by cell. *)
Lemma sum3_faces_eq lo hi d F n : dir d -> (hi d = lo d + n)%Z ->
  (forall c, (forall k, dir k -> k <> d -> (lo k <= coord k c < hi k)%Z) -> coord d c = (lo d - 1)%Z ->
     F (move d n c) = F c) ->
  sum3 (upd lo d (lo d - 1)) (upd hi d (lo d)) F =
  sum3 (upd lo d (hi d - 1)) (upd hi d (hi d)) F.
Proof.
  intros Hd Hn H.
  assert (E1 : forall a f, sumz (a - 1) a f = f (a - 1)%Z).
  { intros. rewrite <- (sumz_one (a - 1) f). f_equal. lia. }
  unfold sum3, upd. dcase Hd; cbn [Z.eqb Pos.eqb].
  - apply sumz_ext. intros z Hz. apply sumz_ext. intros y Hy. rewrite !E1.
    rewrite <- (H (lo 0 - 1, y, z)%Z).
    + unfold move. cbn [Z.eqb Pos.eqb]. do 3 f_equal. lia.
    + intros k Hk N. dcase Hk; simpl; lia.
    + reflexivity.
  - apply sumz_ext. intros z Hz. rewrite !E1. apply sumz_ext. intros x Hx.
    rewrite <- (H (x, lo 1 - 1, z)%Z).
    + unfold move. cbn [Z.eqb Pos.eqb]. do 3 f_equal. lia.
    + intros k Hk N. dcase Hk; simpl; lia.
    + reflexivity.
  - rewrite !E1. apply sumz_ext. intros y Hy. apply sumz_ext. intros x Hx.
    rewrite <- (H (x, y, lo 2 - 1)%Z).
    + unfold move. cbn [Z.eqb Pos.eqb]. do 2 f_equal. lia.
    + intros k Hk N. dcase Hk; simpl; lia.
    + reflexivity.
Qed.
