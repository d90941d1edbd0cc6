(** Property C47: total variation of a memory area. *)
From Coq Require Import ZArith Reals List Bool Lia Lra.
From Verif Require Import L_Flux M_Base L_Base L_Loops M_Sim L_Sim M_Memory S_Boundary S_Sum L_Sum S_Memory L_Memory.
Import ListNotations.
Open Scope Z_scope.

(** In one space dimension getTotalVariation is the sum over all pairs of
    neighbours in [a, b).  Full statement: also in two dimensions, and for all
    sizes; see the refutations below. *)
Theorem C47_line_partial : forall v p a b,
  vny v = 1 -> vnz v = 1 -> vnx v < 2 ^ 31 -> 0 <= a -> b <= vnx v ->
  total_variation v (Z.of_nat p) (a, 0, 0) (b, 1, 1)
  = Ok (pair_sum p 0 (comp (a, 0, 0)) (comp (b, 1, 1)) (vget v)).
Proof.
  intros v p a b Hy Hz Hx Ha Hb. unfold total_variation. rewrite Hy, Hz. cbn [Z.ltb Z.compare Pos.compare Pos.compare_cont].
  rewrite (for3_acc (nvec (a + 1) 0 0) (nvec b 1 1) _ (fun c => let '(x, y, z) := c in
     (Rabs (vget v (x, y, z) - vget v ((x - 1)%Z, y, z)) ^ p)%R) 0%R).
  - f_equal. rewrite Rplus_0_l. unfold pair_sum. unfold sum3. apply sumz_ext. intros z _.
    apply sumz_ext. intros y _. apply sumz_ext. intros x _.
    change (b2z (0 =? 0)) with 1. change (b2z (0 =? 1)) with 0. change (b2z (0 =? 2)) with 0.
    rewrite !Z.sub_0_r. reflexivity.
  - intros x y z acc Rx Ry Rz. cbn in Rx, Ry, Rz. assert (y = 0) by lia. assert (z = 0) by lia. subst y z.
    assert (Sx : vsize v = vnx v) by (unfold vsize; rewrite Hy, Hz; ring).
    replace (0 * vnx v * 1 + 0 * vnx v + x) with x by ring.
    replace (0 * vnx v * 1 + 0 * vnx v + (x - 1)) with (x - 1) by ring.
    rewrite !int32_small by lia. rewrite !mload_ok by (rewrite Sx; lia). cbn [bind].
    unfold vget, index. rewrite Hy.
    replace (0 * vnx v * 1 + 0 * vnx v + x) with x by ring.
    replace (0 * vnx v * 1 + 0 * vnx v + (x - 1)) with (x - 1) by ring.
    replace (vdat v x - vdat v x)%R with 0%R by ring.
    rewrite sqrt_one_diff, cpow_nat. reflexivity.
Qed.

(** In two space dimensions it is the sum over all cells of the box that have a
    left and a lower neighbour in it.  The full statement, all pairs of
    neighbours, is refuted below ([C47_plane_refuted]): the pairs within the
    first row and the first column are missing. *)
Theorem C47_plane_partial : forall v p a b a' b',
  1 < vny v -> vnz v = 1 -> vnx v * vny v < 2 ^ 31 ->
  0 <= a -> b <= vnx v -> 0 <= a' -> b' <= vny v ->
  total_variation v (Z.of_nat p) (a, a', 0) (b, b', 1)
  = Ok (gradient_sum p (comp (a, a', 0)) (comp (b, b', 1)) (vget v)).
Proof.
  intros v p a b a' b' Hy Hz Hs Ha Hb Ha' Hb'. unfold total_variation. rewrite Hz.
  rewrite (proj2 (Z.ltb_lt 1 (vny v))) by lia. change (1 <? 1) with false. cbv iota.
  rewrite (for3_acc (nvec (a + 1) (a' + 1) 0) (nvec b b' 1) _ (fun c => let '(x, y, z) := c in
     (sqrt ((vget v (x, y, z) - vget v (x, (y - 1)%Z, z)) ^ 2 +
            (vget v (x, y, z) - vget v ((x - 1)%Z, y, z)) ^ 2) ^ p)%R) 0%R).
  - f_equal. rewrite Rplus_0_l. reflexivity.
  - intros x y z acc Rx Ry Rz. cbn in Rx, Ry, Rz. assert (z = 0) by lia. subst z.
    assert (Sx : vsize v = vnx v * vny v) by (unfold vsize; rewrite Hz; ring).
    assert (B1 : 0 <= index (vnx v) (vny v) x y 0 < vnx v * vny v).
    { unfold index. assert (y * vnx v <= (vny v - 1) * vnx v) by (apply Z.mul_le_mono_nonneg_r; lia).
      assert (0 <= y * vnx v) by (apply Z.mul_nonneg_nonneg; lia). nia. }
    assert (B2 : 0 <= index (vnx v) (vny v) x (y - 1) 0 < vnx v * vny v).
    { unfold index in *. assert (0 <= (y - 1) * vnx v) by (apply Z.mul_nonneg_nonneg; lia). nia. }
    assert (B3 : 0 <= index (vnx v) (vny v) (x - 1) y 0 < vnx v * vny v).
    { unfold index in *. assert (0 <= y * vnx v) by (apply Z.mul_nonneg_nonneg; lia). nia. }
    unfold index in B1, B2, B3. unfold vget, index.
    rewrite !int32_small by lia. rewrite !mload_ok by (rewrite Sx; lia). cbn [bind].
    rewrite cpow_nat. unfold cpow. change 2 with (Z.of_nat 2). rewrite <- !pow_powerRZ. reflexivity.
Qed.

(** The version with a direction, in any number of dimensions and for every
    direction it accepts. *)
Theorem C47_directional : forall v d p start stop,
  dir d -> d <= 1 + b2z (1 <? vny v) + b2z (1 <? vnz v) ->
  (forall k, dir k -> 0 <= comp start k /\ comp stop k <= comp (vnx v, vny v, vnz v) k) ->
  total_variation_dir v d (Z.of_nat p) start stop = Ok (pair_sum p d (comp start) (comp stop) (vget v)).
Proof.
  intros v d p [[sx sy] sz] [[ex ey] ez] Hd Hacc Hb.
  destruct (Hb 0) as (Bx & Bx'); [red; auto|]. destruct (Hb 1) as (By & By'); [red; auto|].
  destruct (Hb 2) as (Bz & Bz'); [red; auto|].
  cbn in Bx, Bx', By, By', Bz, Bz'. clear Hb.
  unfold total_variation_dir, direction_vector.
  destruct (1 + b2z (1 <? vny v) + b2z (1 <? vnz v) <? d) eqn:C; [apply Z.ltb_lt in C; lia|]. clear C.
  rewrite (for3_acc (nvec (sx + b2z (d =? 0)) (sy + b2z (d =? 1)) (sz + b2z (d =? 2))) (nvec ex ey ez) _
     (fun c => (Rabs (vget v c - vget v (let '(x, y, z) := c in
       ((x - b2z (d =? 0))%Z, (y - b2z (d =? 1))%Z, (z - b2z (d =? 2))%Z))) ^ p)%R) 0%R).
  - f_equal. rewrite Rplus_0_l. unfold pair_sum, sum3. unfold dir in Hd.
    destruct Hd as [->|[->| ->]]; cbn; rewrite ?Z.add_0_r; reflexivity.
  - intros x y z acc Rx Ry Rz. cbn in Rx, Ry, Rz.
    assert (0 <= b2z (d =? 0) <= 1) by (destruct (d =? 0); cbn; lia).
    assert (0 <= b2z (d =? 1) <= 1) by (destruct (d =? 1); cbn; lia).
    assert (0 <= b2z (d =? 2) <= 1) by (destruct (d =? 2); cbn; lia).
    rewrite vload_ok by (unfold inr; lia). cbn [bind].
    rewrite vload_ok by (unfold inr; lia). cbn [bind].
    rewrite cpow_nat. reflexivity.
Qed.

(** Adding a constant to, or moving, the contents does not change the sum. *)
Theorem C47_translation_invariant : forall v w d p start stop sh c,
  dir d -> d <= 1 + b2z (1 <? vny v) + b2z (1 <? vnz v) ->
  d <= 1 + b2z (1 <? vny w) + b2z (1 <? vnz w) ->
  (forall k, dir k -> 0 <= comp start k /\ comp stop k <= comp (vnx v, vny v, vnz v) k) ->
  (forall k, dir k -> 0 <= comp (cadd start sh) k /\
     comp (cadd stop sh) k <= comp (vnx w, vny w, vnz w) k) ->
  (forall x, (forall k, dir k -> comp start k <= comp x k < comp stop k) ->
     vget w (cadd x sh) = (vget v x + c)%R) ->
  total_variation_dir w d (Z.of_nat p) (cadd start sh) (cadd stop sh)
  = total_variation_dir v d (Z.of_nat p) start stop.
Proof.
  intros v w d p start stop sh c Hd Av Aw Bv Bw E.
  rewrite !C47_directional by auto. f_equal.
  destruct start as [[sx sy] sz], stop as [[ex ey] ez], sh as [[hx hy] hz].
  unfold pair_sum, sum3. cbn [cadd comp nvec Z.eqb Pos.eqb].
  assert (P : forall (q : bool) s h, (if q then s + h + 1 else s + h) = (if q then s + 1 else s) + h)
    by (intros [|] ? ?; lia).
  unfold nvec. cbn [Z.eqb Pos.eqb].
  rewrite !P, sumz_shift. apply sumz_ext. intros z Hz. rewrite sumz_shift. apply sumz_ext. intros y Hy.
  rewrite sumz_shift. apply sumz_ext. intros x Hx.
  assert (R : forall x y z, sx <= x < ex -> sy <= y < ey -> sz <= z < ez ->
    vget w (x + hx, y + hy, z + hz) = (vget v (x, y, z) + c)%R).
  { intros x' y' z' Rx Ry Rz. apply (E (x', y', z')). intros k Hk. unfold dir in Hk.
    destruct Hk as [->|[->| ->]]; cbn; lia. }
  unfold dir in Hd.
  replace (x + hx - b2z (d =? 0)) with (x - b2z (d =? 0) + hx) by ring.
  replace (y + hy - b2z (d =? 1)) with (y - b2z (d =? 1) + hy) by ring.
  replace (z + hz - b2z (d =? 2)) with (z - b2z (d =? 2) + hz) by ring.
  rewrite !R.
  - f_equal. f_equal. ring.
  - destruct Hd as [->|[->| ->]]; cbn in Hx |- *; lia.
  - destruct Hd as [->|[->| ->]]; cbn in Hy |- *; lia.
  - destruct Hd as [->|[->| ->]]; cbn in Hz |- *; lia.
  - destruct Hd as [->|[->| ->]]; cbn in Hx |- *; lia.
  - destruct Hd as [->|[->| ->]]; cbn in Hy |- *; lia.
  - destruct Hd as [->|[->| ->]]; cbn in Hz |- *; lia.
Qed.

(** It is zero exactly for contents that are constant along the direction. *)
Theorem C47_zero_iff_constant : forall v d p start stop,
  dir d -> d <= 1 + b2z (1 <? vny v) + b2z (1 <? vnz v) -> (0 < p)%nat ->
  (forall k, dir k -> 0 <= comp start k /\ comp stop k <= comp (vnx v, vny v, vnz v) k) ->
  total_variation_dir v d (Z.of_nat p) start stop = Ok 0%R <->
  (forall c c', (forall k, dir k -> comp start k <= comp c k < comp stop k) ->
     (forall k, dir k -> comp start k <= comp c' k < comp stop k) ->
     (forall k, dir k -> k <> d -> comp c k = comp c' k) -> vget v c = vget v c').
Proof.
  intros v d p start stop Hd Av Hp Bv. rewrite C47_directional by auto.
  destruct start as [[sx sy] sz], stop as [[ex ey] ez].
  set (s := (sx, sy, sz)). set (e := (ex, ey, ez)).
  pose (back := fun c : cell => let '(x, y, z) := c in
       ((x - b2z (d =? 0))%Z, (y - b2z (d =? 1))%Z, (z - b2z (d =? 2))%Z)).
  unfold pair_sum. fold (comp s) (comp e).
  change (fun c : cell => Rabs (vget v c - vget v (let '(x, y, z) := c in
       ((x - b2z (d =? 0))%Z, (y - b2z (d =? 1))%Z, (z - b2z (d =? 2))%Z))) ^ p)%R
    with (fun c : cell => Rabs (vget v c - vget v (back c)) ^ p)%R.
  split.
  - intros E. injection E as E. 
    pose proof (sum3_zero_inv _ _ _ (fun x y z _ _ _ => pow_le (Rabs (vget v (x, y, z) - vget v (back (x, y, z)))) p (Rabs_pos _)) E) as Z0.
    clear E.
    assert (St : forall c, (forall k, dir k -> comp s k <= comp c k < comp e k) -> comp s d < comp c d ->
      vget v c = vget v (back c)).
    { intros [[x y] z] Hc Hcd.
      specialize (Z0 x y z). cbn beta in Z0.
      assert (Hx := Hc 0 ltac:(red; auto)). assert (Hy := Hc 1 ltac:(red; auto)). assert (Hz := Hc 2 ltac:(red; auto)).
      assert (Q : (Rabs (vget v (x, y, z) - vget v (back (x, y, z))) ^ p)%R = 0%R).
      { apply Z0; destruct Hd as [->|[->| ->]]; cbn in *; lia. }
      apply pow_zero_iff in Q; [|exact Hp]. destruct (Req_dec (vget v (x, y, z) - vget v (back (x, y, z))) 0) as [W|W]; [lra|].
      apply Rabs_no_R0 in W. contradiction. }
    (* walk from c down to the start of the box *)
    assert (G : forall m c, (forall k, dir k -> comp s k <= comp c k < comp e k) ->
      comp c d = comp s d + Z.of_nat m ->
      vget v c = vget v (let '(x, y, z) := c in
        (if d =? 0 then sx else x, if d =? 1 then sy else y, if d =? 2 then sz else z))).
    { induction m as [|m IH]; intros [[x y] z] Hc Em.
      - f_equal. destruct Hd as [->|[->| ->]]; cbn in Em |- *; repeat apply f_equal2; try reflexivity; lia.
      - rewrite St by (auto; lia).
        assert (Hx := Hc 0 ltac:(red; auto)). assert (Hy := Hc 1 ltac:(red; auto)). assert (Hz := Hc 2 ltac:(red; auto)).
        rewrite (IH (back (x, y, z))).
        + f_equal. destruct Hd as [->|[->| ->]]; cbn; repeat apply f_equal2; try reflexivity; lia.
        + intros k Hk. destruct Hd as [->|[->| ->]], Hk as [->|[->| ->]]; cbn in *; lia.
        + destruct Hd as [->|[->| ->]]; cbn in *; lia. }
    intros c c' Hc Hc' Hk.
    rewrite (G (Z.to_nat (comp c d - comp s d)) c), (G (Z.to_nat (comp c' d - comp s d)) c'); auto.
    + destruct c as [[x y] z], c' as [[x' y'] z']. f_equal.
      assert (Kx := Hk 0 ltac:(red; auto)). assert (Ky := Hk 1 ltac:(red; auto)). assert (Kz := Hk 2 ltac:(red; auto)).
      destruct Hd as [->|[->| ->]]; cbn in *; repeat apply f_equal2; try reflexivity;
        (apply Kx || apply Ky || apply Kz); lia.
    + specialize (Hc' d Hd). lia.
    + specialize (Hc d Hd). lia.
  - intros E. f_equal. transitivity (sum3 (fun k => if k =? d then comp s k + 1 else comp s k) (comp e) (fun _ => 0%R));
      [|apply sum3_zero].
    unfold sum3. apply sumz_ext. intros z Hz. apply sumz_ext. intros y Hy. apply sumz_ext. intros x Hx.
    rewrite (E (x, y, z) (back (x, y, z))).
    + replace (vget v (back (x, y, z)) - vget v (back (x, y, z)))%R with 0%R by ring. rewrite Rabs_R0.
      destruct p; [lia|]. cbn. ring.
    + intros k Hk. destruct Hd as [->|[->| ->]], Hk as [->|[->| ->]]; cbn in *; lia.
    + intros k Hk. destruct Hd as [->|[->| ->]], Hk as [->|[->| ->]]; cbn in *; lia.
    + intros k Hk N. destruct Hd as [->|[->| ->]], Hk as [->|[->| ->]]; cbn in *; lia.
Qed.

(** The directions refused. *)
Theorem C47_directions_accepted : forall v d p start stop,
  0 < vnx v -> 0 < vny v -> 0 < vnz v ->
  (forall k, dir k -> 0 <= comp start k /\ comp stop k <= comp (vnx v, vny v, vnz v) k) -> dir d ->
  total_variation_dir v d (Z.of_nat p) start stop = Throw <->
  1 + b2z (1 <? vny v) + b2z (1 <? vnz v) < d.
Proof.
  intros v d p start stop Hx Hy Hz Hb Hd. split.
  - intros E. destruct (Z_lt_ge_dec (1 + b2z (1 <? vny v) + b2z (1 <? vnz v)) d) as [L|L]; [exact L|].
    rewrite C47_directional in E by (auto; lia). discriminate.
  - intros L. unfold total_variation_dir. destruct start as [[sx sy] sz], stop as [[ex ey] ez].
    unfold direction_vector. rewrite (proj2 (Z.ltb_lt _ _) L). reflexivity.
Qed.

(** The y direction (direction 1) of a memory area with x extent only is accepted
    and gives zero. *)
Theorem C47_directions_refuted : exists v,
  vnx v = 3 /\ vny v = 1 /\ vnz v = 1 /\ vdat v 0 <> vdat v 1 /\
  total_variation_dir v 1 1 (0, 0, 0) (3, 1, 1) = Ok 0%R.
Proof.
  exists (mkvol 3 1 1 IZR). repeat split.
  - cbn. intros X. lra.
Qed.

(** In two dimensions the version without direction starts at the second row and
    column: it misses jumps there, and vanishes on data that are not constant. *)
Theorem C47_plane_refuted : exists v,
  vnx v = 2 /\ vny v = 2 /\ vnz v = 1 /\ vget v (0, 0, 0) <> vget v (1, 0, 0) /\
  total_variation v 1 (0, 0, 0) (2, 2, 1) = Ok 0%R.
Proof.
  exists (mkvol 2 2 1 (fun i => if i =? 0 then 1%R else 0%R)). repeat split.
  - change (1%R <> 0%R). lra.
  - unfold total_variation, for3, for_. cbn [vnx vny vnz]. 
    change (0 + (if 1 <? 2 then 1 else 0)) with 1. change (0 + 1) with 1.
    change (zrange 0 1) with [0]. change (zrange 1 2) with [1]. cbn [fold_res bind].
    lazy -[cpow sqrt Rplus Rminus IZR]. f_equal. replace (0 - 0)%R with 0%R by ring. rewrite sqrt_one_diff, Rabs_R0.
    unfold cpow. rewrite powerRZ_1. ring.
Qed.

Print Assumptions C47_line_partial.
Print Assumptions C47_plane_partial.
Print Assumptions C47_directional.
Print Assumptions C47_translation_invariant.
Print Assumptions C47_zero_iff_constant.
Print Assumptions C47_directions_accepted.
Print Assumptions C47_directions_refuted.
Print Assumptions C47_plane_refuted.

(** (0, 3, 1) has total variation 3 + 2. *)
Example C47_example :
  total_variation (mkvol 3 1 1 (fun i => if i =? 0 then 0%R else if i =? 1 then 3%R else 1%R)) 1 (0, 0, 0) (3, 1, 1)
  = Ok 5%R.
Proof.
  match goal with |- total_variation ?v _ _ _ = _ => transitivity (Ok (pair_sum 1 0 (comp (0, 0, 0)) (comp (3, 1, 1)) (vget v)));
    [apply (C47_line_partial v 1 0 3); cbn; lia|] end.
  f_equal.
  unfold pair_sum, sum3, sumz, zrange. lazy -[Rabs Rplus Rminus Rmult IZR]. rewrite !Rmult_1_r, !Rplus_0_r.
  replace (3 - 0)%R with 3%R by ring. replace (1 - 3)%R with (Ropp 2) by ring.
  rewrite Rabs_Ropp. rewrite !Rabs_pos_eq by lra. lra.
Qed.

(** A cell 0 with 3 to its left and 4 below: norm 5. *)
Example C47_plane_example :
  total_variation (mkvol 2 2 1 (fun i => if i =? 1 then 4%R else if i =? 2 then 3%R else 0%R)) 1 (0, 0, 0) (2, 2, 1)
  = Ok 5%R.
Proof.
  match goal with |- total_variation ?v _ _ _ = _ =>
    transitivity (Ok (gradient_sum 1 (comp (0, 0, 0)) (comp (2, 2, 1)) (vget v)));
    [apply (C47_plane_partial v 1 0 2 0 2); cbn; lia|] end.
  f_equal. unfold gradient_sum, sum3, sumz. lazy -[sqrt Rplus Rminus Rmult IZR].
  rewrite !Rmult_1_r, !Rplus_0_r. replace ((0 - 4) * (0 - 4) + (0 - 3) * (0 - 3))%R with (Rsqr 5) by (unfold Rsqr; ring).
  apply sqrt_Rsqr. lra.
Qed.
