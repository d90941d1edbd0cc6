(** Proofs about traversal of volumes (C01). *)
From Coq Require Import ZArith List Bool Lia FinFun.
From Verif Require Import M_Base M_Foreach L_Base.
Import ListNotations.
Open Scope Z_scope.

Lemma wrap64_small n : 0 <= n < two64 -> wrap64 n = n.
Proof. apply Z.mod_small. Qed.

Lemma size_bounds nx ny nz :
  1 <= nx -> 1 <= ny -> 1 <= nz -> nx * ny * nz < two64 ->
  nx < two64 /\ ny < two64 /\ nz < two64.
Proof. intros. assert (0 < nx * ny) by nia. repeat split; nia. Qed.

Lemma index_range nx ny nz x y z :
  0 <= x < nx -> 0 <= y < ny -> 0 <= z < nz ->
  0 <= index nx ny x y z < nx * ny * nz.
Proof.
  unfold index. intros.
  assert (0 <= y * nx <= (ny - 1) * nx) by nia.
  assert (0 <= z * (nx * ny) <= (nz - 1) * (nx * ny)) by nia.
  nia.
Qed.

Lemma index_surj nx ny nz i :
  1 <= nx -> 1 <= ny -> 0 <= i < nx * ny * nz ->
  exists x y z, 0 <= x < nx /\ 0 <= y < ny /\ 0 <= z < nz /\ i = index nx ny x y z.
Proof.
  intros. exists (i mod nx), ((i / nx) mod ny), (i / nx / ny).
  assert (0 <= i / nx) by (apply Z.div_pos; lia).
  assert (i / nx / ny < nz).
  { apply Z.div_lt_upper_bound; [lia|]. apply Z.div_lt_upper_bound; [lia|]. nia. }
  repeat split; try (apply Z.mod_pos_bound; lia); auto.
  - apply Z.div_pos; lia.
  - unfold index. rewrite (Z.div_mod i nx) at 1 by lia.
    rewrite (Z.div_mod (i / nx) ny) at 1 by lia. ring.
Qed.

Definition lin (nx ny : Z) (c : cell) : Z := let '(x, y, z) := c in index nx ny x y z.

Lemma for_each_visits nx ny nz sx sy sz ex ey ez :
  1 <= nx -> 1 <= ny -> 1 <= nz -> nx * ny * nz < two64 ->
  0 <= sx < two64 -> 0 <= sy < two64 -> 0 <= sz < two64 ->
  0 <= ex <= nx -> 0 <= ey <= ny -> 0 <= ez <= nz ->
  exists visited : list Z,
    NoDup visited /\
    (forall i, In i visited <->
       exists x y z, sx <= x < nx - ex /\ sy <= y < ny - ey /\ sz <= z < nz - ez /\
                     i = z * (nx * ny) + y * nx + x) /\
    (forall i, In i visited -> 0 <= i < nx * ny * nz) /\
    (forall S (f : Z -> S -> res S) s,
       for_each_cell_index nx ny nz (sx, sy, sz) (ex, ey, ez) f s = fold_res f visited s).
Proof.
  intros Hnx Hny Hnz Hs Hsx Hsy Hsz Hex Hey Hez.
  destruct (size_bounds nx ny nz) as (Bx & By & Bz); auto.
  set (bx := box sz (nz - ez) sy (ny - ey) sx (nx - ex)).
  assert (HI : forall c, In c bx -> 0 <= lin nx ny c < nx * ny * nz).
  { intros [[x y] z] H. apply box_In in H. apply index_range; lia. }
  exists (map (lin nx ny) bx). repeat split.
  - assert (G : forall l, NoDup l -> (forall c, In c l -> In c bx) -> NoDup (map (lin nx ny) l)).
    { induction l as [|c l IH]; intros Nd Hl; simpl; constructor.
      - inversion Nd; subst. intros H. apply in_map_iff in H. destruct H as [c' [E H']].
        assert (Hc : In c bx) by (apply Hl; now left).
        assert (Hc' : In c' bx) by (apply Hl; now right).
        destruct c as [[x y] z], c' as [[x' y'] z']. unfold bx in Hc, Hc'. rewrite box_In in Hc, Hc'.
        simpl in E. apply index_inj in E; try lia. destruct E as (-> & -> & ->). contradiction.
      - inversion Nd; subst. apply IH; auto. intros. apply Hl. now right. }
    apply G; auto. apply box_NoDup.
  - intros H. apply in_map_iff in H. destruct H as [[[x y] z] [<- H]].
    apply box_In in H. exists x, y, z. unfold lin, index. repeat split; try lia. 
  - intros (x & y & z & H1 & H2 & H3 & ->). apply in_map_iff. exists (x, y, z).
    split; [unfold lin, index; lia|]. apply box_In. lia.
  - apply in_map_iff in H. destruct H as [c [<- H]]. now apply HI.
  - apply in_map_iff in H. destruct H as [c [<- H]]. now apply HI.
  - intros S f s. unfold for_each_cell_index. rewrite !wrap64_small by lia.
    rewrite for3_box, fold_res_map. apply fold_res_ext.
    intros [[x y] z] s1 H. apply HI in H. simpl in *.
    change (z * nx * ny + y * nx + x) with (index nx ny x y z).
    rewrite wrap64_small by lia. reflexivity.
Qed.

(** If the end offset exceeds the number of cells the unsigned difference wraps
    and positions outside the volume are visited. *)
Lemma for_each_wraps :
  exists nx ny nz ex, 1 <= nx /\ 1 <= ny /\ 1 <= nz /\ nx * ny * nz < two64 /\
    0 <= ex /\
    forall S (f : Z -> S -> res S) s,
      exists first rest, ~ (0 <= first < nx * ny * nz) /\
      for_each_cell_index nx ny nz (1, 0, 0) (ex, 0, 0) f s = fold_res f (first :: rest) s.
Proof.
  exists 1, 1, 1, 2. repeat split; try lia; try reflexivity.
  intros S f s.
  exists 1, (map (fun x => wrap64 (0 * 1 * 1 + 0 * 1 + x)) (zrange (1 + 1) (wrap64 (1 - 2)))).
  split; [lia|].
  unfold for_each_cell_index. rewrite for3_box.
  change (wrap64 (1 - 0)) with 1. change (wrap64 0) with 0. change (wrap64 1) with 1.
  unfold box. rewrite !(zrange_cons 0 1) by lia. rewrite !(zrange_empty (0 + 1) 1) by lia.
  rewrite (zrange_cons 1) by reflexivity.
  generalize (zrange (1 + 1) (wrap64 (1 - 2))). intros R.
  cbn [flat_map map app]. rewrite !app_nil_r. cbn [fold_res].
  change (wrap64 (0 * 1 * 1 + 0 * 1 + 1)) with 1.
  destruct (f 1 s); cbn [bind]; try reflexivity.
  rewrite !fold_res_map. reflexivity.
Qed.

Lemma for_each_neighbours_visits d nx ny nz :
  (d = 0 \/ d = 1 \/ d = 2) ->
  1 <= nx -> 1 <= ny -> 1 <= nz -> nx * ny * nz < two64 ->
  exists visited : list (Z * Z * Z),
    NoDup visited /\
    (forall l m r, In (l, m, r) visited <->
       exists x y z,
         b2z (d =? 0) <= x < nx - b2z (d =? 0) /\
         b2z (d =? 1) <= y < ny - b2z (d =? 1) /\
         b2z (d =? 2) <= z < nz - b2z (d =? 2) /\
         l = (z - b2z (d =? 2)) * (nx * ny) + (y - b2z (d =? 1)) * nx + (x - b2z (d =? 0)) /\
         m = z * (nx * ny) + y * nx + x /\
         r = (z + b2z (d =? 2)) * (nx * ny) + (y + b2z (d =? 1)) * nx + (x + b2z (d =? 0))) /\
    (forall l m r, In (l, m, r) visited ->
       0 <= l < nx * ny * nz /\ 0 <= m < nx * ny * nz /\ 0 <= r < nx * ny * nz) /\
    (forall S (f : Z -> Z -> Z -> S -> res S) s,
       let e := (b2z (d =? 0), b2z (d =? 1), b2z (d =? 2)) in
       for_each_cell_index_with_neighbours d nx ny nz e e f s =
       fold_res (fun p => let '(l, m, r) := p in f l m r) visited s).
Proof.
  intros Hd Hnx Hny Hnz Hs.
  destruct (size_bounds nx ny nz) as (Bx & By & Bz); auto.
  set (dx := b2z (d =? 0)). set (dy := b2z (d =? 1)). set (dz := b2z (d =? 2)).
  assert (Hb : 0 <= dx <= 1 /\ 0 <= dy <= 1 /\ 0 <= dz <= 1).
  { unfold dx, dy, dz, b2z. destruct (d =? 0), (d =? 1), (d =? 2); lia. }
  set (bx := box dz (nz - dz) dy (ny - dy) dx (nx - dx)).
  set (tr := fun c : cell => let '(x, y, z) := c in
     (index nx ny (x - dx) (y - dy) (z - dz), index nx ny x y z,
      index nx ny (x + dx) (y + dy) (z + dz))).
  assert (HI : forall x y z, In (x, y, z) bx ->
     0 <= index nx ny (x - dx) (y - dy) (z - dz) < nx * ny * nz /\
     0 <= index nx ny x y z < nx * ny * nz /\
     0 <= index nx ny (x + dx) (y + dy) (z + dz) < nx * ny * nz).
  { intros x y z H. apply box_In in H. split; [|split]; apply index_range; lia. }
  exists (map tr bx). repeat split.
  - apply (NoDup_map_inv (fun p : Z * Z * Z => let '(l, m, r) := p in m)).
    rewrite map_map.
    assert (G : forall l, NoDup l -> (forall c, In c l -> In c bx) ->
              NoDup (map (fun c => let '(l, m, r) := tr c in m) l)).
    { induction l as [|c l IH]; intros Nd Hl; simpl; constructor.
      - inversion Nd; subst. intros H. apply in_map_iff in H. destruct H as [c' [E H']].
        assert (Hc : In c bx) by (apply Hl; now left).
        assert (Hc' : In c' bx) by (apply Hl; now right).
        destruct c as [[x y] z], c' as [[x' y'] z']. unfold bx in Hc, Hc'. rewrite box_In in Hc, Hc'.
        simpl in E. apply index_inj in E; try lia. destruct E as (-> & -> & ->). contradiction.
      - inversion Nd; subst. apply IH; auto. intros. apply Hl. now right. }
    apply G; auto. apply box_NoDup.
  - intros H. apply in_map_iff in H. destruct H as [[[x y] z] [E H]].
    apply box_In in H. injection E as <- <- <-. exists x, y, z. unfold index. lia.
  - intros (x & y & z & H1 & H2 & H3 & -> & -> & ->). apply in_map_iff. exists (x, y, z).
    split; [unfold tr; f_equal; [f_equal|]; unfold index; ring|]. apply box_In. lia.
  - apply in_map_iff in H. destruct H as [[[x y] z] [E H]]. injection E as <- <- <-. apply HI in H. lia.
  - apply in_map_iff in H. destruct H as [[[x y] z] [E H]]. injection E as <- <- <-. apply HI in H. lia.
  - apply in_map_iff in H. destruct H as [[[x y] z] [E H]]. injection E as <- <- <-. apply HI in H. lia.
  - apply in_map_iff in H. destruct H as [[[x y] z] [E H]]. injection E as <- <- <-. apply HI in H. lia.
  - apply in_map_iff in H. destruct H as [[[x y] z] [E H]]. injection E as <- <- <-. apply HI in H. lia.
  - apply in_map_iff in H. destruct H as [[[x y] z] [E H]]. injection E as <- <- <-. apply HI in H. lia.
  - intros S f s. unfold for_each_cell_index_with_neighbours. fold dx dy dz.
    rewrite !(wrap64_small dx), !(wrap64_small dy), !(wrap64_small dz) by (unfold two64; lia).
    rewrite !(wrap64_small (_ - _)) by lia.
    rewrite for3_box, fold_res_map. apply fold_res_ext.
    intros [[x y] z] s1 H. apply HI in H. unfold tr.
    rewrite !wrap64_small by lia. reflexivity.
Qed.

(** The interior cells and the midpoints of the grid correspond one to one. *)
Lemma for_each_midpoint_visits nx ny nz gx gy gz :
  1 <= nx -> 1 <= ny -> 1 <= nz -> 0 <= gx -> 0 <= gy -> 0 <= gz ->
  (nx + 2 * gx) * (ny + 2 * gy) * (nz + 2 * gz) < two64 ->
  exists visited : list cell,
    NoDup visited /\
    (forall i j k, In (i, j, k) visited <-> 0 <= i < nx /\ 0 <= j < ny /\ 0 <= k < nz) /\
    (forall S (f : Z -> Z -> cell -> S -> res S) s,
       for_each_midpoint (nx + 2 * gx) (ny + 2 * gy) (nz + 2 * gz) gx gy gz nx ny f s =
       fold_res (fun c => let '(i, j, k) := c in
                   f ((k + gz) * ((nx + 2 * gx) * (ny + 2 * gy))
                      + (j + gy) * (nx + 2 * gx) + (i + gx))
                     (k * (nx * ny) + j * nx + i) (i, j, k)) visited s).
Proof.
  intros. set (tx := nx + 2 * gx) in *. set (ty := ny + 2 * gy) in *. set (tz := nz + 2 * gz) in *.
  destruct (size_bounds tx ty tz) as (Bx & By & Bz); try (unfold tx, ty, tz; lia).
  exists (box 0 nz 0 ny 0 nx). repeat split.
  - apply box_NoDup.
  - apply box_In in H6; lia.
  - apply box_In in H6; lia.
  - apply box_In in H6; lia.
  - apply box_In in H6; lia.
  - apply box_In in H6; lia.
  - apply box_In in H6; lia.
  - intros (?&?&?). apply box_In. lia.
  - intros S f s. unfold for_each_midpoint.
    rewrite (wrap64_small (tx - gx)), (wrap64_small (ty - gy)), (wrap64_small (tz - gz))
      by (unfold tx, ty, tz in *; lia).
    rewrite for3_box.
    assert (E : box gz (tz - gz) gy (ty - gy) gx (tx - gx) =
                map (fun c : cell => let '(i, j, k) := c in (i + gx, j + gy, k + gz))
                    (box 0 nz 0 ny 0 nx)).
    { assert (Z0 : forall n g t, t = n + 2 * g -> zrange g (t - g) = map (fun i => i + g) (zrange 0 n)).
      { intros n g t ->. unfold zrange. rewrite map_map.
        replace (n + 2 * g - g - g) with (n - 0) by lia. apply map_ext. intros. lia. }
      unfold box. rewrite (Z0 nx gx tx), (Z0 ny gy ty), (Z0 nz gz tz) by reflexivity.
      clear. induction (zrange 0 nz) as [|k l IH]; [reflexivity|].
      simpl. rewrite map_app, IH. f_equal.
      clear. induction (zrange 0 ny) as [|j l IH]; [reflexivity|].
      simpl. rewrite map_app, IH. f_equal. rewrite !map_map. reflexivity. }
    rewrite E, fold_res_map. apply fold_res_ext.
    intros [[i j] k] s1 Hc. apply box_In in Hc.
    replace (i + gx - gx) with i by lia. replace (j + gy - gy) with j by lia.
    replace (k + gz - gz) with k by lia.
    assert (0 <= index tx ty (i + gx) (j + gy) (k + gz) < tx * ty * tz)
      by (apply index_range; unfold tx, ty, tz; lia).
    assert (0 <= index nx ny i j k < nx * ny * nz) by (apply index_range; lia).
    assert (nx * ny * nz <= tx * ty * tz).
    { unfold tx, ty, tz. assert (0 < nx * ny) by nia.
      assert (nx * ny <= (nx + 2 * gx) * (ny + 2 * gy)) by nia. nia. }
    unfold index in *. rewrite !wrap64_small by lia. f_equal; ring.
Qed.
