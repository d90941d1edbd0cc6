(** Lemmas about the functionals. *)
From Coq Require Import ZArith Reals List Bool Lia Lra Permutation.
From Verif Require Import M_Base L_Base L_Loops M_Sim L_Sim M_Memory S_Memory L_Memory S_Sum L_Sum
  L_Flux M_Stats S_Stats L_Stats L_StatsRun L_Adds M_Foreach L_Foreach M_Structure S_Structure L_Structure
  T_Memory T_Variation M_Functional S_Functional.
Import ListNotations.
Open Scope Z_scope.

Lemma suml_single {A} (f : A -> R) l c : NoDup l -> In c l -> (forall x, In x l -> x <> c -> f x = 0%R) ->
  suml f l = f c.
Proof.
  induction l as [|a l IH]; intros N I H; [destruct I|]. inversion N as [|? ? Na Nl]; subst.
  cbn [suml fold_right]. fold (suml f l). destruct I as [->|I].
  - rewrite (suml_ext f (fun _ => 0%R)); [|intros x Hx; apply H; [now right|intros ->; contradiction]].
    assert (Z0 : suml (fun _ : A => 0%R) l = 0%R) by (clear; unfold suml; induction l; cbn; [reflexivity|lra]). lra.
  - rewrite IH; auto; [|intros x Hx; apply H; now right]. rewrite (H a); [lra|now left|]. intros ->. contradiction.
Qed.

Lemma nth_cell_spec nx ny nz i : 0 < nx -> 0 < ny -> 0 <= i < nx * ny * nz ->
  exists x y z, nth_cell (nx, ny, nz) i = (x, y, z) /\ 0 <= x < nx /\ 0 <= y < ny /\ 0 <= z < nz /\
    index nx ny x y z = i.
Proof.
  intros Hx Hy Hi. pose proof (kth_index 0 0 0 nx ny i Hx Hy) as K. pose proof (kth_in 0 0 0 nx ny nz i Hx Hy Hi) as B.
  unfold nth_cell. destruct (kth_cell 0 0 0 nx ny i) as [[x y] z]. exists x, y, z. split; [reflexivity|].
  unfold index. rewrite !Z.sub_0_r in K. lia.
Qed.

(** A loop over all cells of the output, each adding to its own cell. *)
Lemma adds_each nx ny nz (body : Z -> Z -> Z -> vol R -> res (vol R)) (a : cell -> R) : 0 < nx -> 0 < ny ->
  (forall x y z, 0 <= x < nx -> 0 <= y < ny -> 0 <= z < nz ->
     adds (nx, ny, nz) (body x y z) (fun i => if i =? index nx ny x y z then a (x, y, z) else 0%R)) ->
  adds (nx, ny, nz) (for3 0 nz 0 ny 0 nx body) (fun i => a (nth_cell (nx, ny, nz) i)).
Proof.
  intros Hx Hy H.
  eapply adds_ext; [reflexivity| |
    apply (adds_for3 (nx, ny, nz) (fun _ => 0) (nvec nx ny nz) body
      (fun c i => let '(x, y, z) := c in if i =? index nx ny x y z then a c else 0%R))].
  - intros i Hi. cbn [dsize] in Hi.
    destruct (nth_cell_spec nx ny nz i Hx Hy Hi) as (x & y & z & E & Bx & By & Bz & Ei).
    rewrite E, sum3_box. change (nvec nx ny nz 2) with nz. change (nvec nx ny nz 1) with ny.
    change (nvec nx ny nz 0) with nx.
    rewrite (suml_single _ _ (x, y, z)).
    + rewrite Ei, Z.eqb_refl. reflexivity.
    + apply box_NoDup.
    + apply box_In. lia.
    + intros [[x' y'] z'] I N. apply box_In in I. destruct (Z.eqb_spec i (index nx ny x' y' z')) as [E'|]; [|reflexivity].
      exfalso. apply N. rewrite <- Ei in E'. apply index_inj in E'; try lia. destruct E' as (-> & -> & ->). reflexivity.
  - intros x y z Bx By Bz. cbn in Bx, By, Bz. now apply H.
Qed.

(** A body that adds something to element 0. *)
Lemma adds_first (a : R) : adds (1, 1, 1) (fun o => old <- mload o 0;; mstore o 0 (old + a)%R) (fun _ => a).
Proof.
  eapply adds_ext; [| |apply (adds_one (1, 1, 1) 0 a); cbn; lia].
  - reflexivity.
  - intros i Hi. cbn in Hi. assert (i = 0) by lia. subst i. reflexivity.
Qed.

(** A loop over the midpoints that accumulates. *)
Lemma midpoint_sum g n u (f : Z -> Z -> cell -> R -> res R) (a : cell -> R) :
  positive_cells n -> nonneg_cells g -> has_cells g n u -> vsize u < two64 ->
  (forall x y z m s, 0 <= x < comp n 0 -> 0 <= y < comp n 1 -> 0 <= z < comp n 2 ->
     (let '(gx, gy, gz) := g in f (index (vnx u) (vny u) (x + gx) (y + gy) (z + gz)) m (x, y, z) s)
     = Ok (s + a (x, y, z))%R) ->
  midpoint_loop g u f 0%R = Ok (sum3 (fun _ => 0) (comp n) a).
Proof.
  intros Hn Hg Hu Hs H. unfold midpoint_loop. rewrite (has_cells_inner g n u Hu).
  destruct n as [[nx ny] nz], g as [[gx gy] gz]. cbn [positive_cells nonneg_cells has_cells] in *.
  destruct Hu as (Ux & Uy & Uz). unfold vsize in Hs. rewrite Ux, Uy, Uz in *.
  unfold for_each_midpoint.
  destruct (size_bounds (nx + 2 * gx) (ny + 2 * gy) (nz + 2 * gz)) as (Bx & By & Bz); try lia.
  rewrite !(wrap64_small (_ - _)) by lia.
  pose (b := fun c : cell => let '(x, y, z) := c in a (x - gx, y - gy, z - gz)).
  rewrite (for3_acc (nvec gx gy gz) (nvec (nx + 2 * gx - gx) (ny + 2 * gy - gy) (nz + 2 * gz - gz)) _ b 0%R).
  - f_equal. rewrite Rplus_0_l. unfold sum3. cbn [comp]. 
    change (nvec gx gy gz 2) with gz. change (nvec gx gy gz 1) with gy. change (nvec gx gy gz 0) with gx.
    change (nvec nx ny nz 2) with nz. change (nvec nx ny nz 1) with ny. change (nvec nx ny nz 0) with nx.
    change (nvec (nx + 2 * gx - gx) (ny + 2 * gy - gy) (nz + 2 * gz - gz) 2) with (nz + 2 * gz - gz).
    change (nvec (nx + 2 * gx - gx) (ny + 2 * gy - gy) (nz + 2 * gz - gz) 1) with (ny + 2 * gy - gy).
    change (nvec (nx + 2 * gx - gx) (ny + 2 * gy - gy) (nz + 2 * gz - gz) 0) with (nx + 2 * gx - gx).
    assert (Sh : forall n g F, sumz g (n + 2 * g - g) F = sumz 0 n (fun k => F (k + g))).
    { intros n g F. unfold sumz, zrange. rewrite !map_map. replace (n + 2 * g - g - g) with (n - 0) by lia.
      f_equal. apply map_ext. intros k. f_equal. lia. }
    rewrite Sh. apply sumz_ext. intros z _. rewrite Sh. apply sumz_ext. intros y _. rewrite Sh. apply sumz_ext. intros x _.
    unfold b. f_equal. repeat apply f_equal2; lia.
  - intros x y z s Rx Ry Rz. cbn in Rx, Ry, Rz.
    assert (I : 0 <= index (nx + 2 * gx) (ny + 2 * gy) x y z < (nx + 2 * gx) * (ny + 2 * gy) * (nz + 2 * gz)).
    { apply lin_bound; lia. }
    change (z * (nx + 2 * gx) * (ny + 2 * gy) + y * (nx + 2 * gx) + x) with (index (nx + 2 * gx) (ny + 2 * gy) x y z).
    rewrite (wrap64_small (index _ _ x y z)) by lia.
    specialize (H (x - gx) (y - gy) (z - gz) (wrap64 ((z - gz) * nx * ny + (y - gy) * nx + (x - gx))) s).
    replace (x - gx + gx) with x in H by lia. replace (y - gy + gy) with y in H by lia.
    replace (z - gz + gz) with z in H by lia. apply H; cbn; lia.
Qed.

(** structure_base adds the periodic structure function of the cells less the
    ghost cells once more; the weight is ignored. *)
Lemma base_adds numberOfH p d g n u w :
  nonneg_cells g -> has_cells g n u -> positive_cells (shrink g n) -> cells_of (shrink g n) < 2 ^ 31 ->
  adds (numberOfH, 1, 1) (fun o => structure_base_functional numberOfH (Z.of_nat p) d g o u w)
    (fun h => structure_value Periodic p d g (shrink g n) u h).
Proof.
  intros Hg Hu Hn Hc. set (n' := shrink g n) in *.
  set (X := fun h c => (Rabs (interior_value g u c - extended Periodic g n' u (plus c (step d h))) ^ p / IZR (cells_of n'))%R).
  eapply adds_ext; [| |apply (adds_for3 (numberOfH, 1, 1) (fun _ => 0) (comp n')
    (fun i j k => for_ 0 numberOfH (fun h o =>
      a <- (let '(gx, gy, gz) := g in vload u (i + gx) (j + gy) (k + gz));;
      c <- (let '(nx, ny, nz) := n' in let '(gx, gy, gz) := g in let '(dx, dy, dz) := direction_vector d in
            vload u (Z.rem (i + h * dx) nx + gx) (Z.rem (j + h * dy) ny + gy) (Z.rem (k + h * dz) nz + gz));;
      old <- vload o h 0 0;;
      cells <- int_cells n';;
      vstore o h 0 0 (old + cpow (Rabs (a - c)) (Z.of_nat p) / IZR cells)%R))
    (fun c i' => sumz 0 numberOfH (fun h => if i' =? h then X h c else 0%R)))].
  - intros o _. unfold structure_base_functional. rewrite (twice_inner_shrink g n u Hu). fold n'.
    destruct n' as [[nx ny] nz], g as [[gx gy] gz]. reflexivity.
  - intros i' Hi'. cbv beta. cbn [dsize] in Hi'.
    rewrite (sum3_same _ _ _ (fun c => X i' c)).
    + unfold X. rewrite sum3_div. reflexivity.
    + intros c. rewrite (sumz_single 0 numberOfH i' (fun h => X h c)).
      rewrite (proj2 (Z.ltb_lt i' numberOfH)), (proj2 (Z.leb_le 0 i')) by lia. reflexivity.
  - intros i j k Hi Hj Hk.
    apply (adds_for (numberOfH, 1, 1) 0 numberOfH _ (fun h i' => if i' =? h then X h (i, j, k) else 0%R)).
    intros h Hh.
    eapply adds_ext; [| |apply (adds_at numberOfH 1 1 h 0 0 (X h (i, j, k))); lia].
    + intros o _.
      assert (L1 : (let '(gx, gy, gz) := g in vload u (i + gx) (j + gy) (k + gz)) = Ok (interior_value g u (i, j, k))).
      { clear X. subst n'. destruct n as [[nx ny] nz], g as [[gx gy] gz].
        cbn [shrink positive_cells nonneg_cells has_cells comp nvec Z.eqb Pos.eqb] in *.
        rewrite vload_ok; [reflexivity|]. unfold inr. lia. }
      rewrite L1. cbn [bind].
      assert (L2 : (let '(nx, ny, nz) := n' in let '(gx, gy, gz) := g in let '(dx, dy, dz) := direction_vector d in
            vload u (Z.rem (i + h * dx) nx + gx) (Z.rem (j + h * dy) ny + gy) (Z.rem (k + h * dz) nz + gz))
          = Ok (extended Periodic g n' u (plus (i, j, k) (step d h)))).
      { clear X L1. subst n'. destruct n as [[nx ny] nz], g as [[gx gy] gz].
        cbn [shrink positive_cells nonneg_cells has_cells comp nvec Z.eqb Pos.eqb] in *.
        unfold direction_vector, step, plus, extended, wrap.
        assert (B : forall e, 0 <= h * b2z e) by (intros []; cbn; lia).
        pose proof (B (d =? 0)). pose proof (B (d =? 1)). pose proof (B (d =? 2)).
        rewrite !Z.rem_mod_nonneg by lia.
        pose proof (Z.mod_pos_bound (i + h * b2z (d =? 0)) (nx - 2 * gx) ltac:(lia)).
        pose proof (Z.mod_pos_bound (j + h * b2z (d =? 1)) (ny - 2 * gy) ltac:(lia)).
        pose proof (Z.mod_pos_bound (k + h * b2z (d =? 2)) (nz - 2 * gz) ltac:(lia)).
        rewrite vload_ok; [reflexivity|]. unfold inr. lia. }
      rewrite L2. cbn [bind].
      rewrite int_cells_ok by auto. cbn [bind]. rewrite cpow_nat. reflexivity.
    + intros i' _. replace (index numberOfH 1 h 0 0) with h by (unfold index; lia). reflexivity.
Qed.
