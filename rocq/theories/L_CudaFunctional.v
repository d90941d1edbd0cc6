(** Lemmas about the functionals and statistics of the GPU. *)
From Coq Require Import ZArith Reals List Bool Lia Lra Permutation.
From Verif Require Import M_Base L_Base L_Loops M_Sim L_Sim M_Memory S_Memory L_Memory S_Sum L_Sum
  L_Flux M_Stats S_Stats L_Stats L_StatsRun L_Adds M_Structure S_Structure L_Structure
  M_Functional S_Functional L_Functional M_Omp L_Omp L_OmpFlux M_Cuda L_Cuda M_CudaCell L_CudaCell
  M_CudaFunctional S_CudaFunctional.
Import ListNotations.
Open Scope Z_scope.

(** Threads over the elements that only read and contribute. *)
Lemma linear_readers {A X} (size : Z -> Z) total (body : Z -> prog A X) (f : Z -> X) (m : shared A) : 0 <= total ->
  (forall i w a j, accs (body i) w a j -> w = false) ->
  (forall i, 0 <= i < total -> run size (body i) m = Ok (m, [f i])) ->
  forall r, outcomes size [linear total body] m r <-> r = Ok (m, map f (zrange 0 total)).
Proof.
  intros Ht Hw Hrun.
  assert (Forall independent [linear total body]) as Hi.
  { constructor; [|constructor]. apply linear_independent. intros i j _ _ _ w w' a q H1 H2.
    split; [exact (Hw _ _ _ _ H1)|exact (Hw _ _ _ _ H2)]. }
  assert (run_loops size [linear total body] m = Ok (m, map f (zrange 0 total))) as Hr.
  { rewrite run_loops_cons, run_linear by exact Ht.
    assert (forall l ys, (forall i, In i l -> 0 <= i < total) ->
      fold_res (acc size body) l (m, ys) = Ok (m, ys ++ map f l)) as K.
    { induction l as [|i l IH]; intros ys Hl; cbn [fold_res map]; [rewrite app_nil_r; reflexivity|].
      unfold acc at 1. cbn [fst snd]. rewrite Hrun by (apply Hl; cbn; auto). cbn [bind fst snd].
      rewrite IH by (intros; apply Hl; cbn; auto). rewrite <- app_assoc. reflexivity. }
    rewrite K; [|intros i Hi'; apply zrange_In in Hi'; lia]. cbn. rewrite app_nil_r. reflexivity. }
  destruct (outcomes_unique size _ _ _ Hi Hr) as [O U]. intros r. split; [apply U|intros ->; exact O].
Qed.

(** The cell of a thread. *)
Lemma thread_cell_nth n o i : has_dims n o -> thread_cell o i = nth_cell n i.
Proof.
  destruct n as [[nx ny] nz]. intros (A & B & C). unfold thread_cell, nth_cell, kth_cell. rewrite A, B.
  repeat apply f_equal2; lia.
Qed.

Lemma ghosted_in g n u c : nonneg_cells g -> has_cells g n u ->
  (forall k, 0 <= k < 3 -> 0 <= comp c k < comp n k) -> 0 <= ghosted g u c < vsize u.
Proof.
  intros Hg Hu Hc. pose proof (Hc 0 ltac:(lia)) as C0. pose proof (Hc 1 ltac:(lia)) as C1. pose proof (Hc 2 ltac:(lia)) as C2.
  destruct n as [[nx ny] nz], g as [[gx gy] gz], c as [[x y] z].
  cbn in C0, C1, C2, Hg, Hu. unfold ghosted. apply L_Structure.index_range; lia.
Qed.
Lemma ghosted_value g u c : vdat u (ghosted g u c) = interior_value g u c.
Proof. destruct g as [[gx gy] gz], c as [[x y] z]. reflexivity. Qed.
Lemma nth_cell_in n i : positive_cells n -> 0 <= i < dsize n -> forall k, 0 <= k < 3 -> 0 <= comp (nth_cell n i) k < comp n k.
Proof.
  destruct n as [[nx ny] nz]. cbn [positive_cells dsize]. intros (? & ? & ?) Hi k Hk.
  destruct (nth_cell_spec nx ny nz i) as (x & y & z & -> & ? & ? & ? & _); try lia.
  assert (k = 0 \/ k = 1 \/ k = 2) as [->|[->| ->]] by lia; cbn; lia.
Qed.

Section Pointwise.
Variables (f : R -> R) (g n : cell) (out u : vol R) (w : R).
Hypotheses (Hn : positive_cells n) (Hg : nonneg_cells g) (Hu : has_cells g n u) (Ho : has_dims n out).
Let size (a : Z) : Z := if a =? 0 then vsize u else vsize out.
Let m0 : shared R := fun a => if a =? 0 then vdat u else vdat out.

Lemma inner_accs i w' a j : accs (inner_body f g out u w i) w' a j -> w' = false \/ (a = 1 /\ j = i).
Proof.
  intros H. inversion H as [| ? ? ? ? ? ? ? H1| |]; subst; [auto|]. inversion H1 as [| ? ? ? ? ? ? ? H2| |]; subst; [auto|].
  inversion H2 as [| | |? ? ? ? ? ? ? H3]; subst; [auto|]. inversion H3.
Qed.
Lemma inner_accs1 i w' a j : accs (inner_body f g out u w i) w' a j -> a = 1 -> j = i.
Proof.
  intros H Ha. inversion H as [| ? ? ? ? ? ? ? H1| |]; subst; [discriminate|]. inversion H1 as [| ? ? ? ? ? ? ? H2| |]; subst; [auto|].
  inversion H2 as [| | |? ? ? ? ? ? ? H3]; subst; [auto|]. inversion H3.
Qed.
Lemma inner_independent : Forall independent (inner_kernel f g out u w).
Proof.
  constructor; [|constructor]. apply linear_independent. intros i j _ _ Hne w1 w2 a q H1 H2.
  destruct (inner_accs _ _ _ _ H1) as [->|[-> ->]].
  - destruct (inner_accs _ _ _ _ H2) as [->|[-> ->]]; [auto|]. pose proof (inner_accs1 _ _ _ _ H1 eq_refl). congruence.
  - pose proof (inner_accs1 _ _ _ _ H2 eq_refl). congruence.
Qed.

Lemma pointwise_run : exists m, run_loops size (inner_kernel f g out u w) m0 = Ok (m, []) /\
  forall i, 0 <= i < dsize n -> m 1 i = (vdat out i + w * f (interior_value g u (nth_cell n i)))%R.
Proof.
  pose proof (has_dims_size _ _ Ho) as So.
  assert (0 <= dsize n) by (destruct n as [[nx ny] nz]; cbn in *; nia).
  unfold inner_kernel. rewrite run_loops_cons, run_linear by lia. rewrite So.
  assert (G : forall l, NoDup l -> (forall i, In i l -> 0 <= i < dsize n) ->
    forall m : shared R, (forall j, m 0 j = vdat u j) -> (forall i, In i l -> m 1 i = vdat out i) ->
    exists m', fold_res (acc size (inner_body f g out u w)) l (m, []) = Ok (m', []) /\
      (forall i, In i l -> m' 1 i = (vdat out i + w * f (interior_value g u (nth_cell n i)))%R) /\
      (forall i, ~ In i l -> m' 1 i = m 1 i)).
  { induction l as [|i l IH]; intros N Hl m M0 M1.
    - exists m. split; [reflexivity|]. split; [intros i []|auto].
    - inversion N as [|? ? Ni Nl]; subst. cbn [fold_res].
      assert (Bi : 0 <= i < dsize n) by (apply Hl; now left).
      set (v := (vdat out i + w * f (interior_value g u (nth_cell n i)))%R).
      assert (E : acc size (inner_body f g out u w) i (m, []) = Ok (put m 1 i v, [])).
      { unfold acc. cbn [fst snd]. unfold inner_body. rewrite (thread_cell_nth n out i Ho). cbn [run]. unfold inside.
        pose proof (ghosted_in g n u (nth_cell n i) Hg Hu (nth_cell_in n i Hn Bi)) as Bg.
        change (size 0) with (vsize u). change (size 1) with (vsize out).
        rewrite (proj2 (Z.leb_le 0 (ghosted g u (nth_cell n i)))), (proj2 (Z.ltb_lt (ghosted g u (nth_cell n i)) (vsize u))) by lia.
        rewrite (proj2 (Z.leb_le 0 i)), (proj2 (Z.ltb_lt i (vsize out))) by lia. cbn [andb bind fst snd app].
        unfold v. rewrite M0, M1, ghosted_value by now left. reflexivity. }
      rewrite E. cbn [bind].
      destruct (IH Nl ltac:(intros; apply Hl; now right) (put m 1 i v)) as (m' & E' & V & K).
      + intros j. unfold put. cbn. apply M0.
      + intros j Hj. unfold put. destruct (Z.eqb_spec j i) as [->|]; [contradiction|]. rewrite andb_false_r. apply M1. now right.
      + exists m'. split; [exact E'|]. split.
        * intros j [<-|Hj]; [|now apply V]. rewrite K by exact Ni. unfold put. rewrite !Z.eqb_refl. reflexivity.
        * intros j Hj. rewrite K by (intros X; apply Hj; now right). unfold put.
          destruct (Z.eqb_spec j i) as [->|]; [exfalso; apply Hj; now left|]. rewrite andb_false_r. reflexivity. }
  destruct (G (zrange 0 (dsize n)) (zrange_NoDup _ _) ltac:(intros i Hi; apply zrange_In in Hi; lia) m0) as (m & E & V & _).
  - reflexivity.
  - reflexivity.
  - exists m. rewrite E. split; [reflexivity|]. intros i Hi. apply V. apply zrange_In. lia.
Qed.

Lemma pointwise_always : always (cuda_pointwise f g out u w) (fun out' => has_dims n out' /\
  forall i, 0 <= i < dsize n -> vdat out' i = (vdat out i + w * f (interior_value g u (nth_cell n i)))%R).
Proof.
  destruct pointwise_run as (m & E & V). destruct (outcomes_unique size _ _ _ inner_independent E) as [O U].
  split.
  - eexists. exists (Ok (m, [])). split; [exact O|reflexivity].
  - intros r (q & Hq & ->). apply U in Hq. subst q. cbn [bind fst]. eexists. split; [reflexivity|]. split; [|exact V].
    clear - Ho. destruct n as [[nx ny] nz]. exact Ho.
Qed.
End Pointwise.

(** * The structure functions *)

Lemma value_at_index b v pos n g : value_at b v pos n g = (i <- value_index b v pos n g;; mload v i).
Proof.
  destruct pos as [[x y] z], n as [[nx ny] nz], g as [[gx gy] gz]. destruct b; [|reflexivity|reflexivity]. cbn [value_at value_index].
  destruct (make_positive x nx); [|reflexivity|reflexivity]. cbn [bind]. destruct (make_positive y ny); [|reflexivity|reflexivity].
  cbn [bind]. destruct (make_positive z nz); [|reflexivity|reflexivity]. cbn [bind].
  repeat match goal with |- context [crem ?a ?b] => destruct (crem a b); [|reflexivity|reflexivity]; cbn [bind] end.
  reflexivity.
Qed.
Lemma value_index_ok b u pos n n' g : b <> OtherBC -> positive_cells n -> nonneg_cells g -> has_cells g n' u ->
  (forall k, 0 <= k < 3 -> comp n k <= comp n' k) ->
  exists i, value_index b u pos n g = Ok i /\ 0 <= i < vsize u /\ vdat u i = extended b g n u pos.
Proof.
  destruct pos as [[x y] z], n as [[nx ny] nz], n' as [[mx my] mz], g as [[gx gy] gz]. cbn [positive_cells nonneg_cells has_cells].
  intros Hb (Px & Py & Pz) (Gx & Gy & Gz) (Ex & Ey & Ez) Hle.
  pose proof (Hle 0 ltac:(lia)) as L0. pose proof (Hle 1 ltac:(lia)) as L1. pose proof (Hle 2 ltac:(lia)) as L2.
  cbn in L0, L1, L2. destruct b; [| |congruence]; cbn [value_index extended].
  - destruct (wrapped x nx Px) as (x' & -> & Rx & Bx). destruct (wrapped y ny Py) as (y' & -> & Ry & By).
    destruct (wrapped z nz Pz) as (z' & -> & Rz & Bz). cbn [bind]. rewrite Rx. cbn [bind].
    rewrite Ry. cbn [bind]. rewrite Rz. cbn [bind]. eexists. split; [reflexivity|]. split; [apply L_Structure.index_range; lia|reflexivity].
  - destruct (nearest_eq nx x Px) as (-> & Bx). destruct (nearest_eq ny y Py) as (-> & By). destruct (nearest_eq nz z Pz) as (-> & Bz).
    eexists. split; [reflexivity|]. split; [apply L_Structure.index_range; lia|reflexivity].
Qed.

Lemma fetch_at_accs b u pos n g (k : R -> prog R R) w a i :
  (forall c w a i, accs (k c) w a i -> w = false) -> accs (fetch_at b u pos n g k) w a i -> w = false.
Proof.
  intros Hk. unfold fetch_at. destruct (value_index b u pos n g); intros H; inversion H; subst; auto. eapply Hk; eassumption.
Qed.

Section Sums.
Variables (b : btype) (u : vol R) (n n' g : cell).
Hypotheses (Hb : b <> OtherBC) (Hn : positive_cells n) (Hg : nonneg_cells g) (Hu : has_cells g n' u)
  (Hle : forall k, 0 <= k < 3 -> comp n k <= comp n' k).
Let size (a : Z) : Z := if a =? 0 then vsize u else 0.
Let m0 : shared R := fun _ => vdat u.

Lemma run_fetch_at pos k : run size (fetch_at b u pos n g k) m0 = run size (k (extended b g n u pos)) m0.
Proof.
  unfold fetch_at. destruct (value_index_ok b u pos n n' g Hb Hn Hg Hu Hle) as (i & -> & Bi & Ei).
  cbn [run]. unfold inside. change (size 0) with (vsize u).
  rewrite (proj2 (Z.leb_le 0 i)), (proj2 (Z.ltb_lt i (vsize u))) by lia. cbn [andb]. unfold m0 at 1. rewrite Ei. reflexivity.
Qed.

Lemma run_own c (k : R -> prog R R) : (forall d, 0 <= d < 3 -> 0 <= comp c d < comp n' d) ->
  run size (Fetch 0 (ghosted g u c) k) m0 = run size (k (interior_value g u c)) m0.
Proof.
  intros Hc. cbn [run]. unfold inside. change (size 0) with (vsize u).
  pose proof (ghosted_in g n' u c Hg Hu Hc) as B.
  rewrite (proj2 (Z.leb_le 0 _)), (proj2 (Z.ltb_lt _ (vsize u))) by lia. cbn [andb]. unfold m0 at 1. rewrite ghosted_value. reflexivity.
Qed.

Lemma run_cube_sum pw a l : forall acc0, run size (cube_sum b pw u n g a l acc0) m0 =
  Ok (m0, [(acc0 + suml (fun pos => pw (Rabs (a - extended b g n u pos))) l)%R]).
Proof.
  induction l as [|pos l IH]; intros acc0; cbn [cube_sum suml fold_right]; [cbn; now rewrite Rplus_0_r|].
  rewrite run_fetch_at, IH. do 3 f_equal. cbn [suml fold_right]. unfold suml. ring.
Qed.
Lemma cube_sum_accs pw a l : forall acc0 w q i, accs (cube_sum b pw u n g a l acc0) w q i -> w = false.
Proof.
  induction l as [|pos l IH]; intros acc0 w q i H; cbn [cube_sum] in H; [inversion H|].
  eapply fetch_at_accs; [|exact H]. intros c w' q' i' H'. exact (IH _ _ _ _ H').
Qed.
End Sums.

Lemma positions_shell dims i j k h : dims = 1 \/ dims = 2 \/ dims = 3 -> cube_positions dims i j k h = Ok (shell dims i j k h).
Proof.
  intros Hd. unfold cube_positions. rewrite cube_for_each_list by exact Hd.
  assert (G : forall l acc0, fold_res (fun (pos : cell) l => Ok (l ++ [pos])) l acc0 = Ok (acc0 ++ l)).
  { induction l as [|c l IH]; intros acc0; cbn [fold_res]; [now rewrite app_nil_r|]. cbn [bind]. rewrite IH, <- app_assoc. reflexivity. }
  apply G.
Qed.

(** The loop over h. *)
Lemma h_loop_adds block n body numberOfH u (f : Z -> cell -> R) :
  0 < block -> positive_cells n -> cells_of n < 2 ^ 31 ->
  (forall h x y z w a i, accs (body h x y z) w a i -> w = false) ->
  (forall h x y z, 1 <= h < numberOfH -> (forall k, 0 <= k < 3 -> 0 <= comp (x, y, z) k < comp n k) ->
     run (fun a => if a =? 0 then vsize u else 0) (body h x y z) (fun _ => vdat u) = Ok (fun _ => vdat u, [f h (x, y, z)])) ->
  gpu_adds (numberOfH, 1, 1) (cuda_h_loop block n body numberOfH u)
    (fun h => if 1 <=? h then interior_mean n (f h) else 0%R).
Proof.
  intros Hbl Hn Hc Hw Hrun out Ho. destruct n as [[nx ny] nz]. pose proof Hn as (Px & Py & Pz). cbn [cells_of] in Hc.
  set (N := fun k => if k =? 0 then nx else if k =? 1 then ny else nz).
  assert (GN : good N) by (unfold good, N; cbn; lia).
  set (cs := box_of N (fun _ => 0)).
  assert (HO : forall h, 1 <= h < numberOfH -> forall q,
    outcomes (fun a => if a =? 0 then vsize u else 0) [kernel block N (fun _ => 0) (body h)] (fun _ => vdat u) q <->
    q = Ok (fun _ => vdat u, map (f h) cs)).
  { intros h Hh. apply kernel_readers; [exact Hbl|exact GN|intros x y z w a i; apply Hw|].
    intros x y z Hin. apply Hrun; [exact Hh|]. unfold box_of, N in Hin. cbn in Hin. apply box_In in Hin.
    intros k Hk. assert (k = 0 \/ k = 1 \/ k = 2) as [->|[->| ->]] by lia; cbn; lia. }
  assert (HS : forall h, fold_right Rplus 0%R (0%R :: map (f h) cs) = sum3 (fun _ => 0) (comp (nx, ny, nz)) (f h)).
  { intros h. rewrite sum3_box. cbn [fold_right]. rewrite Rplus_0_l. unfold cs, box_of, N. cbn -[box Z.add fold_right map suml].
    rewrite !Z.add_0_l. unfold suml. induction (box 0 nz 0 ny 0 nx) as [|c l IH]; [reflexivity|]. cbn [map fold_right]. now rewrite IH. }
  assert (A : forall sums, (forall h, 1 <= h < numberOfH -> sums h = sum3 (fun _ => 0) (comp (nx, ny, nz)) (f h)) ->
    adds (numberOfH, 1, 1) (for_ 1 numberOfH (fun h o =>
          old <- mload o h;; cells <- int_cells (nx, ny, nz);; mstore o h (old + sums h / IZR cells)%R))
      (fun h => if 1 <=? h then interior_mean (nx, ny, nz) (f h) else 0%R)).
  { intros sums Hs. eapply adds_ext; [reflexivity| |
      apply (adds_for (numberOfH, 1, 1) 1 numberOfH _ (fun k i => if i =? k then interior_mean (nx, ny, nz) (f k) else 0%R))].
    - intros i Hi. cbn in Hi. cbv beta.
      rewrite (sumz_single 1 numberOfH i (fun k => interior_mean (nx, ny, nz) (f k))). destruct (Z.leb_spec 1 i); [|reflexivity].
      rewrite (proj2 (Z.ltb_lt i numberOfH)) by lia. reflexivity.
    - intros k Hk. eapply adds_ext; [|reflexivity|apply (adds_one (numberOfH, 1, 1) k (interior_mean (nx, ny, nz) (f k))); cbn; lia].
      intros o _. cbv beta. destruct (mload o k); [|reflexivity|reflexivity]. cbn [bind]. rewrite int_cells_ok by assumption. cbn [bind].
      rewrite (Hs k Hk). reflexivity. }
  split.
  - destruct (A (fun h => sum3 (fun _ => 0) (comp (nx, ny, nz)) (f h)) ltac:(reflexivity) out Ho) as (o & E & _).
    exists (Ok o). right. exists (fun h => sum3 (fun _ => 0) (comp (nx, ny, nz)) (f h)). split; [|now symmetry].
    intros h Hh. exists (fun _ => vdat u), (map (f h) cs). split; [now apply (HO h Hh)|].
    destruct (reduced_exists Rplus (map (f h) cs) 0%R) as (s & Hs). pose proof (reduced_plus _ _ Hs) as Es. rewrite HS in Es.
    subst s. exact Hs.
  - intros r [(_ & h & Hh & Hub)|(sums & Hs & Er)].
    + apply (HO h Hh) in Hub. discriminate.
    + assert (Es : forall h, 1 <= h < numberOfH -> sums h = sum3 (fun _ => 0) (comp (nx, ny, nz)) (f h)).
      { intros h Hh. destruct (Hs h Hh) as (m & xs & Hq & Hr). apply (HO h Hh) in Hq. injection Hq as _ ->.
        rewrite (reduced_plus _ _ Hr). apply HS. }
      destruct (A sums Es out Ho) as (o & E & D & V). exists o. split; [congruence|]. split; assumption.
Qed.

Lemma cube_always b dims numberOfH p g n u : b <> OtherBC -> positive_cells n -> nonneg_cells g -> has_cells g n u ->
  cells_of n < 2 ^ 31 -> grid_of_dimension dims n ->
  gpu_adds (numberOfH, 1, 1) (cuda_cube b numberOfH (Z.of_nat p) g u)
    (fun h => if 1 <=? h then structure_cube_value b dims p g n u h else 0%R).
Proof.
  intros Hb Hn Hg Hu Hc Hd. unfold cuda_cube. rewrite (has_cells_inner g n u Hu). unfold structure_cube_value.
  destruct (grid_dims dims n Hd) as (D3 & Ed & Al).
  apply h_loop_adds; auto.
  - destruct (Z.of_nat p <? 6); lia.
  - intros h x y z w a i H. unfold cube_body in H. rewrite (has_cells_inner g n u Hu), Ed, positions_shell in H by exact D3.
    inversion H; subst; auto. eapply cube_sum_accs; eassumption.
  - intros h x y z Hh Hxyz. unfold cube_body. rewrite (has_cells_inner g n u Hu), Ed, positions_shell by exact D3.
    rewrite (run_own u n g Hg Hu (x, y, z)) by exact Hxyz.
    rewrite (run_cube_sum b u n n g Hb Hn Hg Hu ltac:(intros; lia)). do 3 f_equal.
    destruct (Al x y z) as (A1 & A2); [apply (Hxyz 0); lia|apply (Hxyz 1); lia|apply (Hxyz 2); lia|].
    rewrite Rplus_0_l, suml_shell by (auto; lia). unfold shell_sum. apply sum3_same. intros c.
    destruct (max_norm c =? h); [|reflexivity]. apply dispatch_power_pow.
Qed.

Lemma basic_always b numberOfH p d g n u : b <> OtherBC -> nonneg_cells g -> has_cells g n u ->
  positive_cells (shrink g n) -> cells_of (shrink g n) < 2 ^ 31 ->
  gpu_adds (numberOfH, 1, 1) (cuda_basic b numberOfH (Z.of_nat p) d g u)
    (fun h => if 1 <=? h then structure_value b p d g (shrink g n) u h else 0%R).
Proof.
  intros Hb Hg Hu Hn Hc. unfold cuda_basic. rewrite (twice_inner_shrink g n u Hu). unfold structure_value.
  assert (Hle : forall k, 0 <= k < 3 -> comp (shrink g n) k <= comp n k).
  { clear - Hg. destruct n as [[nx ny] nz], g as [[gx gy] gz]. cbn in Hg. intros k Hk.
    assert (k = 0 \/ k = 1 \/ k = 2) as [->|[->| ->]] by lia; cbn; lia. }
  assert (Ed : direction_vector d = step d 1).
  { unfold direction_vector, step. rewrite !Z.mul_1_l. reflexivity. }
  apply h_loop_adds; auto; [lia| |].
  - intros h x y z w a i H. unfold basic_body in H. destruct (direction_vector d) as [[dx dy] dz].
    inversion H; subst; auto. eapply fetch_at_accs; [|eassumption]. intros c w' q' i' H'. inversion H'.
  - intros h x y z Hh Hxyz. unfold basic_body. rewrite Ed. unfold step at 1.
    rewrite (run_own u n g Hg Hu (x, y, z)) by (intros k Hk; pose proof (Hxyz k Hk); pose proof (Hle k Hk); lia).
    rewrite (run_fetch_at b u (shrink g n) n g Hb Hn Hg Hu Hle). cbn [run]. do 3 f_equal.
    rewrite cpow_nat. cbn [plus step]. rewrite !Z.mul_1_l. reflexivity.
Qed.

(** * log_entropy *)

Lemma run_momenta (size : Z -> Z) (m : shared R) i next : forall k a acc0,
  (forall j, 0 <= j < Z.of_nat k -> 0 <= i < size (a + j)) ->
  run size (momenta k a i acc0 next) m = run size (next (acc0 + suml (fun j => m (a + j)%Z i ^ 2) (zrange 0 (Z.of_nat k)))%R) m.
Proof.
  induction k as [|k IH]; intros a acc0 H.
  - cbn. now rewrite Rplus_0_r.
  - cbn [momenta run]. unfold inside. pose proof (H 0 ltac:(lia)) as H0. rewrite Z.add_0_r in H0.
    rewrite (proj2 (Z.leb_le 0 i)), (proj2 (Z.ltb_lt i (size a))) by lia. cbn [andb].
    rewrite IH by (intros j Hj; replace (a + 1 + j) with (a + (j + 1)) by lia; apply H; lia).
    do 2 f_equal. rewrite (zrange_cons 0 (Z.of_nat (Datatypes.S k))) by lia. cbn [suml fold_right].
    fold (suml (fun j => m (a + j)%Z i ^ 2)%R (zrange (0 + 1) (Z.of_nat (Datatypes.S k)))).
    assert (E : suml (fun j => m (a + 1 + j)%Z i ^ 2)%R (zrange 0 (Z.of_nat k)) =
                suml (fun j => m (a + j)%Z i ^ 2)%R (zrange (0 + 1) (Z.of_nat (Datatypes.S k)))).
    { rewrite !suml_sumz. replace (Z.of_nat (Datatypes.S k)) with (Z.of_nat k + 1) by lia. rewrite sumz_shift.
      apply sumz_ext. intros j _. now replace (a + (j + 1)) with (a + 1 + j) by lia. }
    rewrite E, Z.add_0_r. ring.
Qed.

Lemma sum_linear n (F : cell -> R) : positive_cells n ->
  suml (fun i => F (nth_cell n i)) (zrange 0 (dsize n)) = sum3 (fun _ => 0) (comp n) F.
Proof.
  destruct n as [[nx ny] nz]. intros (Px & Py & Pz). cbn [dsize].
  rewrite <- (suml_map F (nth_cell (nx, ny, nz))).
  assert (K : forall i, In i (zrange 0 (nx * ny * nz)) ->
    exists x y z, nth_cell (nx, ny, nz) i = (x, y, z) /\ 0 <= x < nx /\ 0 <= y < ny /\ 0 <= z < nz /\ index nx ny x y z = i).
  { intros i Hi. apply zrange_In in Hi. apply nth_cell_spec; lia. }
  rewrite (sum_enumeration (fun _ => 0) (comp (nx, ny, nz)) (fun _ => true) (map (nth_cell (nx, ny, nz)) (zrange 0 (nx * ny * nz))) F).
  - reflexivity.
  - apply (NoDup_map_inv (fun c => let '(x, y, z) := c in index nx ny x y z)). rewrite map_map.
    rewrite (map_ext_in _ (fun i => i)); [rewrite map_id; apply zrange_NoDup|].
    intros i Hi. destruct (K i Hi) as (x & y & z & -> & _ & _ & _ & E). exact E.
  - intros x y z. rewrite in_map_iff. cbn [comp Z.eqb Pos.eqb]. split.
    + intros (i & E & Hi). destruct (K i Hi) as (x' & y' & z' & E' & ? & ? & ? & _). rewrite E in E'. injection E' as -> -> ->.
      cbn. lia.
    + cbn. intros (_ & Bx & By & Bz).
      assert (Bi : 0 <= index nx ny x y z < nx * ny * nz).
      { exact (L_Structure.index_range (mkvol nx ny nz (fun _ => 0%R)) x y z Bx By Bz). }
      exists (index nx ny x y z). split; [|apply zrange_In; lia].
      destruct (nth_cell_spec nx ny nz (index nx ny x y z)) as (x' & y' & z' & E0 & ? & ? & ? & E); try lia.
      apply index_inj in E; try lia. destruct E as (-> & -> & ->). exact E0.
Qed.

Section Entropy.
Variables (gamma dv : R) (g n : cell) (rho E : vol R) (ms : list (vol R)).
Hypotheses (Hn : positive_cells n) (Hg : nonneg_cells g) (Hr : has_cells g n rho) (HE : has_cells g n E)
  (Hms : Forall (has_cells g n) ms).
Let area (a : Z) : vol R := nth (Z.to_nat a) (rho :: E :: ms) (mkvol 0 0 0 (fun _ => 0%R)).
Let size (a : Z) : Z := if a <? 0 then 0 else vsize (area a).
Let m0 : shared R := fun a => vdat (area a).
Let buffer : vol R := mkvol (comp n 0) (comp n 1) (comp n 2) (fun _ => 0%R).

(** The entropy as the kernel writes it. *)
Definition kernel_entropy (c : cell) : R :=
  let density := interior_value g rho c in
  let m2 := suml (fun m => interior_value g m c ^ 2)%R ms in
  let pressure := ((gamma - 1) * (interior_value g E c - 1 / (2 * density) * m2))%R in
  ((- density * (ln pressure - gamma * ln density)) / (gamma - 1) * dv)%R.

Lemma ghosted_same u v c : has_cells g n u -> has_cells g n v -> ghosted g u c = ghosted g v c.
Proof.
  destruct n as [[nx ny] nz], g as [[gx gy] gz], c as [[x y] z]. cbn. intros (-> & -> & _) (-> & -> & _). reflexivity.
Qed.
Lemma momentum_areas c : suml (fun j => m0 (2 + j)%Z (ghosted g E c) ^ 2)%R (zrange 0 (Z.of_nat (length ms))) =
  suml (fun m => interior_value g m c ^ 2)%R ms.
Proof.
  unfold m0, area. clear m0 size buffer area.
  assert (G : forall l, Forall (has_cells g n) l -> forall d,
    suml (fun j => vdat (nth (Z.to_nat j) l d) (ghosted g E c) ^ 2)%R (zrange 0 (Z.of_nat (length l))) =
    suml (fun m => interior_value g m c ^ 2)%R l).
  { induction l as [|v l IH]; intros F d; [reflexivity|]. inversion F as [|? ? Fv Fl]; subst.
    cbn [length]. rewrite (zrange_cons 0 _) by lia. cbn [suml fold_right].
    fold (suml (fun j => vdat (nth (Z.to_nat j) (v :: l) d) (ghosted g E c) ^ 2)%R (zrange (0 + 1) (Z.of_nat (Datatypes.S (length l))))).
    fold (suml (fun m => interior_value g m c ^ 2)%R l). rewrite <- (IH Fl d), !suml_sumz.
    replace (Z.of_nat (Datatypes.S (length l))) with (Z.of_nat (length l) + 1) by lia. rewrite sumz_shift.
    change (nth (Z.to_nat 0) (v :: l) d) with v. rewrite (ghosted_same E v c HE Fv), ghosted_value. f_equal.
    apply sumz_ext. intros j Hj. replace (Z.to_nat (j + 1)) with (Datatypes.S (Z.to_nat j)) by lia. cbn [nth].
    rewrite (ghosted_same v E c Fv HE). reflexivity. }
  rewrite <- (G ms Hms (mkvol 0 0 0 (fun _ => 0%R))), !suml_sumz. apply sumz_ext. intros j Hj.
  replace (Z.to_nat (2 + j)) with (Datatypes.S (Datatypes.S (Z.to_nat j))) by lia. reflexivity.
Qed.
Lemma area_cells a : 0 <= a < 2 + Z.of_nat (length ms) -> has_cells g n (area a).
Proof.
  intros Ha. unfold area.
  assert (F : Forall (has_cells g n) (rho :: E :: ms)) by auto.
  rewrite Forall_forall in F. apply F. apply nth_In. cbn [length]. lia.
Qed.

Lemma run_entropy i : 0 <= i < dsize n ->
  run size (entropy_body gamma dv g buffer rho E (length ms) i) m0 = Ok (m0, [kernel_entropy (nth_cell n i)]).
Proof.
  intros Hi. unfold entropy_body. cbv zeta.
  assert (Hb : has_dims n buffer) by (unfold buffer; destruct n as [[nx ny] nz]; repeat split).
  rewrite (thread_cell_nth n buffer i Hb). set (c := nth_cell n i).
  assert (Hc : forall k, 0 <= k < 3 -> 0 <= comp c k < comp n k) by now apply nth_cell_in.
  assert (In_ : forall a, 0 <= a < 2 + Z.of_nat (length ms) -> 0 <= ghosted g E c < size a).
  { intros a Ha. pose proof (area_cells a Ha) as Hv. rewrite (ghosted_same E (area a) c HE Hv). unfold size.
    rewrite (proj2 (Z.ltb_ge a 0)) by lia. now apply (ghosted_in g n). }
  cbn [run]. unfold inside. rewrite (ghosted_same rho E c Hr HE).
  pose proof (In_ 0 ltac:(lia)) as I0. pose proof (In_ 1 ltac:(lia)) as I1.
  rewrite (proj2 (Z.leb_le 0 (ghosted g E c))), !(proj2 (Z.ltb_lt (ghosted g E c) _)) by lia. cbn [andb].
  rewrite run_momenta by (intros j Hj; apply In_; lia).
  rewrite momentum_areas. cbn [run]. unfold kernel_entropy. rewrite Rplus_0_l.
  change (m0 1 (ghosted g E c)) with (vdat E (ghosted g E c)). rewrite ghosted_value.
  change (m0 0 (ghosted g E c)) with (vdat rho (ghosted g E c)). rewrite (ghosted_same E rho c HE Hr), ghosted_value. reflexivity.
Qed.
Lemma momenta_accs k : forall a i acc0 (next : R -> prog R R) w q j,
  (forall r w q j, accs (next r) w q j -> w = false) -> accs (momenta k a i acc0 next) w q j -> w = false.
Proof.
  induction k as [|k IH]; intros a i acc0 next w q j Hx H; cbn [momenta] in H; [eapply Hx; exact H|].
  inversion H; subst; auto. eapply IH; [|eassumption]. exact Hx.
Qed.
Lemma entropy_outcomes r :
  outcomes size [linear (vsize buffer) (entropy_body gamma dv g buffer rho E (length ms))] m0 r <->
  r = Ok (m0, map (fun i => kernel_entropy (nth_cell n i)) (zrange 0 (dsize n))).
Proof.
  assert (Eb : vsize buffer = dsize n) by (unfold buffer; destruct n as [[nx ny] nz]; reflexivity).
  assert (0 <= dsize n) by (destruct n as [[nx ny] nz]; cbn in *; nia).
  rewrite Eb. revert r. apply linear_readers; [lia| |exact run_entropy].
  intros i w a j H1. unfold entropy_body in H1. cbv zeta in H1.
  inversion H1 as [| ? ? ? ? ? ? ? H2| |]; subst; auto. inversion H2 as [| ? ? ? ? ? ? ? H3| |]; subst; auto.
  eapply momenta_accs; [|exact H3]. intros r w' q' j' H4. inversion H4.
Qed.
End Entropy.
