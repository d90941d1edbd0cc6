(** Exchanging axes, reflections and rotations of periodic grids. *)
From Coq Require Import ZArith Reals List Bool Lia Lra Permutation.
From Verif Require Import M_Base M_Vec M_Boundary M_Flux M_Sim S_Boundary S_Flux S_Sum S_Sim L_Base L_Loops
  L_Boundary L_Flux L_System L_Sum L_Conserve L_FluxTop L_Sim L_SimTop L_SimProps L_Related S_Symmetry L_Symmetry.
Import ListNotations.
Open Scope Z_scope.

(** ** Faces *)
Section Faces.
Context {V W : cvars}.
Variables (g : Z) (fx : numflux V) (rc : recon V) (fx' : numflux W) (rc' : recon W) (tau : V -> W).
Hypothesis Hrec : carries_recon tau rc rc'.

Lemma rec_at_carry (Hr : 1 <= rec_ghosts rc) d d' (u : cell -> V) (u' : cell -> W) c c' :
  (forall s, - (rec_ghosts rc - 1) <= s <= rec_ghosts rc - 1 -> u' (move d' s c') = tau (u (move d s c))) ->
  rec_at rc' d' u' c' = (tau (fst (rec_at rc d u c)), tau (snd (rec_at rc d u c))).
Proof.
  intros H. destruct Hrec as [Eg Er]. unfold rec_at. rewrite Eg, <- Er.
  - f_equal. rewrite map_map. apply map_ext_in. intros s Hs. apply zrange_In in Hs. apply H. lia.
  - rewrite map_length, zrange_length. lia.
Qed.

Lemma face_carry d d' u u' c c' : compatible fx rc g -> carries tau fx d fx' d' ->
  (forall s, - (g - 1) <= s <= g -> u' (move d' s c') = tau (u (move d s c))) ->
  iface fx' rc' d' u' c' = (tau (fst (iface fx rc d u c)), snd (iface fx rc d u c)).
Proof.
  intros [Hr Hf] Hc H. unfold iface. unfold carries in Hc.
  destruct fx as [f|st f], fx' as [f'|st' f']; try contradiction.
  - rewrite (rec_at_carry (proj1 Hr) d d' u u' c c') by (intros; apply H; lia).
    rewrite (rec_at_carry (proj1 Hr) d d' u u' (move d 1 c) (move d' 1 c')).
    + cbn [fst snd]. apply Hc.
    + intros s Hs. rewrite !move_move. apply H. lia.
  - destruct Hc as [-> Hc]. rewrite <- Hc by (now rewrite map_length).
    f_equal. rewrite map_map. apply map_ext_in. intros s Hs. specialize (Hf s Hs).
    rewrite (rec_at_carry (proj1 Hr) d d' u u' (move d s c) (move d' s c')); [reflexivity|].
    intros t Ht. rewrite !move_move. apply H. lia.
Qed.
End Faces.

Section Mirror.
Context {V : cvars}.
Variables (g : Z) (fx : numflux V) (rc : recon V) (tau : V -> V).
Hypothesis Hrec : mirrors_recon tau rc.

Lemma nth_zrange lo hi k x : 0 <= Z.of_nat k < hi - lo -> nth k (zrange lo hi) x = lo + Z.of_nat k.
Proof.
  intros H. unfold zrange. rewrite nth_indep with (d' := lo + Z.of_nat O) by (rewrite map_length, seq_length; lia).
  rewrite (map_nth (fun k => lo + Z.of_nat k)). rewrite seq_nth by lia. reflexivity.
Qed.
Lemma rev_zrange r : rev (zrange (- (r - 1)) r) = map Z.opp (zrange (- (r - 1)) r).
Proof.
  destruct (Z_le_gt_dec r 0) as [H|H].
  { rewrite (zrange_empty (- (r - 1)) r) by lia. reflexivity. }
  apply nth_ext with (d := 0) (d' := - 0).
  - now rewrite rev_length, map_length.
  - intros k Hk. rewrite rev_length, zrange_length in Hk. rewrite rev_nth by (rewrite zrange_length; lia).
    rewrite map_nth, !zrange_length. rewrite !nth_zrange by lia. lia.
Qed.

Lemma rec_at_mirror (Hr : 1 <= rec_ghosts rc) d (u u' : cell -> V) c c' :
  (forall s, - (rec_ghosts rc - 1) <= s <= rec_ghosts rc - 1 -> u' (move d s c') = tau (u (move d (- s) c))) ->
  rec_at rc d u' c' = (tau (snd (rec_at rc d u c)), tau (fst (rec_at rc d u c))).
Proof.
  intros H. unfold rec_at. rewrite <- Hrec.
  - f_equal. rewrite map_map, <- map_rev, rev_zrange, map_map. apply map_ext_in. intros s Hs. apply zrange_In in Hs. apply H. lia.
  - rewrite map_length, zrange_length. lia.
Qed.

Lemma face_mirror d u u' c c' : compatible fx rc g -> mirrors tau fx d ->
  match fx with Flux2 _ => True | FluxN _ _ => forall us, fst (rec_fun rc us) = snd (rec_fun rc us) end ->
  (forall s, - (g - 1) <= s <= g -> u' (move d s c') = tau (u (move d (1 - s) c))) ->
  iface fx rc d u' c' = (vscal (-1) (tau (fst (iface fx rc d u c))), snd (iface fx rc d u c)).
Proof.
  intros [Hr Hf] Hm Hwide H. unfold iface. unfold mirrors in Hm.
  destruct fx as [f|st f].
  - rewrite (rec_at_mirror (proj1 Hr) d u u' (move d 1 c) c').
    + rewrite (rec_at_mirror (proj1 Hr) d u u' c (move d 1 c')).
      * cbn [fst snd]. apply Hm.
      * intros s Hs. rewrite move_move, H by lia. f_equal. f_equal. f_equal. lia.
    + intros s Hs. rewrite move_move, H by lia. f_equal.
  - destruct Hm as [Es Hm]. rewrite <- Hm by (now rewrite map_length).
    f_equal. rewrite map_map, <- map_rev. rewrite <- Es at 1. rewrite map_rev, map_map. f_equal.
    rewrite map_rev. f_equal.
    apply map_ext_in. intros s Hs. specialize (Hf s Hs).
    rewrite (rec_at_mirror (proj1 Hr) d u u' (move d s c) (move d (1 - s) c')).
    + cbn [fst]. f_equal. unfold rec_at. now rewrite Hwide.
    + intros t Ht. rewrite !move_move, H by lia. f_equal. f_equal. f_equal. lia.
Qed.
End Mirror.

(** ** Geometry *)
Lemma pos_coord k c : pos k c = coord k c.
Proof. now destruct c as [[x y] z]. Qed.
Lemma cell_ext c c' : (forall k, dir k -> coord k c = coord k c') -> c = c'.
Proof.
  intros H. destruct c as [[x y] z], c' as [[x' y'] z'].
  pose proof (H 0 ltac:(unfold dir; auto)). pose proof (H 1 ltac:(unfold dir; auto)). pose proof (H 2 ltac:(unfold dir; auto)).
  cbn in *. congruence.
Qed.
Lemma swap_dir a e k : dir a -> dir e -> dir k -> dir (swap_axis a e k).
Proof. intros Ha He Hk. unfold swap_axis. destruct (k =? a); [exact He|]. destruct (k =? e); assumption. Qed.
Lemma swap_swap a e k : swap_axis a e (swap_axis a e k) = k.
Proof. unfold swap_axis. destruct (Z.eqb_spec k a), (Z.eqb_spec k e); repeat match goal with |- context [?x =? ?y] => destruct (Z.eqb_spec x y) end; congruence. Qed.
Lemma swap_lt a e k dims : 0 <= a < dims -> 0 <= e < dims -> (swap_axis a e k <? dims) = (k <? dims).
Proof.
  intros Ha He. unfold swap_axis. destruct (Z.eqb_spec k a); [|destruct (Z.eqb_spec k e)]; subst;
  repeat match goal with |- context [?x <? ?y] => destruct (Z.ltb_spec x y) end; try reflexivity; lia.
Qed.
Lemma swap_coord a e c k : dir k -> coord k (swap_cell a e c) = coord (swap_axis a e k) c.
Proof. intros Hk. unfold swap_cell. dcase Hk; cbn [coord Z.eqb Pos.eqb]; apply pos_coord. Qed.
Lemma reflect_coord g n flip c j : dir j -> coord j (reflect_cell g n flip c) = if flip j then 2 * g + n j - 1 - coord j c else coord j c.
Proof. intros Hj. unfold reflect_cell. dcase Hj; cbv zeta; cbn [coord Z.eqb Pos.eqb]; rewrite <- ?pos_coord; reflexivity. Qed.
Lemma rotate_coord g n k m c j : dir j -> coord j (rotate_cell g n k m c) = if j =? k then g + (coord j c - g + m) mod n else coord j c.
Proof. intros Hj. unfold rotate_cell. dcase Hj; cbv zeta; cbn [coord Z.eqb Pos.eqb]; rewrite <- ?pos_coord; reflexivity. Qed.
Lemma nvec_swap n0 n1 n2 a e k : dir k ->
  nvec (nvec n0 n1 n2 (swap_axis a e 0)) (nvec n0 n1 n2 (swap_axis a e 1)) (nvec n0 n1 n2 (swap_axis a e 2)) k = nvec n0 n1 n2 (swap_axis a e k).
Proof. intros Hk. dcase Hk; reflexivity. Qed.

Lemma swap_perm dims a e : 1 <= dims <= 3 -> 0 <= a < dims -> 0 <= e < dims ->
  Permutation (map (swap_axis a e) (zrange 0 dims)) (zrange 0 dims).
Proof.
  intros Hd Ha He. apply NoDup_Permutation.
  - apply FinFun.Injective_map_NoDup; [|apply zrange_NoDup].
    intros x y E. rewrite <- (swap_swap a e x), E. apply swap_swap.
  - apply zrange_NoDup.
  - intros x. rewrite in_map_iff. split.
    + intros (y & <- & Hy). apply zrange_In in Hy. apply zrange_In.
      unfold swap_axis. destruct (y =? a); [lia|]. destruct (y =? e); lia.
    + intros Hx. apply zrange_In in Hx. exists (swap_axis a e x). split; [apply swap_swap|]. apply zrange_In.
      unfold swap_axis. destruct (x =? a); [lia|]. destruct (x =? e); lia.
Qed.

Section Geometry.
Variables (dims g nx ny nz : Z).
Hypothesis Hdims : 1 <= dims <= 3.
Notation n := (nvec nx ny nz).

Section Swap.
Variables (a e : Z).
Hypothesis (Ha : 0 <= a < dims) (He : 0 <= e < dims).
Notation sw := (swap_axis a e).
Notation nx' := (n (sw 0)). Notation ny' := (n (sw 1)). Notation nz' := (n (sw 2)).
Let Da : dir a. Proof. unfold dir; lia. Qed.
Let De : dir e. Proof. unfold dir; lia. Qed.

Lemma swap_inside c : interior dims g nx' ny' nz' c <-> interior dims g nx ny nz (swap_cell a e c).
Proof.
  rewrite !interior_iff by lia. unfold ilo, ihi. split; intros H k Hk.
  - rewrite swap_coord by exact Hk. specialize (H (sw k) (swap_dir a e k Da De Hk)).
    rewrite nvec_swap, swap_swap, swap_lt in H by (auto; now apply swap_dir). exact H.
  - specialize (H (sw k) (swap_dir a e k Da De Hk)).
    rewrite swap_coord, swap_swap, swap_lt in H by (auto; now apply swap_dir). rewrite nvec_swap by exact Hk. exact H.
Qed.
Lemma swap_onto c : interior dims g nx ny nz c -> exists c', interior dims g nx' ny' nz' c' /\ swap_cell a e c' = c.
Proof.
  intros H. assert (E : swap_cell a e (swap_cell a e c) = c).
  { apply cell_ext. intros k Hk. rewrite !swap_coord, swap_swap by (auto; now apply swap_dir). reflexivity. }
  exists (swap_cell a e c). split; [|exact E]. apply swap_inside. now rewrite E.
Qed.
Lemma swap_move im c d s : 0 <= d < dims ->
  swap_cell a e (image im dims g nx' ny' nz' (move (sw d) s c)) = image im dims g nx ny nz (move d s (swap_cell a e c)).
Proof.
  intros Hd. assert (Dd : dir d) by (unfold dir; lia). apply cell_ext. intros k Hk.
  assert (Dk : dir (sw k)) by now apply swap_dir. assert (Dsd : dir (sw d)) by now apply swap_dir.
  rewrite swap_coord by exact Hk. rewrite !image_coord, swap_lt, nvec_swap, swap_swap by (auto; lia).
  rewrite !coord_move, swap_coord by auto.
  replace (sw k =? sw d) with (k =? d); [reflexivity|].
  destruct (Z.eqb_spec k d) as [E|E]; [subst; now rewrite Z.eqb_refl|].
  symmetry. apply Z.eqb_neq. intros X. apply E. rewrite <- (swap_swap a e k), X. apply swap_swap.
Qed.
End Swap.

Section Reflect.
Variable flip : Z -> bool.
Hypothesis Hflip : forall k, flip k = true -> 0 <= k < dims.
Notation rf := (reflect_cell g n flip).

Lemma reflect_reflect c : rf (rf c) = c.
Proof.
  apply cell_ext. intros j Hj. rewrite !reflect_coord by exact Hj. destruct (flip j); lia.
Qed.
Lemma reflect_inside c : interior dims g nx ny nz c <-> interior dims g nx ny nz (rf c).
Proof.
  rewrite !interior_iff by lia. unfold ilo, ihi.
  split; intros H j Hj; specialize (H j Hj); rewrite reflect_coord in * by exact Hj;
  (destruct (flip j) eqn:E; [apply Hflip in E|exact H]);
  destruct (Z.ltb_spec j dims); lia.
Qed.
Lemma reflect_onto c : interior dims g nx ny nz c -> exists c', interior dims g nx ny nz c' /\ rf c' = c.
Proof. intros H. exists (rf c). split; [now apply reflect_inside in H|apply reflect_reflect]. Qed.

Lemma image_reflect b N t s : 0 < N -> g <= N -> g <= t < g + N -> - g <= s <= g ->
  2 * g + N - 1 - bc_image b g N (t + s) = bc_image b g N (2 * g + N - 1 - t - s).
Proof.
  intros HN Hg Ht Hs. destruct b; cbn [bc_image].
  - unfold periodic1. set (m := t + s - g). replace (2 * g + N - 1 - t - s - g) with (N - 1 - m) by lia.
    assert (E : (N - 1 - m) mod N = N - 1 - m mod N).
    { symmetry. apply Z.mod_unique with (q := - (m / N)). { left. pose proof (Z.mod_pos_bound m N). lia. }
      pose proof (Z.div_mod m N). lia. }
    rewrite E. lia.
  - unfold mirror1. repeat match goal with |- context [?x <? ?y] => destruct (Z.ltb_spec x y)
      | |- context [?x <=? ?y] => destruct (Z.leb_spec x y) end; lia.
Qed.
Lemma reflect_move b c d s : (forall j, 0 <= j < dims -> 0 < n j /\ g <= n j) -> interior dims g nx ny nz c -> 0 <= d < dims -> - g <= s <= g ->
  rf (image (bc_image b) dims g nx ny nz (move d s c)) =
  image (bc_image b) dims g nx ny nz (move d ((if flip d then -1 else 1) * s) (rf c)).
Proof.
  intros Hn Hc Hd Hs. assert (Dd : dir d) by (unfold dir; lia). apply cell_ext. intros j Hj.
  rewrite reflect_coord by exact Hj. rewrite !image_coord, !coord_move, reflect_coord by (auto; lia).
  rewrite interior_iff in Hc by lia. specialize (Hc j Hj). unfold ilo, ihi in Hc.
  destruct (flip j) eqn:E.
  - apply Hflip in E as Hk. destruct (Z.ltb_spec j dims); [|lia]. destruct (Hn j Hk).
    destruct (j =? d) eqn:Ed.
    + apply Z.eqb_eq in Ed. subst d. rewrite E, image_reflect by lia. f_equal; lia.
    + rewrite image_reflect by lia. f_equal; lia.
  - destruct (j =? d) eqn:Ed; [|reflexivity].
    apply Z.eqb_eq in Ed. subst d. rewrite E. now rewrite Z.mul_1_l.
Qed.
End Reflect.

Section Rotate.
Variables k m : Z.
Hypothesis Hk : 0 <= k < dims.
Hypothesis Hnk : 0 < n k.
Notation rt := (rotate_cell g (n k) k m).

Lemma rotate_inside c : interior dims g nx ny nz c -> interior dims g nx ny nz (rt c).
Proof.
  rewrite !interior_iff by lia. unfold ilo, ihi. intros H j Hj. specialize (H j Hj). rewrite rotate_coord by exact Hj.
  destruct (j =? k) eqn:E; [apply Z.eqb_eq in E; subst j|exact H].
  destruct (Z.ltb_spec k dims); [|lia]. pose proof (Z.mod_pos_bound (coord k c - g + m) (n k)). lia.
Qed.
Lemma rotate_onto c : interior dims g nx ny nz c -> exists c', interior dims g nx ny nz c' /\ rt c' = c.
Proof.
  intros H. exists (rotate_cell g (n k) k (- m) c). assert (Hi := H). rewrite interior_iff in H by lia. unfold ilo, ihi in H.
  split.
  - rewrite interior_iff by lia. unfold ilo, ihi. intros j Hj. specialize (H j Hj). rewrite rotate_coord by exact Hj.
    destruct (j =? k) eqn:E; [apply Z.eqb_eq in E; subst j|exact H].
    destruct (Z.ltb_spec k dims); [|lia]. pose proof (Z.mod_pos_bound (coord k c - g + - m) (n k)). lia.
  - apply cell_ext. intros j Hj. rewrite !rotate_coord by exact Hj. specialize (H j Hj).
    destruct (j =? k) eqn:E; [apply Z.eqb_eq in E; subst j|reflexivity].
    destruct (Z.ltb_spec k dims); [|lia].
    replace (g + (coord k c - g + - m) mod n k - g + m) with ((coord k c - g + - m) mod n k + m) by lia.
    rewrite Zplus_mod_idemp_l. replace (coord k c - g + - m + m) with (coord k c - g) by lia.
    rewrite Z.mod_small by lia. lia.
Qed.
Lemma rotate_move c d s : 0 <= d < dims ->
  rt (image periodic1 dims g nx ny nz (move d s c)) = image periodic1 dims g nx ny nz (move d s (rt c)).
Proof.
  intros Hd. assert (Dd : dir d) by (unfold dir; lia). apply cell_ext. intros j Hj.
  rewrite rotate_coord by exact Hj. rewrite !image_coord, !coord_move, rotate_coord by (auto; lia).
  destruct (j =? k) eqn:E; [apply Z.eqb_eq in E; subst j|reflexivity].
  destruct (Z.ltb_spec k dims); [|lia]. unfold periodic1.
  set (x := if k =? d then s else 0). f_equal.
  replace (g + (coord k c + x - g) mod n k - g + m) with ((coord k c + x - g) mod n k + m) by lia.
  rewrite Zplus_mod_idemp_l.
  replace (g + (coord k c - g + m) mod n k + x - g) with ((coord k c - g + m) mod n k + x) by lia.
  rewrite Zplus_mod_idemp_l. f_equal. lia.
Qed.
End Rotate.
End Geometry.

(** ** Runs *)
Lemma fits_swap dims g nx ny nz a e : 1 <= dims <= 3 -> 0 <= a < dims -> 0 <= e < dims ->
  fits_grid dims g nx ny nz ->
  fits_grid dims g (nvec nx ny nz (swap_axis a e 0)) (nvec nx ny nz (swap_axis a e 1)) (nvec nx ny nz (swap_axis a e 2)).
Proof.
  intros Hd Ha He (H1 & H2 & H3 & H4 & H5 & H6 & H7).
  assert (C : (dims = 1 /\ a = 0 /\ e = 0) \/ (dims = 2 /\ (a = 0 \/ a = 1) /\ (e = 0 \/ e = 1)) \/
     (dims = 3 /\ dir a /\ dir e)) by (unfold dir; lia).
  unfold total_cells in *.
  destruct C as [(-> & -> & ->)|[(-> & A & B)|(-> & A & B)]].
  - repeat split; cbn; try lia. exact H7.
  - destruct A as [->| ->], B as [->| ->]; unfold fits_grid, total_cells; cbn [nvec swap_axis Z.eqb Pos.eqb Z.ltb Z.compare Pos.compare Pos.compare_cont] in *;
    (split; [|split; [|split; [|split; [|split; [|split]]]]]); try lia.
  - dcase A; dcase B; unfold fits_grid, total_cells; cbn [nvec swap_axis Z.eqb Pos.eqb Z.ltb Z.compare Pos.compare Pos.compare_cont] in *;
    (split; [|split; [|split; [|split; [|split; [|split]]]]]); try lia.
Qed.

Section Runs.
Context {V : cvars}.
Variables (tau : V -> V) (it : integrator) (b : bckind) (dims g : Z) (fx : numflux V) (rc : recon V) (nx ny nz : Z)
  (p : params) (ok : V -> bool) (obeys obeys' : vol V -> bool).
Hypothesis Hdims : 1 <= dims <= 3.
Hypothesis Hcomp : compatible fx rc g.
Hypothesis Hfit : fits_grid dims g nx ny nz.
Hypothesis tau_add : forall a c, tau (vadd a c) = vadd (tau a) (tau c).
Hypothesis tau_scal : forall k a, tau (vscal k a) = vscal k (tau a).
Hypothesis Hok : forall a, ok (tau a) = ok a.
Hypothesis Hob : checks_all dims g nx ny nz ok obeys.
Notation n := (nvec nx ny nz).

Lemma image_move_inside a1 a2 a3 c d s : fits_grid dims g a1 a2 a3 ->
  interior dims g a1 a2 a3 c -> 0 <= d < dims -> - g <= s <= g ->
  interior dims g a1 a2 a3 (image (bc_image b) dims g a1 a2 a3 (move d s c)).
Proof.
  intros (H1 & H2 & H3 & H4 & H5 & H6 & H7) Hc Hd Hs.
  apply (im_interior b dims g fx rc a1 a2 a3); auto.
  now apply (stencil_in_volume dims g fx rc a1 a2 a3).
Qed.
Lemma fits_dir j : 0 <= j < dims -> 0 < n j /\ g <= n j.
Proof.
  destruct Hfit as (H1 & H2 & H3 & H4 & H5 & H6 & H7). intros Hj.
  assert (D : dir j) by (unfold dir; lia). dcase D; unfold nvec; cbn [Z.eqb Pos.eqb]; lia.
Qed.

Theorem axes_runs a e u0 rest sc u0' rest' sc' adjs :
  0 <= a < dims -> 0 <= e < dims -> p_len p (swap_axis a e 0) = p_len p 0 ->
  let nx' := n (swap_axis a e 0) in let ny' := n (swap_axis a e 1) in let nz' := n (swap_axis a e 2) in
  (forall d, 0 <= d < dims -> carries tau fx d fx (swap_axis a e d)) -> carries_recon tau rc rc ->
  checks_all dims g nx' ny' nz' ok obeys' ->
  volumes it dims g nx ny nz u0 rest sc -> volumes it dims g nx' ny' nz' u0' rest' sc' ->
  (forall c, interior dims g nx' ny' nz' c -> vget u0' c = tau (vget u0 (swap_cell a e c))) ->
  agree (fun u u' => forall c, interior dims g nx' ny' nz' c -> u' c = tau (u (swap_cell a e c)))
    (serial_run it b dims g fx rc p obeys (u0 :: rest) sc adjs)
    (serial_run it b dims g fx rc (swap_params a e p) obeys' (u0' :: rest') sc' adjs).
Proof.
  intros Ha He El nx' ny' nz' Hf Hr Hob' (V1 & V2 & V3) (V4 & V5 & V6) H0.
  pose proof (fits_swap dims g nx ny nz a e Hdims Ha He Hfit) as Hfit'. fold nx' ny' nz' in Hfit'.
  pose proof Hfit as (H1 & H2 & H3 & H4 & H5 & H6 & H7). pose proof Hfit' as (H1' & H2' & H3' & H4' & H5' & H6' & H7').
  apply (symmetric_runs b b dims g fx rc fx rc nx ny nz nx' ny' nz' Hdims tau (swap_cell a e) (swap_axis a e) (fun _ => false)
    tau_add tau_scal) with (ok := ok) (ok' := ok); auto.
  - intros c Hc. now apply (swap_inside dims g nx ny nz).
  - intros c Hc. now apply (swap_onto dims g nx ny nz).
  - intros c d s. now apply image_move_inside.
  - intros c d s Hc Hd Hs. unfold sgn. rewrite Z.mul_1_l. now apply swap_move.
  - now apply swap_perm.
  - intros d u u' c c' Hd _ H. now apply (face_carry g fx rc fx rc tau Hr d (swap_axis a e d) u u' c c' Hcomp (Hf d Hd)).
  - discriminate.
  - intros d Hd. cbn. now rewrite swap_swap.
  - intros d Hd. cbn. f_equal. unfold swap_axis. destruct (Z.eqb_spec d a), (Z.eqb_spec d e); lia.
Qed.

Theorem reflect_runs flip u0 rest sc u0' rest' sc' adjs :
  (forall k, flip k = true -> 0 <= k < dims) ->
  (forall d, 0 <= d < dims -> if flip d then mirrors tau fx d else carries tau fx d fx d) ->
  carries_recon tau rc rc -> mirrors_recon tau rc ->
  match fx with Flux2 _ => True | FluxN _ _ => forall us, fst (rec_fun rc us) = snd (rec_fun rc us) end ->
  checks_all dims g nx ny nz ok obeys' ->
  volumes it dims g nx ny nz u0 rest sc -> volumes it dims g nx ny nz u0' rest' sc' ->
  (forall c, interior dims g nx ny nz c -> vget u0' c = tau (vget u0 (reflect_cell g n flip c))) ->
  agree (fun u u' => forall c, interior dims g nx ny nz c -> u' c = tau (u (reflect_cell g n flip c)))
    (serial_run it b dims g fx rc p obeys (u0 :: rest) sc adjs)
    (serial_run it b dims g fx rc p obeys' (u0' :: rest') sc' adjs).
Proof.
  intros Hk Hf Hr Hrm Hw Hob' (V1 & V2 & V3) (V4 & V5 & V6) H0.
  pose proof Hfit as (H1 & H2 & H3 & H4 & H5 & H6 & H7).
  apply (symmetric_runs b b dims g fx rc fx rc nx ny nz nx ny nz Hdims tau (reflect_cell g n flip) (fun d => d) flip
    tau_add tau_scal) with (ok := ok) (ok' := ok); auto.
  - intros c Hc. now apply (reflect_inside dims g nx ny nz).
  - intros c Hc. now apply (reflect_onto dims g nx ny nz).
  - intros c d s. now apply image_move_inside.
  - intros c d s Hc Hd Hs. unfold sgn. apply reflect_move; auto. exact fits_dir.
  - rewrite map_id. apply Permutation_refl.
  - intros d u u' c c' Hd Ed H. pose proof (Hf d Hd) as Q. rewrite Ed in Q.
    now apply (face_carry g fx rc fx rc tau Hr d d u u' c c' Hcomp Q).
  - intros d u u' c c' Hd Ed H. pose proof (Hf d Hd) as Q. rewrite Ed in Q. now apply (face_mirror g fx rc tau Hrm d u u' c c').
Qed.

Theorem rotate_runs k m u0 rest sc u0' rest' sc' adjs :
  b = Periodic -> 0 <= k < dims ->
  (forall d, 0 <= d < dims -> carries tau fx d fx d) -> carries_recon tau rc rc ->
  checks_all dims g nx ny nz ok obeys' ->
  volumes it dims g nx ny nz u0 rest sc -> volumes it dims g nx ny nz u0' rest' sc' ->
  (forall c, interior dims g nx ny nz c -> vget u0' c = tau (vget u0 (rotate_cell g (n k) k m c))) ->
  agree (fun u u' => forall c, interior dims g nx ny nz c -> u' c = tau (u (rotate_cell g (n k) k m c)))
    (serial_run it b dims g fx rc p obeys (u0 :: rest) sc adjs)
    (serial_run it b dims g fx rc p obeys' (u0' :: rest') sc' adjs).
Proof.
  intros Hb Hk Hf Hr Hob' (V1 & V2 & V3) (V4 & V5 & V6) H0.
  pose proof Hfit as (H1 & H2 & H3 & H4 & H5 & H6 & H7). destruct (fits_dir k Hk) as [Nk _].
  apply (symmetric_runs b b dims g fx rc fx rc nx ny nz nx ny nz Hdims tau (rotate_cell g (n k) k m) (fun d => d) (fun d => false)
    tau_add tau_scal) with (ok := ok) (ok' := ok); auto.
  - intros c Hc. now apply (rotate_inside dims g nx ny nz).
  - intros c Hc. now apply (rotate_onto dims g nx ny nz).
  - intros c d s. now apply image_move_inside.
  - intros c d s Hc Hd Hs. unfold sgn. rewrite Z.mul_1_l, Hb. cbn [bc_image]. now apply rotate_move.
  - rewrite map_id. apply Permutation_refl.
  - intros d u u' c c' Hd Ed H.
    now apply (face_carry g fx rc fx rc tau Hr d d u u' c c' Hcomp (Hf d Hd)).
  - discriminate.
Qed.
End Runs.
