(** Lemmas on the kernels of an exchange between GPUs. *)
From Coq Require Import ZArith List Bool Lia.
From Verif Require Import M_Base M_Flux M_Sim M_Mpi M_Omp M_Cuda M_CudaExchange S_Mpi S_Cuda L_Base L_Omp L_Cuda L_CudaBc L_Match L_Moves L_CudaExchange.
Import ListNotations.
Open Scope Z_scope.

Lemma k3' k : 0 <= k < 3 -> k = 0 \/ k = 1 \/ k = 2.
Proof. lia. Qed.
Ltac dirs H := destruct (k3' _ H) as [-> |[-> | ->]].

Lemma insert_start_eq dims g E s k : 0 <= s < 6 -> 0 <= k < 3 ->
  insert_start dims g E s k = if (k =? side_dir s) && negb (side_low s) then E k - ghost dims g k else 0.
Proof. intros H Hk. sides H; dirs Hk; reflexivity. Qed.
Lemma insert_end_eq dims g E s k : 0 <= s < 6 -> 0 <= k < 3 ->
  insert_end dims g E s k = if (k =? side_dir s) && side_low s then ghost dims g k else E k.
Proof. intros H Hk. sides H; dirs Hk; reflexivity. Qed.
Lemma extract_start_eq dims g E s k : 0 <= s < 6 -> 0 <= k < 3 ->
  extract_start dims g E s k = if k =? side_dir s then (if side_low s then ghost dims g k else E k - 2 * ghost dims g k) else 0.
Proof. intros H Hk. sides H; dirs Hk; reflexivity. Qed.
Lemma buffer_eq dims g E s k : 0 <= s < 6 -> 0 <= k < 3 ->
  buffer_extents dims g E s k = if k =? side_dir s then ghost dims g k else E k.
Proof.
  intros H Hk. unfold buffer_extents, vec. sides H; dirs Hk;
  cbn [Z.eqb Pos.eqb Z.ltb Z.compare Pos.compare Pos.compare_cont b2z negb];
  match goal with |- _ = (if ?b then _ else _) => let y := eval vm_compute in b in change b with y end; cbv iota; ring.
Qed.
Lemma side_dir_range dims s : 0 <= s < 2 * dims -> 0 <= side_dir s < dims.
Proof. intros H. unfold side_dir. split; [apply Z.div_pos; lia|apply Z.div_lt_upper_bound; lia]. Qed.
Lemma same_side s s' : 0 <= s < 6 -> 0 <= s' < 6 -> side_dir s = side_dir s' -> side_low s = side_low s' -> s = s'.
Proof. intros H H'. sides H; sides H'; try reflexivity; intros A B; exfalso; (discriminate A || discriminate B). Qed.

Lemma at_place E x y z : at_ E x y z = place E (x, y, z).
Proof. unfold at_, place, index. ring. Qed.
Lemma map_flat_map {B C D} (h : C -> D) (f : B -> list C) l : map h (flat_map f l) = flat_map (fun x => map h (f x)) l.
Proof. induction l; cbn; [reflexivity|]. rewrite map_app. congruence. Qed.
Lemma in_two {B} (x y : B) l : In x l -> In y l -> x <> y ->
  (exists a b c, l = a ++ x :: b ++ y :: c) \/ (exists a b c, l = a ++ y :: b ++ x :: c).
Proof.
  intros Hx Hy Ne. apply in_split in Hx. destruct Hx as (a & b & ->). apply in_app_or in Hy. destruct Hy as [Hy|[Hy|Hy]]; [|congruence|].
  - right. apply in_split in Hy. destruct Hy as (a1 & a2 & ->). exists a1, a2, b. rewrite <- app_assoc. reflexivity.
  - left. apply in_split in Hy. destruct Hy as (b1 & b2 & ->). exists a, b1, b2. reflexivity.
Qed.

Section Kernels.
Context {A : Type}.
Variables (dims g : Z) (E : ivec) (nvars : Z) (nb : Z -> Z) (size : Z -> Z) (m0 : shared A).
Hypothesis Hdims : 1 <= dims <= 3.
Hypothesis Hg : 0 <= g.
Hypothesis HE : forall k, 0 <= k < 3 -> 1 <= E k.
Hypothesis HE2 : forall k, 0 <= k < dims -> 2 * g <= E k.
Hypothesis Hint : E 0 * E 1 * E 2 < 2 ^ 31.
Let B := buffer_extents dims g E.
Hypothesis Hvol : forall v, 0 <= v < nvars -> size (a_volume v) = E 0 * E 1 * E 2.
Hypothesis Hbuf : forall v s, 0 <= v < nvars -> 0 <= s < 2 * dims -> nb s <> -1 -> size (a_buffer v s) = B s 0 * B s 1 * B s 2.

Definition volume_of (s : Z) : Z := B s 0 * B s 1 * B s 2.
Lemma ghost_range k : 0 <= k < 3 -> 0 <= ghost dims g k <= E k /\ 2 * ghost dims g k <= E k /\ (k < dims -> ghost dims g k = g).
Proof.
  intros Hk. unfold ghost. pose proof (HE k Hk). destruct (Z.ltb_spec k dims); [|lia]. pose proof (HE2 k ltac:(lia)). lia.
Qed.
Lemma B_range s k : 0 <= s < 6 -> 0 <= k < 3 -> 0 <= B s k <= E k.
Proof. intros Hs Hk. unfold B. rewrite buffer_eq by assumption. pose proof (ghost_range k Hk). pose proof (HE k Hk). destruct (k =? side_dir s); lia. Qed.
Lemma B_good s : 0 <= s < 6 -> 0 < volume_of s -> good (B s).
Proof.
  intros Hs Hp. pose proof (B_range s 0 Hs ltac:(lia)). pose proof (B_range s 1 Hs ltac:(lia)). pose proof (B_range s 2 Hs ltac:(lia)).
  unfold volume_of in Hp. assert (P : forall x y : Z, 0 <= x -> 0 <= y -> 0 < x * y -> 0 < x /\ 0 < y) by (intros; nia).
  destruct (P (B s 0 * B s 1) (B s 2)) as (P1 & P2); [nia|lia|exact Hp|]. destruct (P (B s 0) (B s 1)) as (P3 & P4); [lia|lia|exact P1|].
  split; [exact P3|]. split; [exact P4|]. split; [exact P2|].
  assert (B s 0 * B s 1 <= E 0 * E 1) by (apply Z.mul_le_mono_nonneg; lia).
  assert (B s 0 * B s 1 * B s 2 <= E 0 * E 1 * E 2) by (apply Z.mul_le_mono_nonneg; lia). lia.
Qed.

(** The threads: side, variable, number. *)
Definition thread_count (s : Z) : Z := if volume_of s <=? 0 then 0 else threads 512 (volume_of s).
Definition threads_of : list (Z * Z * Z) :=
  flat_map (fun s => if cuda_has_side nb s then
    flat_map (fun v => map (fun i => (s, v, i)) (zrange 0 (thread_count s))) (zrange 0 nvars) else []) (zrange 0 (2 * dims)).
Definition cell_of (n : ivec) (i : Z) : cell := (i mod n 0, (i / n 0) mod n 1, i / (n 0 * n 1)).
Lemma threads_In s v i : In (s, v, i) threads_of <->
  0 <= s < 2 * dims /\ nb s <> -1 /\ 0 <= v < nvars /\ 0 <= i < thread_count s.
Proof.
  unfold threads_of. rewrite in_flat_map. unfold cuda_has_side. split.
  - intros (s0 & Hs & H). apply zrange_In in Hs. destruct (Z.eqb_spec (nb s0) (-1)); cbn [negb] in H; [destruct H|].
    apply in_flat_map in H. destruct H as (v0 & Hv & H). apply zrange_In in Hv. apply in_map_iff in H. destruct H as (i0 & Eq & Hi).
    apply zrange_In in Hi. injection Eq as -> -> ->. auto.
  - intros (Hs & Hn & Hv & Hi). exists s. split; [now apply zrange_In|]. destruct (Z.eqb_spec (nb s) (-1)); [contradiction|]. cbn [negb].
    apply in_flat_map. exists v. split; [now apply zrange_In|]. apply in_map. now apply zrange_In.
Qed.
Lemma threads_NoDup : NoDup threads_of.
Proof.
  unfold threads_of. apply NoDup_flat_map.
  - apply zrange_NoDup.
  - intros s _. destruct (cuda_has_side nb s); [|constructor]. apply NoDup_flat_map.
    + apply zrange_NoDup.
    + intros v _. apply FinFun.Injective_map_NoDup; [intros i j Eq; congruence|apply zrange_NoDup].
    + intros v v' t _ _ H H'. apply in_map_iff in H, H'. destruct H as (? & <- & _), H' as (? & ? & _). congruence.
  - intros s s' t _ _ H H'. destruct (cuda_has_side nb s); [|destruct H]. destruct (cuda_has_side nb s'); [|destruct H'].
    apply in_flat_map in H, H'. destruct H as (? & _ & H), H' as (? & _ & H'). apply in_map_iff in H, H'.
    destruct H as (? & <- & _), H' as (? & ? & _). congruence.
Qed.

Variable mk : Z -> Z -> cell -> move.
Definition move_at (t : Z * Z * Z) : option move :=
  let '(s, v, i) := t in if i <? volume_of s then Some (mk s v (cell_of (B s) i)) else None.

Lemma launches_moves (first last : Z -> ivec) (body : Z -> Z -> Z -> Z -> Z -> prog A unit) :
  (forall s k, 0 <= s < 6 -> 0 <= k < 3 -> minus3 (last s) (first s) k = B s k) ->
  (forall s v x y z, body s v x y z = moving (Some (mk s v (x, y, z)))) ->
  flat_map (fun s => if cuda_has_side nb s then
    flat_map (fun v => side_launch (first s) (last s) (body s v)) (zrange 0 nvars) else []) (zrange 0 (2 * dims)) =
  map moving (map move_at threads_of).
Proof.
  intros Hn Hb. unfold threads_of. rewrite map_map, map_flat_map. apply flat_map_ext_in. intros s Hs. apply zrange_In in Hs.
  destruct (cuda_has_side nb s); [|reflexivity]. rewrite map_flat_map. apply flat_map_ext_in. intros v Hv. rewrite map_map.
  unfold side_launch, thread_count. rewrite !Hn by lia. fold (volume_of s). destruct (Z.leb_spec (volume_of s) 0) as [L|L]; [reflexivity|].
  pose proof (B_good s ltac:(lia) L) as G.
  assert (Gn : good (minus3 (last s) (first s))) by (unfold good; rewrite !Hn by lia; exact G).
  rewrite kernel_good by exact Gn. rewrite !Hn by lia. fold (volume_of s). apply map_ext_in. intros i Hi. apply zrange_In in Hi.
  unfold move_at. destruct (Z.ltb_spec i (volume_of s)) as [Li|Li].
  - destruct (thread_coords (B s) i G ltac:(lia)) as (Hx & Hy & Hz & Ei & Hzz). unfold thread. rewrite !Hn by lia.
    apply Hzz in Li. unfold cell_of.
    rewrite (proj2 (Z.leb_gt _ _)) by lia. rewrite (proj2 (Z.leb_gt _ _)) by lia. rewrite (proj2 (Z.leb_gt _ _)) by lia. cbn [orb].
    rewrite Hb, !Z.add_0_r. reflexivity.
  - rewrite thread_out; [reflexivity|exact Gn|]. rewrite !Hn by lia. exact Li.
Qed.

Lemma cell_of_place n c : good n -> incell n c -> cell_of n (place n c) = c /\ 0 <= place n c < n 0 * n 1 * n 2.
Proof.
  destruct c as [[x y] z]. intros (H0 & H1 & H2 & _) Hc. split; [|now apply place_inside].
  destruct Hc as (Hx & Hy & Hz). unfold cell_of, place.
  replace (z * (n 0 * n 1) + y * n 0 + x) with (x + (y + z * n 1) * n 0) by ring.
  rewrite Z.mod_add, Z.mod_small by lia. rewrite <- Z.div_div by lia. rewrite Z.div_add, Z.div_small, Z.add_0_l by lia.
  rewrite Z.mod_add, Z.mod_small by lia. rewrite Z.div_add, Z.div_small, Z.add_0_l by lia. reflexivity.
Qed.
Lemma place_cell_of n i : good n -> 0 <= i < n 0 * n 1 * n 2 -> incell n (cell_of n i) /\ place n (cell_of n i) = i.
Proof.
  intros G Hi. destruct (thread_coords n i G ltac:(lia)) as (Hx & Hy & Hz & Ei & Hzz). unfold cell_of, incell, place.
  split; [intuition|]. rewrite Ei at 4. ring.
Qed.

Lemma moves_In mv : In (Some mv) (map move_at threads_of) <->
  exists s v c, 0 <= s < 2 * dims /\ nb s <> -1 /\ 0 <= v < nvars /\ incell (B s) c /\ mv = mk s v c.
Proof.
  rewrite in_map_iff. split.
  - intros ([[s v] i] & Eq & H). apply threads_In in H. destruct H as (Hs & Hn & Hv & Hi). cbn in Eq.
    destruct (Z.ltb_spec i (volume_of s)) as [L|]; [|discriminate]. injection Eq as <-.
    assert (0 < volume_of s) as Hp by lia. pose proof (B_good s ltac:(lia) Hp) as G.
    exists s, v, (cell_of (B s) i). repeat (split; [assumption|]). split; [|reflexivity]. now apply place_cell_of.
  - intros (s & v & c & Hs & Hn & Hv & Hc & ->).
    assert (0 < volume_of s) as Hp by (pose proof (place_inside _ _ Hc); unfold volume_of; lia).
    pose proof (B_good s ltac:(lia) Hp) as G. destruct (cell_of_place (B s) c G Hc) as (E1 & E2). fold (volume_of s) in E2.
    exists (s, v, place (B s) c). split.
    + cbn. rewrite (proj2 (Z.ltb_lt _ _)) by lia. now rewrite E1.
    + apply threads_In. repeat (split; [assumption|]). unfold thread_count. rewrite (proj2 (Z.leb_gt _ _)) by lia.
      pose proof (threads_ge 512 (volume_of s) ltac:(lia) ltac:(lia)). lia.
Qed.

Lemma moves_distinct :
  (forall s v c s' v' c', 0 <= s < 2 * dims -> nb s <> -1 -> 0 <= v < nvars -> incell (B s) c ->
     0 <= s' < 2 * dims -> nb s' <> -1 -> 0 <= v' < nvars -> incell (B s') c' -> m_to (mk s v c) = m_to (mk s' v' c') -> s = s' /\ v = v' /\ c = c') ->
  forall l mv d mv' r, map move_at threads_of = l ++ Some mv :: d ++ Some mv' :: r -> m_to mv <> m_to mv'.
Proof.
  intros Hi l mv d mv' r Eq Et. apply map_eq_app in Eq. destruct Eq as (t1 & t2 & Et12 & <- & Eq).
  destruct t2 as [|t t2]; [discriminate|]. cbn [map] in Eq. injection Eq as Em Eq. apply map_eq_app in Eq. destruct Eq as (t3 & t4 & -> & <- & Eq).
  destruct t4 as [|t' t4]; [discriminate|]. cbn [map] in Eq. injection Eq as Em' _.
  pose proof threads_NoDup as ND. rewrite Et12 in ND. apply NoDup_remove_2 in ND. apply ND. apply in_or_app. right. apply in_or_app. right. left.
  assert (In t threads_of) as H by (rewrite Et12; apply in_or_app; right; left; reflexivity).
  assert (In t' threads_of) as H' by (rewrite Et12; apply in_or_app; right; right; apply in_or_app; right; left; reflexivity).
  destruct t as [[s v] i], t' as [[s' v'] i']. apply threads_In in H, H'. destruct H as (Hs & Hn & Hv & Hti), H' as (Hs' & Hn' & Hv' & Hti').
  cbn in Em, Em'. destruct (Z.ltb_spec i (volume_of s)) as [L|]; [|discriminate]. destruct (Z.ltb_spec i' (volume_of s')) as [L'|]; [|discriminate].
  injection Em as <-. injection Em' as <-.
  assert (0 < volume_of s) as Hp by lia. pose proof (B_good s ltac:(lia) Hp) as G. destruct (place_cell_of (B s) i G ltac:(fold (volume_of s); lia)) as (C1 & C2).
  assert (0 < volume_of s') as Hp' by lia. pose proof (B_good s' ltac:(lia) Hp') as G'. destruct (place_cell_of (B s') i' G' ltac:(fold (volume_of s'); lia)) as (C1' & C2').
  destruct (Hi _ _ _ _ _ _ Hs Hn Hv C1 Hs' Hn' Hv' C1' Et) as (-> & -> & Ec). rewrite <- C2, <- C2', Ec. reflexivity.
Qed.
End Kernels.
