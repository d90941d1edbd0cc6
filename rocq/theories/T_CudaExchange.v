(** C75: exchanges between GPUs. *)
From Coq Require Import ZArith List Bool Lia.
From Verif Require Import M_Base M_Flux M_Sim M_Mpi M_Omp M_Cuda M_CudaExchange S_Mpi S_Cuda S_CudaExchange
  L_Base L_Omp L_Cuda L_CudaBc L_Decomp L_Exchange L_Match L_Moves L_CudaExchange L_CudaExchange2 T_Mpi.
Import ListNotations.
Open Scope Z_scope.

(** * Where the ghost cells of a face come from *)
Section Geometry.
Variables (dims g : Z) (n : cell) (E : ivec) (nb : Z -> Z).
Hypothesis Hdims : 1 <= dims <= 3.
Hypothesis Hg : 0 <= g.
Hypothesis Hn : forall k, 0 <= k < 3 -> 1 <= at3 n k.
Hypothesis HE : forall k, 0 <= k < 3 -> E k = if k <? dims then at3 n k + 2 * g else at3 n k.

Lemma in_slab s c : 0 <= s < 2 * dims -> within (insert_start dims g E s) (insert_end dims g E s) c = true <->
  forall k, 0 <= k < 3 ->
    if k =? side_dir s then (if side_low s then 0 <= at3 c k < g else g + at3 n k <= at3 c k < g + at3 n k + g)
    else 0 <= at3 c k < E k.
Proof.
  intros Hs. pose proof (side_dir_range dims s Hs) as Hd. destruct c as [[x y] z]. rewrite within_iff.
  rewrite !insert_start_eq, !insert_end_eq by lia.
  assert (D : side_dir s = 0 \/ side_dir s = 1 \/ side_dir s = 2) by lia.
  assert (G : ghost dims g (side_dir s) = g) by (unfold ghost; rewrite (proj2 (Z.ltb_lt _ _)) by lia; reflexivity).
  assert (Ed : E (side_dir s) = at3 n (side_dir s) + 2 * g) by (rewrite HE by lia; rewrite (proj2 (Z.ltb_lt _ _)) by lia; reflexivity).
  split.
  - intros (Hx & Hy & Hz) k Hk. destruct D as [D|[D|D]]; rewrite D in *; dirs Hk; destruct (side_low s);
    cbn [Z.eqb Pos.eqb andb negb at3] in *; lia.
  - intros H. pose proof (H 0 ltac:(lia)) as H0. pose proof (H 1 ltac:(lia)) as H1. pose proof (H 2 ltac:(lia)) as H2. clear H.
    destruct D as [D|[D|D]]; rewrite D in *; destruct (side_low s); cbn [Z.eqb Pos.eqb andb negb at3] in *; lia.
Qed.

Lemma inner_uncovered s c : inner dims g n c -> covers dims g E nb s c = false.
Proof.
  intros Hc. destruct (covers dims g E nb s c) eqn:C; [|reflexivity]. exfalso. unfold covers in C.
  apply andb_true_iff in C. destruct C as [C W]. apply andb_true_iff in C. destruct C as [C _]. apply andb_true_iff in C.
  rewrite Z.leb_le, Z.ltb_lt in C. pose proof (side_dir_range dims s C) as Hd. apply (in_slab s c C) with (k := side_dir s) in W; [|lia].
  rewrite Z.eqb_refl in W. specialize (Hc (side_dir s) ltac:(lia)). rewrite (proj2 (Z.ltb_lt _ _)) in Hc by lia.
  destruct (side_low s); lia.
Qed.
Lemma face_covered s s' c : face_ghost dims g n s c -> covers dims g E nb s' c = (s' =? s) && negb (nb s =? -1).
Proof.
  intros (Hs & Hf & Ho). pose proof (side_dir_range dims s Hs) as Hd.
  apply eq_true_iff_eq. unfold covers, cuda_has_side. rewrite !andb_true_iff, !negb_true_iff, Z.leb_le, Z.ltb_lt, !Z.eqb_neq, Z.eqb_eq.
  split.
  - intros ((C & Hb) & W). pose proof (side_dir_range dims s' C) as Hd'. pose proof (proj1 (in_slab s' c C) W) as W'.
    specialize (W' (side_dir s') ltac:(lia)). rewrite Z.eqb_refl in W'.
    assert (s' = s); [|subst; auto]. destruct (Z.eq_dec (side_dir s') (side_dir s)) as [D|D].
    + apply same_side; try lia. rewrite D in W'. pose proof (Hn (side_dir s) ltac:(lia)). destruct (side_low s), (side_low s'); try reflexivity; lia.
    + exfalso. specialize (Ho (side_dir s') ltac:(lia) D). rewrite (proj2 (Z.ltb_lt _ _)) in Ho by lia. destruct (side_low s'); lia.
  - intros (-> & Hb). split; [split; [exact Hs|exact Hb]|]. apply (in_slab s c Hs). intros k Hk.
    destruct (Z.eqb_spec k (side_dir s)) as [->|D]; [destruct (side_low s); lia|].
    specialize (Ho k Hk D). rewrite HE by lia. destruct (k <? dims); lia.
Qed.
Lemma winner_none last c : (forall s, covers dims g E nb s c = false) -> winner dims g E nb last c = None.
Proof.
  intros H. unfold winner. rewrite H. destruct (find _ _) as [s|] eqn:F; [|reflexivity]. apply find_some in F. destruct F as [_ F].
  rewrite H in F. discriminate.
Qed.
Lemma winner_one last c s : (forall s', covers dims g E nb s' c = (s' =? s)) -> winner dims g E nb last c = Some s.
Proof.
  intros H. unfold winner. rewrite H. destruct (Z.eqb_spec last s) as [->|]; [reflexivity|].
  destruct (find _ _) as [s'|] eqn:F.
  - apply find_some in F. destruct F as [_ F]. rewrite H in F. apply Z.eqb_eq in F. congruence.
  - exfalso. assert (Hc : covers dims g E nb s c = true) by (rewrite H; apply Z.eqb_refl).
    apply find_none with (x := s) in F; [congruence|]. apply in_rev. rewrite rev_involutive. apply zrange_In.
    unfold covers in Hc. rewrite !andb_true_iff, Z.leb_le, Z.ltb_lt in Hc. intuition.
Qed.
Lemma from_other s c : face_ghost dims g n s c ->
  within (fun _ => 0) (buffer_extents dims g E s) (unshift c (insert_start dims g E s)) = true /\
  shift (unshift c (insert_start dims g E s)) (extract_start dims g E (opposite_side s)) = opposite_cell n s c.
Proof.
  intros (Hs & Hf & Ho). pose proof (side_dir_range dims s Hs) as Hd. destruct c as [[x y] z].
  destruct (across_eq s ltac:(lia)) as (Ea & Ra & Da & La & _).
  assert (D : side_dir s = 0 \/ side_dir s = 1 \/ side_dir s = 2) by lia.
  assert (G : ghost dims g (side_dir s) = g) by (unfold ghost; rewrite (proj2 (Z.ltb_lt _ _)) by lia; reflexivity).
  assert (Ed : E (side_dir s) = at3 n (side_dir s) + 2 * g) by (rewrite HE by lia; rewrite (proj2 (Z.ltb_lt _ _)) by lia; reflexivity).
  assert (Ho' : forall k, 0 <= k < 3 -> k <> side_dir s -> 0 <= at3 (x, y, z) k < E k).
  { intros k Hk Nk. specialize (Ho k Hk Nk). rewrite HE by lia. destruct (k <? dims); lia. }
  unfold unshift, shift, opposite_cell. rewrite within_iff, Ea. rewrite !insert_start_eq, !extract_start_eq, !buffer_eq by lia. rewrite Da, La.
  pose proof (Ho' 0 ltac:(lia)) as O0. pose proof (Ho' 1 ltac:(lia)) as O1. pose proof (Ho' 2 ltac:(lia)) as O2.
  destruct D as [D|[D|D]]; rewrite D in *; destruct (side_low s); cbn [Z.eqb Pos.eqb andb negb at3 set3] in *;
    (split; [lia|]); (apply (f_equal2 pair); [apply (f_equal2 pair)|]); lia.
Qed.
End Geometry.

(** * The kernels *)

(** The areas of a device. *)
Definition areas (dims g : Z) (E : ivec) (nvars : Z) (nb : Z -> Z) (size : Z -> Z) : Prop :=
  (forall v, 0 <= v < nvars -> size (a_volume v) = E 0 * E 1 * E 2) /\
  forall v s, 0 <= v < nvars -> 0 <= s < 2 * dims -> nb s <> -1 ->
    size (a_buffer v s) = buffer_extents dims g E s 0 * buffer_extents dims g E s 1 * buffer_extents dims g E s 2.
Definition room (dims g : Z) (E : ivec) : Prop :=
  1 <= dims <= 3 /\ 0 <= g /\ (forall k, 0 <= k < 3 -> 1 <= E k) /\ (forall k, 0 <= k < dims -> 2 * g <= E k) /\
  E 0 * E 1 * E 2 < 2 ^ 31.

Lemma area_buffer v s v' s' : 0 <= s < 6 -> 0 <= s' < 6 -> a_buffer v s = a_buffer v' s' -> v = v' /\ s = s'.
Proof. unfold a_buffer. lia. Qed.
Lemma area_volume v v' : a_volume v = a_volume v' -> v = v'.
Proof. unfold a_volume. lia. Qed.
Lemma area_other v v' s : 0 <= s < 6 -> a_volume v <> a_buffer v' s.
Proof. unfold a_volume, a_buffer. lia. Qed.

Lemma shift_in dims g E s c : room dims g E -> 0 <= s < 2 * dims -> incell (buffer_extents dims g E s) c ->
  incell E (shift c (extract_start dims g E s)) /\ incell E (shift c (insert_start dims g E s)) /\
  within (insert_start dims g E s) (insert_end dims g E s) (shift c (insert_start dims g E s)) = true.
Proof.
  intros (Hd & Hg & H1 & H2 & _) Hs. destruct c as [[x y] z]. unfold incell, shift. rewrite within_iff.
  rewrite !buffer_eq, !extract_start_eq, !insert_start_eq, !insert_end_eq by lia.
  pose proof (ghost_range dims g E Hg H1 H2 0 ltac:(lia)). pose proof (ghost_range dims g E Hg H1 H2 1 ltac:(lia)). pose proof (ghost_range dims g E Hg H1 H2 2 ltac:(lia)).
  pose proof (side_dir_range dims s Hs) as Hr. assert (D : side_dir s = 0 \/ side_dir s = 1 \/ side_dir s = 2) by lia.
  destruct D as [D|[D|D]]; rewrite D in *; destruct (side_low s); cbn [Z.eqb Pos.eqb andb negb]; lia.
Qed.
Lemma unshift_in dims g E s c : 0 <= s < 2 * dims -> dims <= 3 -> within (insert_start dims g E s) (insert_end dims g E s) c = true ->
  incell (buffer_extents dims g E s) (unshift c (insert_start dims g E s)) /\ shift (unshift c (insert_start dims g E s)) (insert_start dims g E s) = c.
Proof.
  intros Hs Hd. destruct c as [[x y] z]. rewrite within_iff. unfold incell, unshift, shift.
  rewrite <- (buffer_insert dims g E s 0), <- (buffer_insert dims g E s 1), <- (buffer_insert dims g E s 2) by lia. unfold minus3.
  intros H. split; [lia|]. apply (f_equal2 pair); [apply (f_equal2 pair)|]; ring.
Qed.
Lemma unshift_shift c d : unshift (shift c d) d = c.
Proof. destruct c as [[x y] z]. unfold shift, unshift. apply (f_equal2 pair); [apply (f_equal2 pair)|]; ring. Qed.

Lemma incell_inside size (a : Z) E c : size a = E 0 * E 1 * E 2 -> incell E c -> inside size a (place E c) = true.
Proof. intros Hs Hc. pose proof (place_inside E c Hc). unfold inside. rewrite Hs. apply andb_true_iff. rewrite Z.leb_le, Z.ltb_lt. lia. Qed.

(** The extraction: free of races, and the buffers hold what [extracted] says. *)
Theorem C75_extract :
  forall A dims g E nvars nb size (m : shared A),
  room dims g E -> areas dims g E nvars nb size ->
  (exists m', outcome size (extract_launches dims g E nvars nb) m (Ok (m', []))) /\
  forall r, outcome size (extract_launches dims g E nvars nb) m r -> exists m', r = Ok (m', []) /\
    (forall v s c, 0 <= v < nvars -> 0 <= s < 2 * dims -> nb s <> -1 -> incell (buffer_extents dims g E s) c ->
       m' (a_buffer v s) (place (buffer_extents dims g E s) c) = extracted dims g E s (fun d => m (a_volume v) (place E d)) c) /\
    forall v i, m' (a_volume v) i = m (a_volume v) i.
Proof.
  intros A dims g E nvars nb size m Hroom (Av & Ab). pose proof Hroom as (Hd & Hg & H1 & H2 & H3).
  set (mk := fun s v c => mkmove (a_volume v, place E (shift c (extract_start dims g E s))) (a_buffer v s, place (buffer_extents dims g E s) c)).
  assert (Eq : extract_launches (A := A) dims g E nvars nb = map moving (map (move_at dims g E mk) (threads_of dims g E nvars nb))).
  { unfold extract_launches. apply (launches_moves (A := A) dims g E nvars nb Hd Hg H1 H2 H3 mk (extract_start dims g E) (extract_end dims g E)
      (fun s v => extract_body dims g E v s)).
    - intros s k Hs Hk. apply buffer_extract; assumption.
    - intros s v x y z. unfold extract_body, moving, mk, shift. cbv zeta. rewrite !at_place. reflexivity. }
  rewrite Eq. set (ms := map _ (threads_of _ _ _ _ _)).
  assert (MI : forall mv, In (Some mv) ms <-> exists s v c, 0 <= s < 2 * dims /\ nb s <> -1 /\ 0 <= v < nvars /\ incell (buffer_extents dims g E s) c /\ mv = mk s v c)
    by (intros mv; apply moves_In; assumption).
  assert (Hsep : forall mv mv', In (Some mv) ms -> In (Some mv') ms -> m_from mv <> m_to mv').
  { intros mv mv' Hm Hm'. apply MI in Hm, Hm'. destruct Hm as (s & v & c & Hs & _ & _ & _ & ->), Hm' as (s' & v' & c' & Hs' & _ & _ & _ & ->).
    cbn. intros K. injection K as K _. revert K. apply area_other. lia. }
  assert (Hin : forall mv, In (Some mv) ms -> inside size (fst (m_from mv)) (snd (m_from mv)) = true /\ inside size (fst (m_to mv)) (snd (m_to mv)) = true).
  { intros mv Hm. apply MI in Hm. destruct Hm as (s & v & c & Hs & Hn & Hv & Hc & ->). cbn [m_from m_to mk fst snd].
    split; [apply incell_inside; [now apply Av|apply (shift_in dims g E s c Hroom Hs Hc)]|]. apply incell_inside; [now apply Ab|exact Hc]. }
  assert (Inj : forall s v c s' v' c', 0 <= s < 2 * dims -> nb s <> -1 -> 0 <= v < nvars -> incell (buffer_extents dims g E s) c ->
     0 <= s' < 2 * dims -> nb s' <> -1 -> 0 <= v' < nvars -> incell (buffer_extents dims g E s') c' -> m_to (mk s v c) = m_to (mk s' v' c') -> s = s' /\ v = v' /\ c = c').
  { intros s v c s' v' c' Hs _ _ Hc Hs' _ _ Hc' K. cbn in K. injection K as K1 K2. apply area_buffer in K1; [|lia|lia]. destruct K1 as (-> & ->).
    split; [reflexivity|]. split; [reflexivity|]. eapply place_inj; eauto. }
  split; [now apply moves_finish|]. intros r Hr.
  destruct r as [[m' xs]| |].
  - destruct (moves_finished size m ms Hsep m' xs Hr) as (-> & Arr & Oth). exists m'. split; [reflexivity|]. split.
    + intros v s c Hv Hs Hn Hc. assert (K : In (Some (mk s v c)) ms) by (apply MI; exists s, v, c; auto).
      destruct (Arr _ K) as (mv & Hm & Et & Ev). apply MI in Hm. destruct Hm as (s' & v' & c' & Hs' & Hn' & Hv' & Hc' & ->).
      apply Inj in Et; auto. destruct Et as (-> & -> & ->). exact Ev.
    + intros v i. apply Oth. intros mv Hm. apply MI in Hm. destruct Hm as (s & v' & c & Hs & _ & _ & _ & ->). cbn. intros K. injection K as K _.
      symmetry in K. revert K. apply area_other. lia.
  - exfalso. revert Hr. apply moves_safe; auto. apply moves_distinct; assumption.
  - inversion Hr.
Qed.

(** Every finished insertion stores what [inserted] says, for some order of the
    sides; there is one. *)
Theorem C75_insert :
  forall A dims g E nvars nb size (m : shared A),
  room dims g E -> areas dims g E nvars nb size ->
  (exists m', outcome size (insert_launches dims g E nvars nb) m (Ok (m', []))) /\
  forall m' xs, outcome size (insert_launches dims g E nvars nb) m (Ok (m', xs)) ->
    forall v c, 0 <= v < nvars -> incell E c -> exists last,
      m' (a_volume v) (place E c) =
      inserted dims g E nb last (fun s d => m (a_buffer v s) (place (buffer_extents dims g E s) d)) (fun d => m (a_volume v) (place E d)) c.
Proof.
  intros A dims g E nvars nb size m Hroom (Av & Ab). pose proof Hroom as (Hd & Hg & H1 & H2 & H3).
  set (mk := fun s v c => mkmove (a_buffer v s, place (buffer_extents dims g E s) c) (a_volume v, place E (shift c (insert_start dims g E s)))).
  assert (Eq : insert_launches (A := A) dims g E nvars nb = map moving (map (move_at dims g E mk) (threads_of dims g E nvars nb))).
  { unfold insert_launches. apply (launches_moves (A := A) dims g E nvars nb Hd Hg H1 H2 H3 mk (insert_start dims g E) (insert_end dims g E)
      (fun s v => insert_body dims g E v s)).
    - intros s k Hs Hk. apply buffer_insert; assumption.
    - intros s v x y z. unfold insert_body, moving, mk, shift. cbv zeta. rewrite !at_place. reflexivity. }
  rewrite Eq. set (ms := map _ (threads_of _ _ _ _ _)).
  assert (MI : forall mv, In (Some mv) ms <-> exists s v c, 0 <= s < 2 * dims /\ nb s <> -1 /\ 0 <= v < nvars /\ incell (buffer_extents dims g E s) c /\ mv = mk s v c)
    by (intros mv; apply moves_In; assumption).
  assert (Hsep : forall mv mv', In (Some mv) ms -> In (Some mv') ms -> m_from mv <> m_to mv').
  { intros mv mv' Hm Hm'. apply MI in Hm, Hm'. destruct Hm as (s & v & c & Hs & _ & _ & _ & ->), Hm' as (s' & v' & c' & Hs' & _ & _ & _ & ->).
    cbn. intros K. injection K as K _. symmetry in K. revert K. apply area_other. lia. }
  assert (Hin : forall mv, In (Some mv) ms -> inside size (fst (m_from mv)) (snd (m_from mv)) = true /\ inside size (fst (m_to mv)) (snd (m_to mv)) = true).
  { intros mv Hm. apply MI in Hm. destruct Hm as (s & v & c & Hs & Hn & Hv & Hc & ->). cbn [m_from m_to mk fst snd].
    split; [apply incell_inside; [now apply Ab|exact Hc]|]. apply incell_inside; [now apply Av|apply (shift_in dims g E s c Hroom Hs Hc)]. }
  split; [now apply moves_finish|]. intros m' xs Hr v c Hv Hc.
  destruct (moves_finished size m ms Hsep m' xs Hr) as (_ & Arr & Oth).
  destruct (find (fun s => covers dims g E nb s c) (rev (zrange 0 (2 * dims)))) as [s|] eqn:F.
  - apply find_some in F. destruct F as [_ F]. unfold covers, cuda_has_side in F. rewrite !andb_true_iff, negb_true_iff, Z.leb_le, Z.ltb_lt, Z.eqb_neq in F.
    destruct F as ((Hs & Hn) & W). destruct (unshift_in dims g E s c Hs ltac:(lia) W) as (Hu & Su).
    assert (K : In (Some (mk s v (unshift c (insert_start dims g E s)))) ms) by (apply MI; do 3 eexists; eauto 6).
    destruct (Arr _ K) as (mv & Hm & Et & Ev). apply MI in Hm. destruct Hm as (s' & v' & c' & Hs' & Hn' & Hv' & Hc' & ->).
    cbn [m_to mk fst snd] in Et, Ev. rewrite Su in *. injection Et as Et1 Et2. apply area_volume in Et1. subst v'.
    destruct (shift_in dims g E s' c' Hroom Hs' Hc') as (_ & I' & W'). apply place_inj in Et2; [|exact I'|exact Hc].
    exists (fun _ => s'). unfold inserted, winner.
    assert (Cv : covers dims g E nb s' c = true).
    { unfold covers, cuda_has_side. rewrite !andb_true_iff, negb_true_iff, Z.leb_le, Z.ltb_lt, Z.eqb_neq. rewrite <- Et2. auto. }
    rewrite Cv. rewrite Ev. unfold at0. cbn [m_from mk fst snd]. rewrite <- Et2, unshift_shift. reflexivity.
  - exists (fun _ => -1). assert (N : forall s, covers dims g E nb s c = false).
    { intros s. destruct (covers dims g E nb s c) eqn:Cv; [|reflexivity]. exfalso. apply find_none with (x := s) in F; [congruence|].
      apply in_rev. rewrite rev_involutive. apply zrange_In. unfold covers in Cv. rewrite !andb_true_iff, Z.leb_le, Z.ltb_lt in Cv. intuition. }
    unfold inserted. rewrite winner_none by exact N. apply Oth. intros mv Hm. apply MI in Hm.
    destruct Hm as (s & v' & d & Hs & Hn & Hv' & Hd' & ->). cbn. intros K. injection K as K1 K2. apply area_volume in K1. subst v'.
    destruct (shift_in dims g E s d Hroom Hs Hd') as (_ & I' & W'). apply place_inj in K2; [|exact I'|exact Hc].
    specialize (N s). unfold covers, cuda_has_side in N. rewrite <- K2, W', andb_true_r in N.
    apply andb_false_iff in N. rewrite andb_false_iff, Z.leb_gt, Z.ltb_ge, negb_false_iff, Z.eqb_eq in N. intuition lia.
Qed.

(** The insertions race exactly if the process has neighbours in two directions: in
    the ghost cells at the edges. *)
Theorem C75_insert_race :
  forall A dims g E nvars nb size (m : shared A),
  room dims g E -> areas dims g E nvars nb size -> 1 <= g -> 1 <= nvars ->
  (outcome size (insert_launches dims g E nvars nb) m UB <->
   exists s s', 0 <= s < 2 * dims /\ 0 <= s' < 2 * dims /\ nb s <> -1 /\ nb s' <> -1 /\ side_dir s <> side_dir s').
Proof.
  intros A dims g E nvars nb size m Hroom (Av & Ab) Hg1 Hvars. pose proof Hroom as (Hd & Hg & H1 & H2 & H3).
  set (mk := fun s v c => mkmove (a_buffer v s, place (buffer_extents dims g E s) c) (a_volume v, place E (shift c (insert_start dims g E s)))).
  assert (Eq : insert_launches (A := A) dims g E nvars nb = map moving (map (move_at dims g E mk) (threads_of dims g E nvars nb))).
  { unfold insert_launches. apply (launches_moves (A := A) dims g E nvars nb Hd Hg H1 H2 H3 mk (insert_start dims g E) (insert_end dims g E)
      (fun s v => insert_body dims g E v s)).
    - intros s k Hs Hk. apply buffer_insert; assumption.
    - intros s v x y z. unfold insert_body, moving, mk, shift. cbv zeta. rewrite !at_place. reflexivity. }
  rewrite Eq. set (ms := map _ (threads_of _ _ _ _ _)).
  assert (MI : forall mv, In (Some mv) ms <-> exists s v c, 0 <= s < 2 * dims /\ nb s <> -1 /\ 0 <= v < nvars /\ incell (buffer_extents dims g E s) c /\ mv = mk s v c)
    by (intros mv; apply moves_In; assumption).
  assert (Hsep : forall mv mv', In (Some mv) ms -> In (Some mv') ms -> m_from mv <> m_to mv').
  { intros mv mv' Hm Hm'. apply MI in Hm, Hm'. destruct Hm as (s & v & c & Hs & _ & _ & _ & ->), Hm' as (s' & v' & c' & Hs' & _ & _ & _ & ->).
    cbn. intros K. injection K as K _. symmetry in K. revert K. apply area_other. lia. }
  assert (Hin : forall mv, In (Some mv) ms -> inside size (fst (m_from mv)) (snd (m_from mv)) = true /\ inside size (fst (m_to mv)) (snd (m_to mv)) = true).
  { intros mv Hm. apply MI in Hm. destruct Hm as (s & v & c & Hs & Hn & Hv & Hc & ->). cbn [m_from m_to mk fst snd].
    split; [apply incell_inside; [now apply Ab|exact Hc]|]. apply incell_inside; [now apply Av|apply (shift_in dims g E s c Hroom Hs Hc)]. }
  split.
  - intros Hub. assert (Dec : (exists s s', 0 <= s < 2 * dims /\ 0 <= s' < 2 * dims /\ nb s <> -1 /\ nb s' <> -1 /\ side_dir s <> side_dir s') \/
      (forall s s', 0 <= s < 2 * dims -> 0 <= s' < 2 * dims -> nb s <> -1 -> nb s' <> -1 -> side_dir s = side_dir s')).
    { set (bad := fun s s' => negb (nb s =? -1) && negb (nb s' =? -1) && negb (side_dir s =? side_dir s')).
      destruct (existsb (fun s => existsb (bad s) (zrange 0 (2 * dims))) (zrange 0 (2 * dims))) eqn:X.
      - left. apply existsb_exists in X. destruct X as (s & Hs & X). apply existsb_exists in X. destruct X as (s' & Hs' & X). apply zrange_In in Hs, Hs'.
        unfold bad in X. rewrite !andb_true_iff, !negb_true_iff, !Z.eqb_neq in X. exists s, s'. tauto.
      - right. intros s s' Hs Hs' Hn Hn'. destruct (Z.eq_dec (side_dir s) (side_dir s')) as [D|D]; [exact D|]. exfalso.
        assert (Y : existsb (fun s => existsb (bad s) (zrange 0 (2 * dims))) (zrange 0 (2 * dims)) = true); [|congruence].
        apply existsb_exists. exists s. split; [now apply zrange_In|]. apply existsb_exists. exists s'. split; [now apply zrange_In|].
        unfold bad. rewrite !andb_true_iff, !negb_true_iff, !Z.eqb_neq. tauto. }
    destruct Dec as [|Dec]; [assumption|]. exfalso. revert Hub. apply moves_safe; auto. apply moves_distinct; auto.
    intros s v c s' v' c' Hs Hn Hv Hc Hs' Hn' Hv' Hc' K. cbn in K. injection K as K1 K2. apply area_volume in K1. subst v'.
    destruct (shift_in dims g E s c Hroom Hs Hc) as (_ & I1 & W1). destruct (shift_in dims g E s' c' Hroom Hs' Hc') as (_ & I2 & W2).
    apply place_inj in K2; auto. rewrite <- K2 in W2. pose proof (Dec s s' Hs Hs' Hn Hn') as D.
    assert (s = s') as <-.
    { apply same_side; try lia; auto. pose proof (side_dir_range dims s Hs) as Hr.
      destruct (shift c (insert_start dims g E s)) as [[x y] z]. rewrite within_iff in W1, W2. rewrite !insert_start_eq, !insert_end_eq in W1, W2 by lia. rewrite <- D in W2.
      pose proof (ghost_range dims g E Hg H1 H2 0 ltac:(lia)). pose proof (ghost_range dims g E Hg H1 H2 1 ltac:(lia)). pose proof (ghost_range dims g E Hg H1 H2 2 ltac:(lia)).
      assert (D' : side_dir s = 0 \/ side_dir s = 1 \/ side_dir s = 2) by lia.
      destruct D' as [D'|[D'|D']]; rewrite D' in *; destruct (side_low s), (side_low s'); cbn [Z.eqb Pos.eqb andb negb] in *; try reflexivity; lia. }
    split; [reflexivity|]. split; [reflexivity|]. rewrite <- (unshift_shift c (insert_start dims g E s)), K2. apply unshift_shift.
  - intros (s & s' & Hs & Hs' & Hn & Hn' & D).
    pose proof (side_dir_range dims s Hs) as Hr. pose proof (side_dir_range dims s' Hs') as Hr'.
    set (e := fun k => if k =? side_dir s then insert_start dims g E s k else insert_start dims g E s' k). set (c := (e 0, e 1, e 2)).
    assert (G : ghost dims g (side_dir s) = g) by (unfold ghost; rewrite (proj2 (Z.ltb_lt _ _)) by lia; reflexivity).
    assert (G' : ghost dims g (side_dir s') = g) by (unfold ghost; rewrite (proj2 (Z.ltb_lt _ _)) by lia; reflexivity).
    pose proof (H2 _ Hr) as K1. pose proof (H2 _ Hr') as K2. pose proof (H1 0 ltac:(lia)). pose proof (H1 1 ltac:(lia)). pose proof (H1 2 ltac:(lia)).
    assert (W : within (insert_start dims g E s) (insert_end dims g E s) c = true /\ within (insert_start dims g E s') (insert_end dims g E s') c = true).
    { unfold c. rewrite !within_iff. unfold e. rewrite !insert_start_eq, !insert_end_eq by lia.
      assert (D1 : side_dir s = 0 \/ side_dir s = 1 \/ side_dir s = 2) by lia. assert (D2 : side_dir s' = 0 \/ side_dir s' = 1 \/ side_dir s' = 2) by lia.
      destruct D1 as [D1|[D1|D1]], D2 as [D2|[D2|D2]]; rewrite D1, D2 in *; try (exfalso; lia);
        destruct (side_low s), (side_low s'); cbn [Z.eqb Pos.eqb andb negb]; lia. }
    destruct W as (W1 & W2). destruct (unshift_in dims g E s c Hs ltac:(lia) W1) as (U1 & S1). destruct (unshift_in dims g E s' c Hs' ltac:(lia) W2) as (U2 & S2).
    assert (M1 : In (Some (mk s 0 (unshift c (insert_start dims g E s)))) ms) by (apply MI; exists s, 0, (unshift c (insert_start dims g E s)); (split; [eassumption|]; split; [eassumption|]; split; [lia|]; split; [eassumption|]; reflexivity)).
    assert (M2 : In (Some (mk s' 0 (unshift c (insert_start dims g E s')))) ms) by (apply MI; exists s', 0, (unshift c (insert_start dims g E s')); (split; [eassumption|]; split; [eassumption|]; split; [lia|]; split; [eassumption|]; reflexivity)).
    assert (Hne : Some (mk s 0 (unshift c (insert_start dims g E s))) <> Some (mk s' 0 (unshift c (insert_start dims g E s')))).
    { intros K. injection K as K _ _. unfold a_buffer in K. apply D. f_equal. lia. }
    destruct (in_two _ _ _ M1 M2 Hne) as [(l1 & l2 & l3 & El)|(l1 & l2 & l3 & El)].
    + eapply moves_race; [exact Hin|exact El|]. unfold mk. cbn [m_to]. rewrite S1, S2. reflexivity.
    + eapply moves_race; [exact Hin|exact El|]. unfold mk. cbn [m_to]. rewrite S1, S2. reflexivity.
Qed.

(** * The exchanges *)
Lemma nb_at_valid p gr dims g r s : fits p (gr_cells gr) dims g -> 0 <= r < processes p -> 0 <= s < 2 * dims ->
  nb_at p gr r s <> -1 -> -1 < nb_at p gr r s.
Proof.
  intros Hf Hr Hs Hb. assert (Hp : positive3 p) by apply Hf. unfold nb_at, nb_of in Hb |- *.
  destruct (beyond p (gr_bc gr) (get_coordinates r p) s) as [q|] eqn:Eq; [|lia].
  assert (H6 : 0 <= s < 6) by (pose proof (proj1 Hf); lia).
  destruct (index_of_coords r p Hp Hr) as (Gr & _). pose proof (index_range q p (beyond_in _ _ _ _ _ Gr H6 Eq)). lia.
Qed.
Lemma neighbours_at p gr junk dims g r s : fits p (gr_cells gr) dims g -> 0 <= r < processes p -> 0 <= s < 2 * dims ->
  neighbours p gr junk r s = nb_at p gr r s.
Proof.
  intros Hf Hr Hs. assert (Hp : positive3 p) by apply Hf. assert (Hd : divides3 p (gr_cells gr)) by apply Hf.
  destruct (decompose_ok p gr r (junk r) Hp (cells_pos p gr dims g Hf) Hd Hr) as (lg & nb & E & B).
  destruct B as (_ & _ & _ & _ & _ & _ & B2 & _). rewrite (act_dims p gr dims g Hf) in B2.
  unfold neighbours. rewrite E. now apply B2.
Qed.
Lemma neighbours_sym p gr junk dims g : fits p (gr_cells gr) dims g -> paired (gr_bc gr) ->
  forall a s, 0 <= a < processes p -> 0 <= s < 2 * dims -> neighbours p gr junk a s <> -1 ->
  0 <= neighbours p gr junk a s < processes p /\ neighbours p gr junk (neighbours p gr junk a s) (opposite_side s) = a.
Proof.
  intros Hf Hbc a s Ha Hs Hn. rewrite (neighbours_at p gr junk dims g a s Hf Ha Hs) in *.
  pose proof (nb_at_valid p gr dims g a s Hf Ha Hs Hn) as Hv.
  assert (H6 : 0 <= s < 6) by (pose proof (proj1 Hf); lia).
  destruct (nb_sym p gr dims g Hf Hbc a s Ha Hs Hv) as (K1 & K2).
  split; [exact K1|]. rewrite (neighbours_at p gr junk dims g _ _ Hf K1) by (apply opp_range; auto; apply Hf).
  rewrite opp_across by exact H6. exact K2.
Qed.

(** Full statement: [all_deliver it] for every integrator (false, see
    [C75_exchange_refuted]).  Here: the exchanges followed by a reduction over all
    processes, wherever these are. *)
Theorem C75_exchange_partial :
  forall A p gr junk dims g nvars reduce (u : nat -> Z -> Z -> cell -> A) zero st,
  fits p (gr_cells gr) dims g -> paired (gr_bc gr) ->
  let n := per3 p (gr_cells gr) in let nb := neighbours p gr junk in
  happens dims g (at3 (volume_size n g)) nvars (processes p) nb reduce u zero st ->
  forall k r v, reduce k = true -> 0 <= r < processes p -> 0 <= v < nvars -> M_CudaExchange.finished st r k = true ->
  S_CudaExchange.delivered dims g n nb r (fun q => u k q v) (x_out st k r v).
Proof.
  intros A p gr junk dims g nvars reduce u zero st Hf Hbc n nb Hst k r v Hk Hr Hv Hfin.
  assert (Hdims : 1 <= dims <= 3) by apply Hf. assert (Hg : 0 <= g) by apply Hf.
  pose proof (inv_happens dims g (at3 (volume_size n g)) nvars (processes p) nb reduce u Hdims (neighbours_sym p gr junk dims g Hf Hbc) zero st Hst) as I.
  destruct (i_out _ _ _ _ _ _ _ _ _ I k r Hk Hr Hfin v Hv) as (last & buf & -> & Hbuf).
  assert (Hn : forall k, 0 <= k < 3 -> 1 <= at3 n k) by (intros j Hj; apply (n_spec p gr dims g Hf j Hj)).
  assert (HE : forall k, 0 <= k < 3 -> at3 (volume_size n g) k = if k <? dims then at3 n k + 2 * g else at3 n k).
  { intros j Hj. apply (vol_size p gr dims g Hf j Hj). }
  assert (G : forall k, 0 <= k < dims -> g <= at3 n k).
  { intros j Hj. assert (0 <= j < 3) by lia. apply (n_spec p gr dims g Hf j); lia. }
  split; [|split].
  - intros c Hc. unfold inserted. rewrite winner_none; [reflexivity|]. intros s. eapply inner_uncovered; eauto.
  - intros s c Hc Hs. split; [apply (opposite_inner dims g Hdims _ G s c Hc)|].
    unfold inserted. rewrite (winner_one dims g _ (nb r) Hdims (last c) c s).
    + destruct (from_other dims g n (at3 (volume_size n g)) Hdims Hg HE s c Hc) as (F1 & F2).
      rewrite Hbuf by (split; [exact Hr|]; split; [exact Hv|]; split; [apply Hc|]; split; [exact Hs|exact F1]).
      unfold extracted. rewrite F2. reflexivity.
    + intros s'. rewrite (face_covered dims g n _ (nb r) Hdims Hg Hn HE s s' c Hc). rewrite (proj2 (Z.eqb_neq _ _) Hs). apply andb_true_r.
  - intros s c Hc Hs. unfold inserted. rewrite winner_none; [reflexivity|]. intros s'.
    rewrite (face_covered dims g n _ (nb r) Hdims Hg Hn HE s s' c Hc), Hs. apply andb_false_r.
Qed.

Theorem C75_forward_euler : all_deliver ForwardEuler.
Proof.
  intros A p gr junk dims g nvars u zero st Hf Hbc n nb Hst k r v Hr Hv Hfin.
  eapply C75_exchange_partial; eauto.
Qed.

(** ** No deadlock *)
Definition stage_rank (s : stage) : nat := match s with Begin => 0 | Extracted => 1 | Posted => 2 | Reducing => 3 end.
Lemma argmin (f : Z -> nat) l : l <> [] -> exists r, In r l /\ forall q, In q l -> (f r <= f q)%nat.
Proof.
  induction l as [|a l IH]; [contradiction|]. intros _. destruct l as [|b l].
  - exists a. split; [left; reflexivity|]. intros q [->|[]]. lia.
  - destruct IH as (r & Hr & Hm); [discriminate|]. destruct (le_lt_dec (f a) (f r)) as [L|L].
    + exists a. split; [left; reflexivity|]. intros q [->|Hq]; [lia|]. specialize (Hm q Hq). lia.
    + exists r. split; [right; exact Hr|]. intros q [->|Hq]; [lia|]. now apply Hm.
Qed.

Theorem C75_no_deadlock :
  forall A p gr junk dims g nvars reduce (u : nat -> Z -> Z -> cell -> A) zero st,
  fits p (gr_cells gr) dims g -> paired (gr_bc gr) ->
  let n := per3 p (gr_cells gr) in let nb := neighbours p gr junk in
  happens dims g (at3 (volume_size n g)) nvars (processes p) nb reduce u zero st ->
  exists e st', exec dims g (at3 (volume_size n g)) nvars (processes p) nb reduce u e st = Some st'.
Proof.
  intros A p gr junk dims g nvars reduce u zero st Hf Hbc n nb Hst. set (E := at3 (volume_size n g)). set (np := processes p).
  assert (Hdims : 1 <= dims <= 3) by apply Hf. pose proof (neighbours_sym p gr junk dims g Hf Hbc) as Hsym. fold nb np in Hsym.
  pose proof (posted_iff dims g E nvars np nb reduce u Hdims) as PI. pose proof (finished_iff dims g E nvars np nb reduce u Hdims) as FI.
  pose proof (has_iff (A := A) dims g E nvars np nb Hdims) as HI. pose proof (elem_iff (A := A) dims g E nvars np nb Hdims) as EI.
  assert (Hnp : 0 < np).
  { unfold np, processes. destruct Hf as (_ & _ & Hp & _). pose proof (Hp 0 ltac:(lia)). pose proof (Hp 1 ltac:(lia)). pose proof (Hp 2 ltac:(lia)).
    destruct p as [[x y] z]. cbn in *. nia. }
  destruct (argmin (fun r => (4 * x_round st r + stage_rank (x_stage st r))%nat) (zrange 0 np)) as (r & Hr & Hmin).
  { intros K. assert (In 0 (zrange 0 np)) by (apply zrange_In; lia). rewrite K in *. assumption. }
  apply zrange_In in Hr. set (k := x_round st r) in *.
  assert (Hmin' : forall q, 0 <= q < np -> (k < x_round st q)%nat \/ (k = x_round st q /\ (stage_rank (x_stage st r) <= stage_rank (x_stage st q))%nat)).
  { intros q Hq. specialize (Hmin q (proj2 (zrange_In _ _ _) Hq)). cbn beta in Hmin. fold k in Hmin.
    assert (R4 : forall s, (stage_rank s < 4)%nat) by (intros []; cbn; lia). pose proof (R4 (x_stage st r)). pose proof (R4 (x_stage st q)). lia. }
  assert (Pr : is_process np r = true) by (unfold is_process; apply andb_true_iff; rewrite Z.leb_le, Z.ltb_lt; exact Hr).
  destruct (x_stage st r) eqn:S.
  - exists (EExtract r). eexists. unfold exec. rewrite Pr, S. reflexivity.
  - exists (EPost r). eexists. unfold exec. rewrite Pr, S. reflexivity.
  - assert (Hpost : forall q, 0 <= q < np -> posted st q k = true).
    { intros q Hq. apply PI. destruct (Hmin' q Hq) as [|(K1 & K2)]; [left; assumption|right]. split; [exact K1|].
      destruct (x_stage st q); cbn in K2; auto; lia. }
    (* a message to [r] that has not arrived, or an old one that has not left *)
    assert (Pend : forall f, (every_element dims g E nvars nb r f = true) \/ exists v s c, element dims g E nvars np nb r v s c /\ f v s c = false).
    { intros f. destruct (every_element dims g E nvars nb r f) eqn:X; [left; reflexivity|right]. unfold every_element in X.
      assert (FB : forall B (h : B -> bool) l, forallb h l = false -> exists b, In b l /\ h b = false).
      { clear. intros B h l. induction l as [|b l IH]; cbn; [discriminate|]. destruct (h b) eqn:Hb; cbn.
        - intros K. destruct (IH K) as (b' & H1 & H2). eauto.
        - intros _. eauto. }
      apply FB in X. destruct X as (v & Hv & X). apply FB in X. destruct X as (s & Hs & X). apply zrange_In in Hv, Hs.
      apply orb_false_iff in X. destruct X as (X1 & X). apply negb_false_iff in X1. apply FB in X. destruct X as (c & Hc & X).
      exists v, s, c. split; [|exact X]. split; [exact Hr|]. split; [exact Hv|]. split; [exact Hs|]. split; [now apply HI|]. now apply box_cells_In. }
    destruct (Pend (fun v s c => done (x_net st k (nb r s) v (opposite_side s) c))) as [P1|(v & s & c & He & P1)].
    + destruct k as [|k'] eqn:Ek.
      * exists (EInsert r (fun _ _ => 0)). eexists. unfold exec. rewrite Pr, S. fold k. rewrite Ek, P1. reflexivity.
      * destruct (Pend (fun v s c => negb (waiting (x_net st k' r v s c)))) as [P2|(v & s & c & He & P2)].
        -- exists (EInsert r (fun _ _ => 0)). eexists. unfold exec. rewrite Pr, S. fold k. rewrite Ek, P1, P2. reflexivity.
        -- apply negb_false_iff in P2. exists (ERead k' r v s c). eexists. unfold exec.
           rewrite (proj2 (EI r v s c) He).
           assert (K : posted st r k' = true) by (apply PI; left; fold k; lia). rewrite K, P2. reflexivity.
    + pose proof (element_opp dims g E nvars np nb Hdims Hsym r v s c He) as He'. destruct (element_back dims g E nvars np nb Hdims Hsym r v s c He) as (B1 & B2).
      destruct (x_net st k (nb r s) v (opposite_side s) c) eqn:N; [| |discriminate].
      * exists (ERead k (nb r s) v (opposite_side s) c). eexists. unfold exec.
        rewrite (proj2 (EI _ v _ c) He'), (Hpost _ (proj1 He')), N. reflexivity.
      * exists (EWrite k (nb r s) v (opposite_side s) c). eexists. unfold exec.
        rewrite (proj2 (EI _ v _ c) He'). cbv zeta. rewrite B1, B2, Pr, Z.eqb_refl, (Hpost r Hr), N.
        rewrite (proj2 (HI r s)) by apply He. reflexivity.
  - exists (ELeave r). eexists. unfold exec. rewrite Pr, S. fold k.
    assert (K : forallb (fun q => M_CudaExchange.finished st q k) (zrange 0 np) = true).
    { apply forallb_forall. intros q Hq. apply zrange_In in Hq. apply FI. destruct (Hmin' q Hq) as [|(K1 & K2)]; [left; assumption|right].
      split; [exact K1|]. destruct (x_stage st q); cbn in K2; auto; lia. }
    rewrite K. reflexivity.
Qed.

(** ** Integrators with several substeps

    Two processes with one cell each; process 0 prepares its third exchange before
    the messages of its second one have been sent.  [u k r] is [10 k + r]. *)
Definition race_u (k : nat) (r v : Z) (c : cell) : Z := 10 * Z.of_nat k + r.
Definition race_exchange (k : nat) : list xevent :=
  [EExtract 0; EExtract 1; EPost 0; EPost 1] ++
  flat_map (fun a => flat_map (fun s => [ERead k a 0 s (0, 0, 0); EWrite k a 0 s (0, 0, 0)]) [0; 1]) [0; 1] ++
  [EInsert 0 (fun _ _ => 0); EInsert 1 (fun _ _ => 0)].
Definition race_events : list xevent :=
  race_exchange 0 ++ [ELeave 0; ELeave 1; EExtract 0; EExtract 1; EPost 0; EPost 1] ++
  flat_map (fun s => [ERead 1 1 0 s (0, 0, 0); EWrite 1 1 0 s (0, 0, 0)]) [0; 1] ++
  [EInsert 0 (fun _ _ => 0); EExtract 0] ++
  flat_map (fun s => [ERead 1 0 0 s (0, 0, 0); EWrite 1 0 0 s (0, 0, 0)]) [0; 1] ++
  [EInsert 1 (fun _ _ => 0)].
Definition race_grid : grid := ex_grid (2, 1, 1) (fun _ => PERIODIC).
Definition race_nb : Z -> Z -> Z := neighbours (2, 1, 1) race_grid (fun _ _ => 0).
Definition race_extents : ivec := at3 (volume_size (per3 (2, 1, 1) (gr_cells race_grid)) 1).
Lemma execs_observed {A} dims g E nvars np nb reduce (u : nat -> Z -> Z -> cell -> A) zero es (f : xstate -> bool) :
  match execs dims g E nvars np nb reduce u es (xstart zero) with Some st => f st | None => false end = true ->
  exists st, happens dims g E nvars np nb reduce u zero st /\ f st = true.
Proof.
  destruct (execs _ _ _ _ _ _ _ _ _ _) as [st|] eqn:X; [|discriminate]. intros H. exists st. split; [|exact H]. exists es. exact X.
Qed.
Lemma race_observed it : it <> ForwardEuler ->
  exists st, happens 1 1 race_extents 1 (processes (2, 1, 1)) race_nb (reduces it) race_u 0 st /\
    M_CudaExchange.finished st 1 1 && (x_out st 1 1 0 (0, 0, 0) =? 20) = true.
Proof.
  intros N. apply (execs_observed 1 1 race_extents 1 (processes (2, 1, 1)) race_nb (reduces it) race_u 0 race_events
    (fun st => M_CudaExchange.finished st 1 1 && (x_out st 1 1 0 (0, 0, 0) =? 20))).
  destruct it; [contradiction| | |]; vm_compute; reflexivity.
Qed.
Lemma race_neighbour : race_nb 1 0 = 0.
Proof. vm_compute. reflexivity. Qed.
Lemma race_ghost : face_ghost 1 1 (per3 (2, 1, 1) (gr_cells race_grid)) 0 (0, 0, 0).
Proof. split; [lia|]. split; [vm_compute; intuition congruence|]. intros k Hk. k3case Hk; vm_compute; intuition congruence. Qed.
Lemma race_fits : fits (2, 1, 1) (gr_cells race_grid) 1 1 /\ paired (gr_bc race_grid).
Proof.
  split; [|apply C18_configurations_are_paired].
  split; [lia|]. split; [lia|]. split; [intros k Hk; k3case Hk; cbn; lia|]. split.
  - intros k Hk. k3case Hk; cbn; exists 1; reflexivity.
  - intros k Hk. k3case Hk; vm_compute; intuition congruence.
Qed.

Theorem C75_exchange_refuted : forall it, it <> ForwardEuler -> ~ all_deliver it.
Proof.
  intros it N H. destruct (race_observed it N) as (st & X & O). apply andb_true_iff in O. rewrite Z.eqb_eq in O. destruct O as (O1 & O2). destruct race_fits as (F1 & F2).
  assert (Hp : 0 <= 1 < processes (2, 1, 1)) by (split; vm_compute; congruence).
  specialize (H Z (2, 1, 1) race_grid (fun _ _ => 0) 1 1 1 race_u 0 st F1 F2 X 1%nat 1 0 Hp ltac:(lia) O1).
  fold race_nb in H. destruct H as (_ & D & _). destruct (D 0 (0, 0, 0) race_ghost) as (_ & D2).
  - rewrite race_neighbour. discriminate.
  - rewrite race_neighbour, O2 in D2. unfold race_u in D2. lia.
Qed.

(** Two processes with one cell each: an exchange ends, and the ghost cell at
    the left holds the cell of the other process. *)
Example C75_exchange_nonvacuous :
  exists st, happens 1 1 race_extents 1 (processes (2, 1, 1)) race_nb (reduces ForwardEuler) race_u 0 st /\
    M_CudaExchange.finished st 1 0 && (x_out st 0 1 0 (0, 0, 0) =? 0) && (x_out st 0 1 0 (1, 0, 0) =? 1) = true.
Proof.
  apply (execs_observed 1 1 race_extents 1 (processes (2, 1, 1)) race_nb (reduces ForwardEuler) race_u 0 (race_exchange 0)
    (fun st => M_CudaExchange.finished st 1 0 && (x_out st 0 1 0 (0, 0, 0) =? 0) && (x_out st 0 1 0 (1, 0, 0) =? 1))).
  vm_compute. reflexivity.
Qed.

(** A block of 3 x 2 cells with one ghost cell per side and neighbours on all sides:
    the areas exist, and the insertions race. *)
Definition ex_extents : ivec := at3 (5, 4, 1).
Definition ex_size (a : Z) : Z := if a =? 6 then 20 else if a <? 2 then 4 else 5.
Example C75_kernels_nonvacuous :
  room 2 1 ex_extents /\ areas 2 1 ex_extents 1 (fun _ => 0) ex_size /\
  (forall A (m : shared A), outcome ex_size (insert_launches 2 1 ex_extents 1 (fun _ => 0)) m UB) /\
  (forall A (m : shared A), ~ outcome ex_size (extract_launches 2 1 ex_extents 1 (fun _ => 0)) m UB).
Proof.
  assert (R : room 2 1 ex_extents).
  { split; [lia|]. split; [lia|]. split; [intros k Hk; k3case Hk; vm_compute; congruence|]. split; [|vm_compute; reflexivity].
    intros k Hk. assert (Hk3 : 0 <= k < 3) by lia. k3case Hk3; [vm_compute; congruence|vm_compute; congruence|lia]. }
  assert (Ar : areas 2 1 ex_extents 1 (fun _ => 0) ex_size).
  { split.
    - intros v Hv. replace v with 0 by lia. reflexivity.
    - intros v s Hv Hs _. replace v with 0 by lia. assert (K : s = 0 \/ s = 1 \/ s = 2 \/ s = 3) by lia.
      destruct K as [->|[->|[->| ->]]]; vm_compute; reflexivity. }
  split; [exact R|]. split; [exact Ar|]. split.
  - intros A m. apply C75_insert_race; [exact R|exact Ar|lia|lia|]. exists 0, 2. vm_compute. intuition congruence.
  - intros A m H. destruct (C75_extract A 2 1 ex_extents 1 (fun _ => 0) ex_size m R Ar) as (_ & K). destruct (K _ H) as (m' & K' & _). discriminate.
Qed.

Print Assumptions C75_extract.
Print Assumptions C75_insert.
Print Assumptions C75_insert_race.
Print Assumptions C75_exchange_partial.
Print Assumptions C75_forward_euler.
Print Assumptions C75_no_deadlock.
Print Assumptions C75_exchange_refuted.
