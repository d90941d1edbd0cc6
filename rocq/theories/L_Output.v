(** Lemmas on the output files. *)
From Coq Require Import ZArith Reals List Bool Lia Permutation.
From Verif Require Import M_Base M_Sim M_Memory M_Mpi M_Output L_Base L_Decomp
  S_Boundary S_Memory S_Mpi S_Output T_Memory T_Mpi.
Import ListNotations.
Open Scope Z_scope.

Lemma slab_In start count c : in_slab start count c = true <->
  forall k, 0 <= k < 3 -> at3 start k <= at3 c k < at3 start k + at3 count k.
Proof.
  unfold in_slab. rewrite forallb_forall. split.
  - intros H k Hk. assert (I : In k [0; 1; 2]) by (cbn; lia).
    specialize (H k I). apply andb_true_iff in H. lia.
  - intros H k Hk. assert (I : 0 <= k < 3) by (cbn in Hk; lia).
    specialize (H k I). apply andb_true_iff. lia.
Qed.

Lemma fits_iff f start count :
  forallb (fun k => (0 <=? at3 start k) && (0 <=? at3 count k) &&
             (at3 start k + at3 count k <=? at3 (fv_dims f) k)) [0; 1; 2] = true <->
  forall k, 0 <= k < 3 -> 0 <= at3 start k /\ 0 <= at3 count k /\
     at3 start k + at3 count k <= at3 (fv_dims f) k.
Proof.
  rewrite forallb_forall. split.
  - intros H k Hk. assert (I : In k [0; 1; 2]) by (cbn; lia).
    specialize (H k I). rewrite !andb_true_iff in H. lia.
  - intros H k Hk. assert (I : 0 <= k < 3) by (cbn in Hk; lia).
    specialize (H k I). rewrite !andb_true_iff. lia.
Qed.

Lemma put_slab_ok f start count data :
  (forall k, 0 <= k < 3 -> 0 <= at3 start k /\ 0 <= at3 count k /\
     at3 start k + at3 count k <= at3 (fv_dims f) k) ->
  at3 count 0 * at3 count 1 * at3 count 2 <= vsize data ->
  exists f', put_slab f start count data = Ok f' /\ fv_dims f' = fv_dims f /\
    forall c, fv_dat f' c = if in_slab start count c
      then Some (vdat data (((at3 c 0 - at3 start 0) * at3 count 1 + (at3 c 1 - at3 start 1)) * at3 count 2
                            + (at3 c 2 - at3 start 2)))
      else fv_dat f c.
Proof.
  intros H Hs. unfold put_slab. apply fits_iff in H. rewrite H. cbn [negb].
  destruct (Z.ltb_spec (vsize data) (at3 count 0 * at3 count 1 * at3 count 2)); [lia|].
  eexists. split; [reflexivity|]. split; reflexivity.
Qed.

Lemma put_slab_throw f start count data k :
  0 <= k < 3 -> at3 (fv_dims f) k < at3 start k + at3 count k ->
  put_slab f start count data = Throw.
Proof.
  intros Hk H. unfold put_slab.
  destruct (forallb _ _) eqn:E; [|reflexivity].
  pose proof (proj1 (fits_iff f start count) E k Hk). lia.
Qed.

Lemma cell_eta c : c = (at3 c 0, at3 c 1, at3 c 2).
Proof. destruct c as [[x y] z]. reflexivity. Qed.

Lemma holds_size dims g v n u : 1 <= dims <= 3 -> holds dims g v n u -> inner_size v (ghosts dims g) = n.
Proof.
  intros Hd ((E1 & E2 & E3) & _). rewrite (cell_eta n).
  unfold inner_size, ghosts. rewrite E1, E2, E3.
  cbn [at3 Z.eqb Pos.eqb].
  do 2 try apply f_equal2; destruct (1 <? dims), (2 <? dims); lia.
Qed.

(** The buffer holds the interior cells with x running fastest. *)
Lemma inner_data_ok dims g v n u :
  1 <= dims <= 3 -> 0 <= g -> positive3 n -> holds dims g v n u ->
  exists data, inner_data v (ghosts dims g) = Ok data /\
    vsize data = at3 n 0 * at3 n 1 * at3 n 2 /\
    forall c, in_grid c n ->
      vdat data (at3 c 2 * at3 n 0 * at3 n 1 + at3 c 1 * at3 n 0 + at3 c 0) = u c.
Proof.
  intros Hd Hg Hn Hh. pose proof (holds_size _ _ _ _ _ Hd Hh) as Es. destruct Hh as (He & Hu).
  pose proof (Hn 0 ltac:(lia)) as N0. pose proof (Hn 1 ltac:(lia)) as N1. pose proof (Hn 2 ltac:(lia)) as N2.
  unfold inner_data. rewrite Es.
  destruct (C49_copies_interior_partial v dims g (at3 n 0) (at3 n 1) (at3 n 2)
    (mkvol (at3 n 0 * at3 n 1 * at3 n 2) 1 1 (fun _ => 0%R))) as (o & E & Eo & W); try assumption; try lia.
  { unfold elements. cbn. lia. }
  exists o. split; [exact E|]. split.
  { change (vsize o) with (elements o). rewrite Eo. unfold elements. cbn. lia. }
  intros c Hc.
  pose proof (Hc 0 ltac:(lia)) as C0. pose proof (Hc 1 ltac:(lia)) as C1. pose proof (Hc 2 ltac:(lia)) as C2.
  rewrite W.
  - rewrite <- (Hu c Hc). do 2 f_equal. rewrite (cell_eta c) at 4. unfold kth_cell.
    set (nx := at3 n 0) in *. set (ny := at3 n 1) in *. set (x := at3 c 0) in *.
    set (y := at3 c 1) in *. set (z := at3 c 2) in *.
    replace (z * nx * ny + y * nx + x) with (x + (z * ny + y) * nx) by ring.
    rewrite Z.mod_add, Z.div_add by lia. rewrite <- Z.div_div by lia. rewrite Z.div_add by lia.
    rewrite (Z.div_small x nx), (Z.mod_small x nx) by lia.
    replace (0 + (z * ny + y)) with (y + z * ny) by ring.
    rewrite Z.mod_add, Z.div_add by lia. rewrite (Z.div_small y ny), (Z.mod_small y ny) by lia.
    reflexivity.
  - apply lin_bound; lia.
Qed.

Lemma file_axes_reversed d c : 1 <= d <= 3 -> file_axes d c = reversed d c.
Proof.
  intros Hd. destruct c as [[x y] z].
  assert (D : d = 1 \/ d = 2 \/ d = 3) by lia.
  destruct D as [-> | [-> | ->]]; reflexivity.
Qed.

Lemma reversed_twice d c : reversed d (reversed d c) = c.
Proof.
  destruct c as [[x y] z]. destruct d as [|q|q]; try reflexivity.
  destruct q as [[?|?|]|[?|?|]|]; reflexivity.
Qed.

Lemma active_block p n : positive3 p -> divides3 p n -> (forall k, 0 <= k < 3 -> 1 <= at3 n k) ->
  thick p n -> active_dimension (per3 p n) = active_dimension n.
Proof.
  intros Hp Hd Hn Ht. unfold active_dimension. rewrite !at3_per3 by lia.
  assert (Q : forall k, 0 <= k < 3 -> (1 <? at3 n k / at3 p k) = (1 <? at3 n k)).
  { intros k Hk. specialize (Hp k Hk). specialize (Hn k Hk). specialize (Ht k Hk).
    destruct (Z.ltb_spec 1 (at3 n k)) as [L|L].
    - apply Z.ltb_lt. now apply Ht.
    - apply Z.ltb_ge. apply Z.div_le_upper_bound; nia. }
  rewrite !Q by lia. reflexivity.
Qed.

(** In a run in d dimensions the unused directions have one cell. *)
Lemma active_ones n : (forall k, 0 <= k < 3 -> 1 <= at3 n k) ->
  (active_dimension n = 1 /\ at3 n 1 = 1 /\ at3 n 2 = 1) \/
  (active_dimension n = 2 /\ 1 < at3 n 1 /\ at3 n 2 = 1) \/
  (active_dimension n = 3 /\ 1 < at3 n 2).
Proof.
  intros H. pose proof (H 1 ltac:(lia)). pose proof (H 2 ltac:(lia)).
  unfold active_dimension.
  destruct (Z.ltb_spec 1 (at3 n 2)); [right; right; lia|].
  destruct (Z.ltb_spec 1 (at3 n 1)); [right; left|left]; lia.
Qed.

(** The place of a cell in the buffer is the place the slab gives to the
    reversed index. *)
Lemma reversed_position n s c : (forall k, 0 <= k < 3 -> 1 <= at3 n k) -> 
  let d := active_dimension n in
  in_grid c n ->
  let c' := reversed d (shift s c) in
  let s' := reversed d s in
  let n' := reversed d n in
  ((at3 c' 0 - at3 s' 0) * at3 n' 1 + (at3 c' 1 - at3 s' 1)) * at3 n' 2 + (at3 c' 2 - at3 s' 2)
  = at3 c 2 * at3 n 0 * at3 n 1 + at3 c 1 * at3 n 0 + at3 c 0.
Proof.
  intros Hn d Hc c' s' n'.
  pose proof (Hc 1 ltac:(lia)) as C1. pose proof (Hc 2 ltac:(lia)) as C2.
  unfold c', s', n', d.
  destruct (active_ones n Hn) as [(-> & A & B) | [(-> & A & B) | (-> & A)]];
    destruct n as [[nx ny] nz]; destruct s as [[sx sy] sz]; destruct c as [[x y] z];
    cbn [reversed shift at3 Z.eqb Pos.eqb] in *; subst; try ring.
  - assert (y = 0) by lia. assert (z = 0) by lia. subst. ring.
  - assert (z = 0) by lia. subst. ring.
Qed.

Lemma at3_reversed_range d a b c : (forall k, 0 <= k < 3 -> at3 a k <= at3 c k < at3 a k + at3 b k) <->
  (forall k, 0 <= k < 3 -> at3 (reversed d a) k <= at3 (reversed d c) k < at3 (reversed d a) k + at3 (reversed d b) k).
Proof.
  assert (R1 : forall a b c, (forall k, 0 <= k < 3 -> at3 a k <= at3 c k < at3 a k + at3 b k) ->
     (forall k, 0 <= k < 3 -> at3 (reversed d a) k <= at3 (reversed d c) k < at3 (reversed d a) k + at3 (reversed d b) k)).
  { clear. intros a b c H k Hk.
    pose proof (H 0 ltac:(lia)). pose proof (H 1 ltac:(lia)). pose proof (H 2 ltac:(lia)).
    destruct a as [[a1 a2] a3], b as [[b1 b2] b3], c as [[c1 c2] c3].
    cbn [at3 Z.eqb Pos.eqb] in *.
    destruct d as [|q|q]; try destruct q as [[?|?|]|[?|?|]|];
      destruct (k3 k Hk) as [-> | [-> | ->]]; cbn [reversed at3 Z.eqb Pos.eqb]; assumption. }
  split; [apply R1|]. intros H. pose proof (R1 _ _ _ H) as H'. now rewrite !reversed_twice in H'.
Qed.
