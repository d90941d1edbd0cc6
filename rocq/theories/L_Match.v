(** Which sends meet which receives, and what an exchange does to the cells. *)
From Coq Require Import ZArith Reals List Bool Lia Lra.
From Verif Require Import M_Base M_Mpi S_Mpi L_Base L_Decomp L_Exchange.
Import ListNotations.
Open Scope Z_scope.

Lemma filter_flat_nil {A B} (q : B -> bool) (f : A -> list B) l :
  (forall a, In a l -> filter q (f a) = []) -> filter q (flat_map f l) = [].
Proof.
  induction l as [|a l IH]; intros H; cbn; [reflexivity|].
  rewrite filter_app, (H a) by (now left). apply IH. intros b Hb. apply H. now right.
Qed.
Lemma filter_flat_one {A B} (q : B -> bool) (f : A -> list B) l a0 : NoDup l -> In a0 l ->
  (forall a, In a l -> a <> a0 -> filter q (f a) = []) -> filter q (flat_map f l) = filter q (f a0).
Proof.
  induction l as [|a l IH]; intros Hn Hi H; [destruct Hi|]. cbn. rewrite filter_app.
  inversion Hn as [|? ? Na Nl]; subst. destruct Hi as [->|Hi].
  - rewrite filter_flat_nil; [apply app_nil_r|]. intros b Hb. apply H; [now right|].
    intros ->. contradiction.
  - rewrite (H a); [|now left|intros ->; contradiction]. apply IH; auto.
    intros b Hb. apply H. now right.
Qed.

Section Ops.
Variables (dims g nvars np : Z) (t : cell) (nb : Z -> Z -> Z).
Hypothesis Hdims : 1 <= dims <= 3.
Hypothesis Hsym : forall a s, 0 <= a < np -> 0 <= s < 2 * dims -> -1 < nb a s ->
  0 <= nb a s < np /\ nb (nb a s) (across s) = a.
Definition ops_at (r : Z) : list mpiop := exchange_ops dims g t nvars (nb r).

Lemma ops_In r o : In o (ops_at r) <-> exists s v, 0 <= s < 2 * dims /\ 0 <= v < nvars /\
  ((-1 < nb r s /\ o = Isend v (send_type s dims t g) (nb r s) (s + v * 6)) \/
   (-1 < nb r (across s) /\ o = Irecv v (receive_type (across s) dims t g) (nb r (across s)) (s + v * 6))).
Proof.
  unfold ops_at, exchange_ops. rewrite in_flat_map. setoid_rewrite in_flat_map.
  setoid_rewrite zrange_In. unfold has_side. split.
  - intros (s & Hs & v & Hv & H). exists s, v. split; [exact Hs|]. split; [exact Hv|].
    destruct (across_eq s ltac:(lia)) as (Eo & _). rewrite Eo in H.
    apply in_app_or in H. destruct H as [H|H].
    + destruct (Z.ltb_spec (-1) (nb r s)); [|destruct H]. left. split; [lia|]. now destruct H as [H|[]].
    + destruct (Z.ltb_spec (-1) (nb r (across s))); [|destruct H]. right. split; [lia|]. now destruct H as [H|[]].
  - intros (s & v & Hs & Hv & H). exists s. split; [exact Hs|]. exists v. split; [exact Hv|].
    destruct (across_eq s ltac:(lia)) as (Eo & _). rewrite Eo. apply in_or_app.
    destruct H as [(H & ->)|(H & ->)]; [left|right]; rewrite (proj2 (Z.ltb_lt _ _)) by lia; now left.
Qed.

(** Counting the operations with a given envelope. *)
Lemma count_ops r (q : mpiop -> bool) tg :
  (forall v ty d tg', q (Isend v ty d tg') = true -> tg' = tg) ->
  (forall v ty d tg', q (Irecv v ty d tg') = true -> tg' = tg) ->
  filter q (ops_at r) =
    let s := tg mod 6 in let v := tg / 6 in
    if (s <? 2 * dims) && (0 <=? v) && (v <? nvars) then
      filter q ((if has_side (nb r) s then [Isend v (send_type s dims t g) (nb r s) (s + v * 6)] else []) ++
       (if has_side (nb r) (opposite_side s)
        then [Irecv v (receive_type (opposite_side s) dims t g) (nb r (opposite_side s)) (s + v * 6)] else []))
    else [].
Proof.
  intros Q1 Q2. cbv zeta. unfold ops_at, exchange_ops.
  pose proof (Z.div_mod tg 6 ltac:(lia)) as Edm. pose proof (Z.mod_pos_bound tg 6 ltac:(lia)) as Bm.
  assert (K : forall s v, 0 <= s < 2 * dims -> (s, v) <> (tg mod 6, tg / 6) ->
     filter q ((if has_side (nb r) s then [Isend v (send_type s dims t g) (nb r s) (s + v * 6)] else []) ++
       (if has_side (nb r) (opposite_side s)
        then [Irecv v (receive_type (opposite_side s) dims t g) (nb r (opposite_side s)) (s + v * 6)] else [])) = []).
  { intros s v Hs Hne. assert (Ht : s + v * 6 <> tg).
    { intros E. apply Hne. f_equal.
      - rewrite <- E. rewrite Z.mod_add by lia. symmetry. apply Z.mod_small. lia.
      - rewrite <- E. rewrite Z.div_add by lia. rewrite Z.div_small by lia. reflexivity. }
    rewrite filter_app.
    assert (forall o, In o [Isend v (send_type s dims t g) (nb r s) (s + v * 6);
       Irecv v (receive_type (opposite_side s) dims t g) (nb r (opposite_side s)) (s + v * 6)] -> q o = false) as F.
    { intros o [<-|[<-|[]]].
      - destruct (q _) eqn:E; [|reflexivity]. apply Q1 in E. lia.
      - destruct (q _) eqn:E; [|reflexivity]. apply Q2 in E. lia. }
    destruct (has_side (nb r) s), (has_side (nb r) (opposite_side s)); cbn [filter];
      rewrite ?F by (cbn; auto); reflexivity. }
  destruct ((tg mod 6 <? 2 * dims) && (0 <=? tg / 6) && (tg / 6 <? nvars)) eqn:E.
  - apply andb_prop in E. destruct E as (E & E3). apply andb_prop in E. destruct E as (E1 & E2).
    apply Z.ltb_lt in E1, E3. apply Z.leb_le in E2.
    rewrite (filter_flat_one q _ _ (tg mod 6)).
    + rewrite (filter_flat_one q _ _ (tg / 6)).
      * reflexivity.
      * apply zrange_NoDup.
      * apply zrange_In. lia.
      * intros v Hv Hne. apply K; [lia|congruence].
    + apply zrange_NoDup.
    + apply zrange_In. lia.
    + intros s Hs Hne. apply zrange_In in Hs. apply filter_flat_nil. intros v Hv. apply K; [lia|congruence].
  - apply filter_flat_nil. intros s Hs. apply zrange_In in Hs.
    apply filter_flat_nil. intros v Hv. apply zrange_In in Hv. apply K; [lia|].
    intros X. injection X as X1 X2. subst s v. revert E.
    rewrite (proj2 (Z.ltb_lt (tg mod 6) (2 * dims))), (proj2 (Z.leb_le 0 (tg / 6))), (proj2 (Z.ltb_lt (tg / 6) nvars)) by lia.
    discriminate.
Qed.

Lemma matched a b tg : 0 <= a < np -> 0 <= b < np ->
  sends ops_at a b tg = receives ops_at a b tg /\ (sends ops_at a b tg <= 1)%nat.
Proof.
  intros Ha Hb. unfold sends, receives.
  rewrite (count_ops a _ tg), (count_ops b _ tg).
  2-5: intros v ty d tg' H; try discriminate; apply andb_prop in H; destruct H as (_ & H);
       apply Z.eqb_eq in H; exact H.
  cbv zeta. pose proof (Z.mod_pos_bound tg 6 ltac:(lia)) as Bm.
  pose proof (Z.div_mod tg 6 ltac:(lia)) as Edm.
  destruct (Z.ltb_spec (tg mod 6) (2 * dims)) as [Hs|]; [|split; [reflexivity|cbn; lia]].
  cbn [andb]. destruct ((0 <=? tg / 6) && (tg / 6 <? nvars)); [|split; [reflexivity|cbn; lia]].
  destruct (across_eq (tg mod 6) Bm) as (Eo & Ba & Ed & El & Ei). rewrite Eo.
  assert (Hsa : 0 <= across (tg mod 6) < 2 * dims).
  { apply side_ok_iff; [lia|]. apply side_ok_across. apply side_ok_iff; lia. }
  set (s := tg mod 6) in *. replace (s + tg / 6 * 6) with tg by lia.
  unfold has_side. rewrite !filter_app.
  assert (G : (-1 < nb a s /\ nb a s = b) <-> (-1 < nb b (across s) /\ nb b (across s) = a)).
  { split.
    - intros (H1 & H2). destruct (Hsym a s Ha ltac:(lia) H1) as (_ & H4). rewrite H2 in H4. rewrite H4. lia.
    - intros (H1 & H2). destruct (Hsym b (across s) Hb Hsa H1) as (_ & H4). rewrite H2, Ei in H4. rewrite H4. lia. }
  destruct (Z.ltb_spec (-1) (nb a s)); destruct (Z.ltb_spec (-1) (nb a (across s)));
  destruct (Z.ltb_spec (-1) (nb b s)); destruct (Z.ltb_spec (-1) (nb b (across s))); cbn [filter app length];
    rewrite ?Z.eqb_refl, ?andb_true_r;
    try (destruct (Z.eqb_spec (nb a s) b)); try (destruct (Z.eqb_spec (nb b (across s)) a));
    cbn [filter app length]; split; try lia; exfalso; intuition lia.
Qed.

(** The matched pairs. *)
Lemma messages_In m : In m (messages np ops_at) <->
  exists a s v, 0 <= a < np /\ 0 <= s < 2 * dims /\ 0 <= v < nvars /\ -1 < nb a s /\
    m = mkmsg a v (send_type s dims t g) (nb a s) v (receive_type (across s) dims t g) (s + v * 6).
Proof.
  unfold messages. rewrite in_flat_map. split.
  - intros (a & Ha & H). apply zrange_In in Ha. rewrite in_flat_map in H. destruct H as (o & Ho & H).
    apply ops_In in Ho. destruct Ho as (s & v & Hs & Hv & [(Hn & ->)|(Hn & ->)]); [|destruct H].
    destruct ((0 <=? nb a s) && (nb a s <? np)); [|destruct H].
    rewrite in_flat_map in H. destruct H as (o' & Ho' & H). apply ops_In in Ho'.
    destruct Ho' as (s' & v' & Hs' & Hv' & [(Hn' & ->)|(Hn' & ->)]); [destruct H|].
    destruct ((nb (nb a s) (across s') =? a) && (s' + v' * 6 =? s + v * 6)) eqn:E; [|destruct H].
    apply andb_prop in E. destruct E as (E1 & E2). apply Z.eqb_eq in E1, E2.
    assert (s' = s) by lia. assert (v' = v) by lia. subst s' v'.
    destruct H as [<-|[]]. exists a, s, v. repeat (split; [assumption|]). reflexivity.
  - intros (a & s & v & Ha & Hs & Hv & Hn & ->). exists a. split; [now apply zrange_In|].
    destruct (Hsym a s Ha Hs Hn) as (Hr & Hb).
    rewrite in_flat_map. exists (Isend v (send_type s dims t g) (nb a s) (s + v * 6)). split.
    + apply ops_In. exists s, v. repeat (split; [assumption|]). left. auto.
    + rewrite (proj2 (Z.leb_le 0 (nb a s))), (proj2 (Z.ltb_lt (nb a s) np)) by lia. cbn [andb].
      rewrite in_flat_map. exists (Irecv v (receive_type (across s) dims t g) (nb (nb a s) (across s)) (s + v * 6)).
      split.
      * apply ops_In. exists s, v. repeat (split; [assumption|]). right. split; [lia|reflexivity].
      * rewrite Hb, !Z.eqb_refl. now left.
Qed.

Lemma messages_len i m : nth_error (messages np ops_at) i = Some m -> length (m_stype m) = length (m_rtype m).
Proof.
  intros H. apply nth_error_In in H. apply messages_In in H.
  destruct H as (a & s & v & Ha & Hs & Hv & Hn & ->). cbn [m_stype m_rtype].
  assert (Hok : side_ok dims s) by (apply side_ok_iff; lia).
  pose proof (send_type_shift dims t g (across s) (side_ok_across dims s Hok)) as E.
  destruct (across_eq s ltac:(lia)) as (_ & _ & _ & _ & Ei). rewrite Ei in E.
  rewrite E. apply map_length.
Qed.

(** ** Cells *)
Variable n : cell.
Hypothesis Hn : forall k, 0 <= k < 3 -> 1 <= at3 n k.
Hypothesis Ht : forall k, 0 <= k < 3 -> at3 t k = if k <? dims then at3 n k + 2 * g else at3 n k.
Hypothesis Hflat : forall k, 0 <= k < 3 -> dims <= k -> at3 n k = 1.
Hypothesis Hg : forall k, 0 <= k < dims -> g <= at3 n k.
Hypothesis Hg0 : 0 <= g.

Lemma flat_t : flat_beyond dims t.
Proof.
  split; [|split].
  - intros k Hk. rewrite Ht by exact Hk. pose proof (Hn k Hk). destruct (k <? dims); lia.
  - intros H. rewrite Ht by lia. rewrite (proj2 (Z.ltb_ge _ _)) by lia. apply Hflat; lia.
  - intros H. rewrite Ht by lia. rewrite (proj2 (Z.ltb_ge _ _)) by lia. apply Hflat; lia.
Qed.
Lemma ghost_t k : 0 <= k < dims -> g <= at3 t k.
Proof. intros H. rewrite Ht by lia. rewrite (proj2 (Z.ltb_lt _ _)) by lia. pose proof (Hg k H). lia. Qed.

Notation inner := (S_Mpi.inner dims g n).
Notation opposite_cell := (S_Mpi.opposite_cell n).

Lemma inner_t c : inner c -> forall k, 0 <= k < 3 -> 0 <= at3 c k < at3 t k.
Proof.
  intros H k Hk. specialize (H k Hk). rewrite Ht by exact Hk. destruct (Z.ltb_spec k dims); lia.
Qed.

Lemma addr_inj c c' : (forall k, 0 <= k < 3 -> 0 <= at3 c k < at3 t k) ->
  (forall k, 0 <= k < 3 -> 0 <= at3 c' k < at3 t k) -> addr t c = addr t c' -> c = c'.
Proof.
  intros H H' E. destruct c as [[x y] z], c' as [[x' y'] z']. unfold addr in E.
  pose proof (H 0 ltac:(lia)). pose proof (H 1 ltac:(lia)). pose proof (H' 0 ltac:(lia)). pose proof (H' 1 ltac:(lia)).
  cbn [at3 Z.eqb Pos.eqb] in *. apply L_Base.index_inj in E; try assumption. destruct E as (-> & -> & ->). reflexivity.
Qed.

(** A receive on side [s] writes only ghost cells of that side. *)
Lemma cells_of_side s c : 0 <= s < 2 * dims -> cells_of s t g c ->
  if side_low s then at3 c (side_dir s) < g else g + at3 n (side_dir s) <= at3 c (side_dir s).
Proof.
  intros Hs (_ & H). unfold slab_lo in H.
  assert (Hd : 0 <= side_dir s < dims).
  { unfold side_dir. split; [apply Z.div_pos; lia|apply Z.div_lt_upper_bound; lia]. }
  rewrite Ht in H by lia. rewrite (proj2 (Z.ltb_lt _ _)) in H by lia.
  destruct (side_low s); lia.
Qed.

Lemma inner_not_target r v c : inner c -> ~ target (messages np ops_at) r v (addr t c).
Proof.
  intros Hc (i & m & k & Hm & _ & _ & Hk). apply nth_error_In in Hm. apply messages_In in Hm.
  destruct Hm as (a & s & w & Ha & Hs & Hw & Hb & ->). cbn [m_rtype] in Hk.
  apply nth_error_In in Hk.
  assert (Hok : side_ok dims (across s)) by (apply side_ok_across, side_ok_iff; lia).
  apply (receive_In dims t g (across s) _ Hok flat_t Hg0 ghost_t) in Hk.
  destruct Hk as (c' & Hc' & E). apply addr_inj in E; [|now apply inner_t|apply Hc'].
  subst c'. apply cells_of_side in Hc'; [|apply side_ok_iff; auto].
  assert (Hd : 0 <= side_dir (across s) < dims).
  { apply side_ok_iff in Hok; [|lia]. unfold side_dir.
    split; [apply Z.div_pos; lia|apply Z.div_lt_upper_bound; lia]. }
  specialize (Hc (side_dir (across s)) ltac:(lia)).
  rewrite (proj2 (Z.ltb_lt _ _)) in Hc by lia. destruct (side_low (across s)); lia.
Qed.

Lemma opposite_inner s c : face_ghost dims g n s c -> inner (opposite_cell s c).
Proof.
  intros (Hs & Hc & Ho) k Hk. unfold S_Mpi.opposite_cell.
  assert (Hd : 0 <= side_dir s < dims).
  { unfold side_dir. split; [apply Z.div_pos; lia|apply Z.div_lt_upper_bound; lia]. }
  rewrite at3_set3 by lia. destruct (Z.eqb_spec k (side_dir s)) as [->|N].
  - rewrite (proj2 (Z.ltb_lt _ _)) by lia. pose proof (Hg (side_dir s) Hd). destruct (side_low s); lia.
  - apply Ho; auto.
Qed.

Lemma addr_set3 c d a : 0 <= d < 3 -> addr t (set3 c d a) = addr t c + (a - at3 c d) * stride t d.
Proof.
  intros Hd. destruct c as [[x y] z]. k3case Hd; cbn; unfold index, stride; cbn [Z.eqb Pos.eqb]; ring.
Qed.

Lemma face_in_cells s c : face_ghost dims g n s c -> cells_of s t g c.
Proof.
  intros (Hs & Hc & Ho).
  assert (Hd : 0 <= side_dir s < dims).
  { unfold side_dir. split; [apply Z.div_pos; lia|apply Z.div_lt_upper_bound; lia]. }
  pose proof (Hn (side_dir s) ltac:(lia)) as N1.
  split.
  - intros k Hk. rewrite Ht by exact Hk. destruct (Z.eq_dec k (side_dir s)) as [->|N].
    + rewrite (proj2 (Z.ltb_lt _ _)) by lia. destruct (side_low s); lia.
    + specialize (Ho k Hk N). destruct (k <? dims); lia.
  - unfold slab_lo. rewrite Ht by lia. rewrite (proj2 (Z.ltb_lt _ _)) by lia. destruct (side_low s); lia.
Qed.

Lemma face_target r v s c : 0 <= r < np -> 0 <= v < nvars -> -1 < nb r s -> face_ghost dims g n s c ->
  target (messages np ops_at) r v (addr t c).
Proof.
  intros Hr Hv Hb Hc. assert (Hs : 0 <= s < 2 * dims) by apply Hc.
  destruct (Hsym r s Hr Hs Hb) as (Hr' & Hb').
  assert (Hok : side_ok dims s) by (apply side_ok_iff; lia).
  pose proof (side_ok_across dims s Hok) as Hoka. destruct (across_eq s ltac:(lia)) as (_ & _ & _ & _ & Ei).
  set (m := mkmsg (nb r s) v (send_type (across s) dims t g) r v (receive_type s dims t g) (across s + v * 6)).
  assert (Hm : In m (messages np ops_at)).
  { apply messages_In. exists (nb r s), (across s), v. split; [exact Hr'|].
    split; [apply side_ok_iff; auto|]. split; [exact Hv|]. rewrite Hb', Ei. split; [lia|reflexivity]. }
  apply In_nth_error in Hm. destruct Hm as (i & Hm).
  assert (Hp : In (addr t c) (receive_type s dims t g)).
  { apply (receive_In dims t g s _ Hok flat_t Hg0 ghost_t). exists c. split; [|reflexivity]. now apply face_in_cells. }
  apply In_nth_error in Hp. destruct Hp as (k & Hk).
  exists i, m, k. auto.
Qed.

Lemma face_brings {A} (m0 : memory A) r v s c : 0 <= r < np -> face_ghost dims g n s c ->
  brings (messages np ops_at) m0 r v (addr t c) (m0 (nb r s) v (addr t (opposite_cell s c))).
Proof.
  intros Hr Hc i m k Hm Hd Hv Hk. assert (Hs : 0 <= s < 2 * dims) by apply Hc.
  apply nth_error_In in Hm. apply messages_In in Hm.
  destruct Hm as (a & s' & w & Ha & Hs' & Hw & Hb & ->). cbn [m_dst m_rvar m_rtype m_stype m_src m_svar] in *.
  subst w. assert (Hok : side_ok dims s') by (apply side_ok_iff; lia).
  pose proof (side_ok_across dims s' Hok) as Hoka.
  assert (Hsa : 0 <= across s' < 2 * dims) by (apply side_ok_iff; auto).
  pose proof (send_type_shift dims t g (across s') Hoka) as Esh.
  destruct (across_eq s' ltac:(lia)) as (_ & _ & Eds & Els & Ei). rewrite Ei in Esh.
  pose proof Hk as Hin. apply nth_error_In in Hin.
  apply (receive_In dims t g (across s') _ Hoka flat_t Hg0 ghost_t) in Hin.
  destruct Hin as (c' & Hc' & E). apply addr_inj in E; [|apply (proj1 (face_in_cells s c Hc))|apply Hc'].
  subst c'. pose proof (cells_of_side (across s') c Hsa Hc') as Hside.
  (* the side is the one of the face *)
  assert (Es : across s' = s).
  { assert (Hd' : 0 <= side_dir (across s') < dims).
    { unfold side_dir. split; [apply Z.div_pos; lia|apply Z.div_lt_upper_bound; lia]. }
    assert (Ed : side_dir (across s') = side_dir s).
    { destruct (Z.eq_dec (side_dir (across s')) (side_dir s)) as [|N]; [assumption|exfalso].
      destruct Hc as (_ & _ & Ho). specialize (Ho (side_dir (across s')) ltac:(lia) N).
      rewrite (proj2 (Z.ltb_lt _ _)) in Ho by lia. destruct (side_low (across s')); lia. }
    destruct (side_split (across s') ltac:(lia)) as (_ & _ & _ & E1).
    destruct (side_split s ltac:(lia)) as (_ & _ & _ & E2).
    assert (El : side_low (across s') = side_low s).
    { destruct Hc as (_ & Hc & _). rewrite Ed in Hside. pose proof (Hn (side_dir s) ltac:(lia)).
      destruct (side_low (across s')), (side_low s); try reflexivity; lia. }
    rewrite E1, E2, Ed, El. reflexivity. }
  assert (Ea : a = nb r s).
  { destruct (Hsym a s' Ha Hs' Hb) as (_ & H). rewrite Hd, Es in H. now symmetry. }
  rewrite Es in *. exists (addr t (opposite_cell s c)).
  assert (Eaddr : addr t (opposite_cell s c) = addr t c + shift_of s t g).
  { assert (Hds : 0 <= side_dir s < dims).
    { unfold side_dir. split; [apply Z.div_pos; lia|apply Z.div_lt_upper_bound; lia]. }
    unfold S_Mpi.opposite_cell, shift_of. rewrite addr_set3 by lia. rewrite (Ht (side_dir s)) by lia.
    rewrite (proj2 (Z.ltb_lt _ _)) by lia. destruct (side_low s); ring. }
  split; [|split].
  - rewrite Esh, Eaddr. apply map_nth_error with (f := fun p => p + shift_of s t g). exact Hk.
  - apply inner_not_target. now apply opposite_inner.
  - now rewrite Ea.
Qed.

(** No receive on side [s] is posted without a neighbour there. *)
Lemma face_not_target r v s c : 0 <= r < np -> nb r s <= -1 -> face_ghost dims g n s c ->
  ~ target (messages np ops_at) r v (addr t c).
Proof.
  intros Hr Hnb Hc (i & m & k & Hm & Hd & Hv & Hk). assert (Hs : 0 <= s < 2 * dims) by apply Hc.
  destruct (face_brings (A := Z) (fun a _ _ => a) r v s c Hr Hc i m k Hm Hd Hv Hk) as (q & _ & _ & E).
  apply nth_error_In in Hm. apply messages_In in Hm.
  destruct Hm as (a & s' & w & Ha & Hs' & Hw & Hb & ->). cbn in E. lia.
Qed.

Theorem exchange_result {A} (m m' : memory A) : exchanged (messages np ops_at) m m' ->
  forall r v, 0 <= r < np -> 0 <= v < nvars ->
    (forall c, inner c -> m' r v (addr t c) = m r v (addr t c)) /\
    (forall s c, face_ghost dims g n s c -> -1 < nb r s ->
       m' r v (addr t c) = m (nb r s) v (addr t (opposite_cell s c))) /\
    (forall s c, face_ghost dims g n s c -> nb r s <= -1 -> m' r v (addr t c) = m r v (addr t c)).
Proof.
  intros H r v Hr Hv. split; [|split].
  - intros c Hc. apply (exchanged_keeps _ m m' r v _ H). now apply inner_not_target.
  - intros s c Hc Hb. apply (exchanged_brings _ m m' r v _ _ H).
    + now apply face_target with s.
    + now apply face_brings.
  - intros s c Hc Hb. apply (exchanged_keeps _ m m' r v _ H). now apply face_not_target with s.
Qed.
End Ops.

(** ** The processes of a decomposed grid *)
Lemma exchange_ops_ext dims g t nvars nb nb' : 1 <= dims <= 3 ->
  (forall s, 0 <= s < 2 * dims -> nb s = nb' s) ->
  exchange_ops dims g t nvars nb = exchange_ops dims g t nvars nb'.
Proof.
  intros Hd H. unfold exchange_ops. rewrite !flat_map_concat_map. f_equal.
  apply map_ext_in. intros s Hs. apply zrange_In in Hs. rewrite !flat_map_concat_map. f_equal.
  apply map_ext. intros v. unfold has_side.
  assert (0 <= opposite_side s < 2 * dims).
  { destruct (across_eq s ltac:(lia)) as (-> & _). apply side_ok_iff; [lia|].
    apply side_ok_across. apply side_ok_iff; lia. }
  now rewrite (H s), (H (opposite_side s)).
Qed.
Lemma flat_map_ext_in {A B} (f h : A -> list B) l : (forall a, In a l -> f a = h a) ->
  flat_map f l = flat_map h l.
Proof. intros H. rewrite !flat_map_concat_map. f_equal. now apply map_ext_in. Qed.
Lemma messages_ext np ops ops' : (forall r, 0 <= r < np -> ops r = ops' r) ->
  messages np ops = messages np ops'.
Proof.
  intros H. unfold messages. apply flat_map_ext_in. intros a Ha. apply zrange_In in Ha.
  rewrite (H a Ha). apply flat_map_ext_in. intros o _. destruct o as [v ty b t|]; [|reflexivity].
  destruct (Z.leb_spec 0 b); [|reflexivity]. destruct (Z.ltb_spec b np); [|reflexivity].
  cbn [andb]. rewrite (H b) by lia. reflexivity.
Qed.

Section World.
Variables (p : cell) (gr : grid) (junk : Z -> Z -> Z) (dims g nvars : Z).
Hypothesis Hfit : fits p (gr_cells gr) dims g.
Hypothesis Hbc : paired (gr_bc gr).
Notation n := (per3 p (gr_cells gr)).
Notation np := (processes p).
Definition nb_at (r s : Z) : Z := nb_of p (gr_bc gr) (get_coordinates r p) s.

Lemma n_per k : 0 <= k < 3 -> at3 n k = at3 (gr_cells gr) k / at3 p k.
Proof. apply at3_per3. Qed.
Lemma p_flat k : 0 <= k < 3 -> dims <= k -> at3 p k = 1.
Proof.
  destruct Hfit as (_ & _ & Hp & Hd & Hk). intros K1 K2. specialize (Hk k K1).
  rewrite (proj2 (Z.ltb_ge _ _)) in Hk by lia. pose proof (Hp k K1). pose proof (Hd k K1) as D.
  rewrite Hk in D. apply Z.divide_pos_le in D; lia.
Qed.
Lemma n_spec k : 0 <= k < 3 -> 1 <= at3 n k /\ (dims <= k -> at3 n k = 1) /\ (k < dims -> g <= at3 n k) /\ (0 < k < dims -> 2 <= at3 n k).
Proof.
  intros K. rewrite n_per by exact K. destruct Hfit as (_ & _ & Hp & _ & Hk). specialize (Hk k K).
  destruct (Z.ltb_spec k dims) as [L|L].
  - destruct (Z.eqb_spec k 0); lia.
  - rewrite (p_flat k K L), Hk. rewrite Z.div_1_r. lia.
Qed.
Lemma n_full k : 0 <= k < 3 -> at3 (gr_cells gr) k = at3 n k * at3 p k.
Proof.
  intros K. rewrite n_per by exact K. destruct Hfit as (_ & _ & Hp & Hd & _).
  pose proof (Hp k K). rewrite Z.mul_comm. apply Z_div_exact_full_2; [lia|].
  apply Z.mod_divide; [lia|]. now apply Hd.
Qed.
Lemma cells_pos k : 0 <= k < 3 -> 0 <= at3 (gr_cells gr) k.
Proof.
  intros K. rewrite n_full by exact K. destruct (n_spec k K). destruct Hfit as (_ & _ & Hp & _).
  pose proof (Hp k K). nia.
Qed.
Lemma act_dims : active_dimension (gr_cells gr) = dims.
Proof.
  destruct Hfit as (Hdm & _ & Hp & _). unfold active_dimension.
  rewrite (n_full 2), (n_full 1) by lia. destruct (n_spec 2 ltac:(lia)) as (A1 & A2 & _ & A3).
  destruct (n_spec 1 ltac:(lia)) as (B1 & B2 & _ & B3).
  pose proof (Hp 1 ltac:(lia)). pose proof (Hp 2 ltac:(lia)).
  assert (dims = 1 \/ dims = 2 \/ dims = 3) as [E|[E|E]] by lia.
  - rewrite A2, B2, (p_flat 1), (p_flat 2) by lia. change (1 * 1) with 1. rewrite Z.ltb_irrefl. lia.
  - rewrite (proj2 (Z.ltb_ge 1 (at3 n 2 * at3 p 2))) by (rewrite A2, (p_flat 2) by lia; lia).
    rewrite (proj2 (Z.ltb_lt 1 (at3 n 1 * at3 p 1))) by nia. lia.
  - rewrite (proj2 (Z.ltb_lt 1 (at3 n 2 * at3 p 2))) by nia. lia.
Qed.
Lemma vol_dims : volume_dimensions n = dims.
Proof.
  destruct Hfit as (Hdm & _ & Hp & _). unfold volume_dimensions.
  destruct (n_spec 2 ltac:(lia)) as (A1 & A2 & _ & A3).
  destruct (n_spec 1 ltac:(lia)) as (B1 & B2 & _ & B3).
  destruct (Z.eqb_spec (at3 n 1) 1) as [X1|X1]; [lia|]. destruct (Z.eqb_spec (at3 n 2) 1) as [X2|X2]; lia.
Qed.
Lemma vol_size k : 0 <= k < 3 ->
  at3 (volume_size n g) k = if k <? dims then at3 n k + 2 * g else at3 n k.
Proof.
  intros K. destruct Hfit as (Hdm & _ & Hp & _). pose proof (n_spec k K) as N.
  k3case K; unfold volume_size; cbn [at3 Z.eqb Pos.eqb]; [|fold (at3 n 1)|fold (at3 n 2)].
  - rewrite (proj2 (Z.ltb_lt _ _)) by lia. reflexivity.
  - destruct (Z.ltb_spec 1 dims); destruct (Z.ltb_spec 1 (at3 n 1)); lia.
  - destruct (Z.ltb_spec 2 dims); destruct (Z.ltb_spec 1 (at3 n 2)); lia.
Qed.

Lemma nb_sym a s : 0 <= a < np -> 0 <= s < 2 * dims -> -1 < nb_at a s ->
  0 <= nb_at a s < np /\ nb_at (nb_at a s) (across s) = a.
Proof.
  intros Ha Hs. destruct Hfit as (Hdm & _ & Hp & _).
  destruct (index_of_coords a p Hp Ha) as (G & E).
  unfold nb_at, nb_of. destruct (beyond p (gr_bc gr) (get_coordinates a p) s) as [q|] eqn:Eb; [|lia].
  intros _. assert (H6 : 0 <= s < 6) by lia. pose proof (beyond_in _ _ _ _ _ G H6 Eb) as Gq.
  split; [now apply index_range|]. rewrite (coords_of_index q p Gq).
  rewrite (beyond_sym _ _ _ _ _ Hbc G H6 Eb). exact E.
Qed.

Lemma world_eq r : 0 <= r < np ->
  world_ops p gr junk g nvars r = ops_at dims g nvars (volume_size n g) nb_at r.
Proof.
  intros Hr. destruct Hfit as (Hdm & _ & Hp & Hd & _).
  destruct (decompose_ok p gr r (junk r) Hp cells_pos Hd Hr) as (lg & nb & E & B).
  unfold world_ops. rewrite E. destruct B as (B1 & _ & _ & _ & _ & _ & B2 & _). rewrite B1, vol_dims.
  apply exchange_ops_ext; [exact Hdm|]. intros s Hs. rewrite act_dims in B2. apply B2. exact Hs.
Qed.
Lemma world_messages :
  messages np (world_ops p gr junk g nvars) = messages np (ops_at dims g nvars (volume_size n g) nb_at).
Proof. apply messages_ext. intros r Hr. now apply world_eq. Qed.
End World.

(** The same without a condition on the size of the blocks. *)
Section Any.
Variables (p : cell) (gr : grid) (junk : Z -> Z -> Z) (g nvars : Z).
Hypothesis Hp : positive3 p.
Hypothesis Hd : divides3 p (gr_cells gr).
Hypothesis Hc : forall k, 0 <= k < 3 -> 1 <= at3 (gr_cells gr) k.
Hypothesis Hbc : paired (gr_bc gr).
Notation n := (per3 p (gr_cells gr)).
Notation np := (processes p).
Definition vd : Z := volume_dimensions n.

Lemma any_full k : 0 <= k < 3 -> at3 (gr_cells gr) k = at3 n k * at3 p k /\ 1 <= at3 n k.
Proof.
  intros K. rewrite at3_per3 by exact K. pose proof (Hp k K). pose proof (Hc k K).
  assert (E : at3 (gr_cells gr) k = at3 p k * (at3 (gr_cells gr) k / at3 p k)).
  { apply Z_div_exact_full_2; [lia|]. apply Z.mod_divide; [lia|]. now apply Hd. }
  split; nia.
Qed.
Lemma vd_range : 1 <= vd <= 3.
Proof. unfold vd, volume_dimensions. destruct (_ =? 1); [lia|]. destruct (_ =? 1); lia. Qed.
Lemma vd_active : vd <= active_dimension (gr_cells gr).
Proof.
  unfold vd, volume_dimensions, active_dimension.
  destruct (any_full 1 ltac:(lia)) as (E1 & P1). destruct (any_full 2 ltac:(lia)) as (E2 & P2).
  pose proof (Hp 1 ltac:(lia)). pose proof (Hp 2 ltac:(lia)).
  destruct (Z.eqb_spec (at3 n 1) 1) as [Y|Y]; [destruct (1 <? _); [lia|]; destruct (1 <? _); lia|].
  destruct (Z.eqb_spec (at3 n 2) 1) as [X|X].
  - destruct (1 <? _); [lia|]. rewrite (proj2 (Z.ltb_lt 1 (at3 (gr_cells gr) 1))) by nia. lia.
  - rewrite (proj2 (Z.ltb_lt 1 (at3 (gr_cells gr) 2))) by nia. lia.
Qed.
Lemma any_sym a s : 0 <= a < np -> 0 <= s < 2 * vd -> -1 < nb_at p gr a s ->
  0 <= nb_at p gr a s < np /\ nb_at p gr (nb_at p gr a s) (across s) = a.
Proof.
  intros Ha Hs. pose proof vd_range.
  destruct (index_of_coords a p Hp Ha) as (G & E).
  unfold nb_at, nb_of. destruct (beyond p (gr_bc gr) (get_coordinates a p) s) as [q|] eqn:Eb; [|lia].
  intros _. assert (H6 : 0 <= s < 6) by lia. pose proof (beyond_in _ _ _ _ _ G H6 Eb) as Gq.
  split; [now apply index_range|]. rewrite (coords_of_index q p Gq).
  rewrite (beyond_sym _ _ _ _ _ Hbc G H6 Eb). exact E.
Qed.
Lemma any_eq r : 0 <= r < np ->
  world_ops p gr junk g nvars r = ops_at vd g nvars (volume_size n g) (nb_at p gr) r.
Proof.
  intros Hr.
  assert (C0 : forall k, 0 <= k < 3 -> 0 <= at3 (gr_cells gr) k) by (intros k Hk; specialize (Hc k Hk); lia).
  destruct (decompose_ok p gr r (junk r) Hp C0 Hd Hr) as (lg & nb & E & B).
  unfold world_ops. rewrite E. destruct B as (B1 & _ & _ & _ & _ & _ & B2 & _). rewrite B1.
  apply exchange_ops_ext; [exact vd_range|]. intros s Hs. apply B2. pose proof vd_active. lia.
Qed.
Lemma any_messages :
  messages np (world_ops p gr junk g nvars) = messages np (ops_at vd g nvars (volume_size n g) (nb_at p gr)).
Proof. apply messages_ext. intros r Hr. now apply any_eq. Qed.
End Any.

Lemma fits_divided p n dims g : fits p n dims g -> divided p n.
Proof.
  intros (Hdm & Hg & Hp & Hd & Hk). split; [exact Hp|]. split; [exact Hd|].
  intros k K. specialize (Hk k K). pose proof (Hp k K). destruct (k <? dims); [|lia].
  assert (1 <= at3 n k / at3 p k) by (destruct (k =? 0); lia).
  pose proof (Z.mul_div_le (at3 n k) (at3 p k)). nia.
Qed.
