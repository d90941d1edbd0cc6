(** The region split of the right hand side. *)
From Coq Require Import ZArith Reals List Bool Lia Lra.
From Verif Require Import M_Base M_Vec M_Boundary M_Flux S_Boundary S_Flux L_Base L_Loops L_Boundary L_Flux.
Import ListNotations.
Open Scope Z_scope.

Section Sys.
Context {V : cvars}.
Variables (dims g : Z) (fx : numflux V) (rc : recon V).
Hypothesis Hdims : 1 <= dims <= 3.
Hypothesis Hcomp : compatible fx rc g.

(** ** Locality *)
Lemma rec_at_ext d (u u' : cell -> V) c c' :
  (forall s, - (rec_ghosts rc - 1) <= s <= rec_ghosts rc - 1 -> u (move d s c) = u' (move d s c')) ->
  rec_at rc d u c = rec_at rc d u' c'.
Proof.
  intros H. unfold rec_at. f_equal. apply map_ext_in. intros s Hs.
  apply zrange_In in Hs. apply H. lia.
Qed.

Lemma iface_ext d (u u' : cell -> V) c c' :
  (forall s, - (g - 1) <= s <= g -> u (move d s c) = u' (move d s c')) ->
  iface fx rc d u c = iface fx rc d u' c'.
Proof.
  intros H. destruct Hcomp as [Hr Hf]. unfold iface. destruct fx as [f|st f].
  - rewrite (rec_at_ext d u u' c c') by (intros; apply H; lia).
    rewrite (rec_at_ext d u u' (move d 1 c) (move d 1 c')).
    + reflexivity.
    + intros s Hs. rewrite !move_move. apply H. lia.
  - rename Hf into Hst. f_equal. apply map_ext_in. intros s Hs.
    rewrite (rec_at_ext d u u' (move d s c) (move d s c')); [reflexivity|].
    intros t Ht. rewrite !move_move. apply H. specialize (Hst s Hs). lia.
Qed.

Lemma fold_left_ext_in {A B} (f h : A -> B -> A) l a :
  (forall a b, In b l -> f a b = h a b) -> fold_left f l a = fold_left h l a.
Proof.
  revert a. induction l as [|b l IH]; intros a H; simpl; [reflexivity|].
  rewrite H by now left. apply IH. intros. apply H. now right.
Qed.

Lemma rhs_ext (u u' : cell -> V) c c' :
  (forall d s, 0 <= d < dims -> - g <= s <= g -> u (move d s c) = u' (move d s c')) ->
  rhs dims fx rc u c = rhs dims fx rc u' c'.
Proof.
  intros H. unfold rhs. apply fold_left_ext_in. intros a d Hd. apply zrange_In in Hd.
  rewrite (iface_ext d u u' c c') by (intros; apply H; lia).
  rewrite (iface_ext d u u' (move d (-1) c) (move d (-1) c')); [reflexivity|].
  intros s Hs. rewrite !move_move. apply H; lia.
Qed.

Notation ng := (ghost dims g).

(** Interior region of a volume. *)
Definition int_lo (k : Z) : Z := ng k.
Definition int_hi (u : vol V) (k : Z) : Z := total u k - ng k.
Definition fits (u : vol V) : Prop :=
  forall k, dir k -> 3 * ng k <= total u k.

Definition inner_lo (k : Z) : Z := 2 * ng k.
Definition inner_hi (u : vol V) (k : Z) : Z := total u k - 2 * ng k.
Definition bot_lo (k : Z) : Z := ng k.
Definition bot_hi (u : vol V) (d k : Z) : Z := if k =? d then 2 * ng d else total u k - ng k.
Definition top_lo (u : vol V) (d k : Z) : Z := if k =? d then total u d - 2 * ng d else ng k.
Definition top_hi (u : vol V) (k : Z) : Z := total u k - ng k.

Lemma ng_nonneg k : 0 <= ng k.
Proof. unfold ghost. destruct Hcomp. destruct (_ <? _); lia. Qed.

Lemma cover (u : vol V) c :
  fits u -> inreg int_lo (int_hi u) c = true ->
  inreg inner_lo (inner_hi u) c = true \/
  exists d, 0 <= d < dims /\
    (inreg bot_lo (bot_hi u d) c = true \/ inreg (top_lo u d) (top_hi u) c = true).
Proof.
  intros Hf Hc. rewrite inreg_iff in Hc.
  assert (H : forall k, dir k -> dims <= k \/ (k < dims /\
     (coord k c < 2 * ng k \/ total u k - 2 * ng k <= coord k c \/
      2 * ng k <= coord k c < total u k - 2 * ng k))) by (intros; lia).
  assert (B : forall k, dir k -> k < dims -> coord k c < 2 * ng k ->
     inreg bot_lo (bot_hi u k) c = true).
  { intros k Hk Hlt Hb. apply inreg_iff. intros j Hj. specialize (Hc j Hj).
    unfold bot_lo, bot_hi, int_lo, int_hi in *. destruct (Z.eqb_spec j k) as [->|]; lia. }
  assert (T : forall k, dir k -> k < dims -> total u k - 2 * ng k <= coord k c ->
     inreg (top_lo u k) (top_hi u) c = true).
  { intros k Hk Hlt Hb. apply inreg_iff. intros j Hj. specialize (Hc j Hj).
    unfold top_lo, top_hi, int_lo, int_hi in *. destruct (Z.eqb_spec j k) as [->|]; lia. }
  assert (I : forall k, dir k -> dims <= k -> 2 * ng k <= coord k c < total u k - 2 * ng k).
  { intros k Hk Hge. specialize (Hc k Hk). unfold int_lo, int_hi in Hc. revert Hc. unfold ghost.
    destruct (Z.ltb_spec k dims); lia. }
  assert (D0 : dir 0) by (unfold dir; auto). assert (D1 : dir 1) by (unfold dir; auto).
  assert (D2 : dir 2) by (unfold dir; auto).
  destruct (H 0 D0) as [?|[L0 [?|[?|?]]]]; [lia| | |].
  1,2: right; exists 0; split; [lia|]; auto.
  destruct (H 1 D1) as [?|[L1 [?|[?|?]]]].
  2,3: right; exists 1; split; [lia|]; auto.
  - left. apply inreg_iff. intros k Hk. unfold inner_lo, inner_hi.
    assert (Hk' : k = 0 \/ dims <= k) by (unfold dir in Hk; lia).
    destruct Hk' as [->|]; auto.
  - destruct (H 2 D2) as [?|[L2 [?|[?|?]]]].
    2,3: right; exists 2; split; [lia|]; auto.
    + left. apply inreg_iff. intros k Hk. unfold inner_lo, inner_hi.
      dcase Hk; auto.
    + left. apply inreg_iff. intros k Hk. unfold inner_lo, inner_hi.
      dcase Hk; auto.
Qed.

Lemma reg_ok_inner u : fits u -> reg_ok (V := V) dims g u inner_lo (inner_hi u).
Proof.
  intros Hf k Hk. specialize (Hf k Hk). pose proof (ng_nonneg k).
  unfold inner_lo, inner_hi. lia.
Qed.
Lemma reg_ok_bot u d : fits u -> reg_ok (V := V) dims g u bot_lo (bot_hi u d).
Proof.
  intros Hf k Hk. specialize (Hf k Hk). pose proof (ng_nonneg k).
  unfold bot_lo, bot_hi. destruct (Z.eqb_spec k d) as [->|]; lia.
Qed.
Lemma reg_ok_top u d : fits u -> reg_ok (V := V) dims g u (top_lo u d) (top_hi u).
Proof.
  intros Hf k Hk. specialize (Hf k Hk). pose proof (ng_nonneg k).
  unfold top_lo, top_hi. destruct (Z.eqb_spec k d) as [->|]; lia.
Qed.

Lemma inner_in_interior u c : inreg inner_lo (inner_hi u) c = true ->
  inreg int_lo (int_hi u) c = true.
Proof.
  rewrite !inreg_iff. intros H k Hk. specialize (H k Hk). pose proof (ng_nonneg k).
  unfold inner_lo, inner_hi, int_lo, int_hi in *. lia.
Qed.

Lemma interior_inr (u : vol V) c : inreg int_lo (int_hi u) c = true -> inr u c.
Proof.
  rewrite inreg_iff, inr_iff. intros H k Hk. specialize (H k Hk). pose proof (ng_nonneg k).
  unfold int_lo, int_hi in *. lia.
Qed.

(** Cells of the inner region only read interior cells. *)
Lemma inner_reads (u : vol V) c d s :
  inreg inner_lo (inner_hi u) c = true -> 0 <= d < dims -> - g <= s <= g ->
  inreg int_lo (int_hi u) (move d s c) = true.
Proof.
  rewrite !inreg_iff. intros H Hd Hs k Hk.
  assert (Dd : dir d) by (unfold dir; lia).
  rewrite coord_move by auto. specialize (H k Hk). pose proof (ng_nonneg k).
  unfold inner_lo, inner_hi, int_lo, int_hi in *.
  destruct (Z.eqb_spec k d) as [->|]; [|lia].
  assert (ng d = g) by (unfold ghost; destruct (Z.ltb_spec d dims); lia). lia.
Qed.

(** Wave speed of a list of interfaces. *)
Definition speeds (d : Z) (u : cell -> V) (l : list cell) (w : R) : R :=
  fold_left (fun w c => Rmax w (snd (iface fx rc d u c))) l w.

Lemma speeds_ge d u l w : (w <= speeds d u l w)%R /\
  forall c, In c l -> (snd (iface fx rc d u c) <= speeds d u l w)%R.
Proof.
  revert w. induction l as [|a l IH]; intros w; simpl.
  - split; [apply Rle_refl|intros ? []].
  - destruct (IH (Rmax w (snd (iface fx rc d u a)))) as [H1 H2]. split.
    + eapply Rle_trans; [|exact H1]. apply Rmax_l.
    + intros c [<-|Hc]; [|auto]. eapply Rle_trans; [|exact H1]. apply Rmax_r.
Qed.

Lemma speeds_attained d u l w : speeds d u l w = w \/
  exists c, In c l /\ speeds d u l w = snd (iface fx rc d u c).
Proof.
  revert w. induction l as [|a l IH]; intros w; simpl; [now left|].
  destruct (IH (Rmax w (snd (iface fx rc d u a)))) as [H|(c & Hc & H)].
  - unfold speeds in H |- *. rewrite H. unfold Rmax. destruct (Rle_dec w _).
    + right. exists a. auto.
    + now left.
  - right. exists c. auto.
Qed.

(** A wave speed is correct for a region when it bounds the speed at all its
    interfaces, and is 0 or attained at an interface inside the volume. *)
Definition iface_of (lo hi : Z -> Z) (d : Z) (c : cell) : Prop :=
  forall k, dir k -> lo k - unit_ d k <= coord k c < hi k.

Lemma ifaces_iff lo hi d c : In c (ifaces lo hi d) <-> iface_of lo hi d c.
Proof.
  unfold ifaces, iface_of. rewrite <- inbox_In.
  change (inbox _ _ _ _ _ _ c) with (inreg (fun k => lo k - unit_ d k) hi c).
  apply inreg_iff.
Qed.

Lemma max_speed_spec lo hi d u :
  (0 <= max_speed fx rc lo hi d u)%R /\
  (forall c, iface_of lo hi d c -> (snd (iface fx rc d u c) <= max_speed fx rc lo hi d u)%R) /\
  (max_speed fx rc lo hi d u = 0%R \/
   exists c, iface_of lo hi d c /\ max_speed fx rc lo hi d u = snd (iface fx rc d u c)).
Proof.
  unfold max_speed. destruct (speeds_ge d u (ifaces lo hi d) 0) as [H1 H2].
  split; [exact H1|]. split.
  - intros c Hc. apply H2. now apply ifaces_iff.
  - destruct (speeds_attained d u (ifaces lo hi d) 0) as [H|(c & Hc & H)]; [now left|].
    right. exists c. split; auto. now apply ifaces_iff.
Qed.


(** The interfaces of the whole interior are covered by the regions. *)
Lemma cover_iface (u : vol V) e c :
  fits u -> 0 <= e < dims -> iface_of int_lo (int_hi u) e c ->
  iface_of inner_lo (inner_hi u) e c \/
  exists d, 0 <= d < dims /\
    (iface_of bot_lo (bot_hi u d) e c \/ iface_of (top_lo u d) (top_hi u) e c).
Proof.
  intros Hf He Hc.
  assert (De : dir e) by (unfold dir; lia).
  assert (Hu : forall k, dir k -> unit_ e k = if k =? e then 1 else 0).
  { intros k _. unfold unit_. rewrite Z.eqb_sym. destruct (k =? e); reflexivity. }
  assert (H : forall k, dir k -> dims <= k \/ (k < dims /\
     (coord k c < 2 * ng k \/ total u k - 2 * ng k <= coord k c \/
      2 * ng k <= coord k c < total u k - 2 * ng k))) by (intros; lia).
  assert (B : forall k, dir k -> k < dims -> coord k c < 2 * ng k ->
     iface_of bot_lo (bot_hi u k) e c).
  { intros k Hk Hlt Hb j Hj. specialize (Hc j Hj). specialize (Hf j Hj).
    unfold bot_lo, bot_hi, int_lo, int_hi in *. destruct (Z.eqb_spec j k) as [->|]; lia. }
  assert (T : forall k, dir k -> k < dims -> total u k - 2 * ng k <= coord k c ->
     iface_of (top_lo u k) (top_hi u) e c).
  { intros k Hk Hlt Hb j Hj. specialize (Hc j Hj). rewrite (Hu j Hj) in *.
    unfold top_lo, top_hi, int_lo, int_hi in *.
    destruct (j =? e); destruct (Z.eqb_spec j k) as [->|]; lia. }
  assert (I : forall k, dir k -> dims <= k ->
      2 * ng k - unit_ e k <= coord k c < total u k - 2 * ng k).
  { intros k Hk Hge. specialize (Hc k Hk). unfold int_lo, int_hi in Hc. revert Hc. unfold ghost.
    rewrite (Hu k Hk). destruct (Z.eqb_spec k e); [lia|].
    destruct (Z.ltb_spec k dims); lia. }
  assert (P : forall k, dir k -> 0 <= unit_ e k) by (intros k Hk; rewrite (Hu k Hk); destruct (k =? e); lia).
  assert (D0 : dir 0) by (unfold dir; auto). assert (D1 : dir 1) by (unfold dir; auto).
  assert (D2 : dir 2) by (unfold dir; auto).
  pose proof (P 0 D0). pose proof (P 1 D1). pose proof (P 2 D2).
  destruct (H 0 D0) as [?|[L0 [?|[?|?]]]]; [lia| | |].
  1,2: right; exists 0; split; [lia|]; auto.
  destruct (H 1 D1) as [?|[L1 [?|[?|?]]]].
  2,3: right; exists 1; split; [lia|]; auto.
  - left. intros k Hk. unfold inner_lo, inner_hi.
    assert (Hk' : k = 0 \/ dims <= k) by (unfold dir in Hk; lia).
    destruct Hk' as [->|]; auto. lia.
  - destruct (H 2 D2) as [?|[L2 [?|[?|?]]]].
    2,3: right; exists 2; split; [lia|]; auto.
    + left. intros k Hk. unfold inner_lo, inner_hi.
      dcase Hk; auto; lia.
    + left. intros k Hk. unfold inner_lo, inner_hi.
      dcase Hk; auto; lia.
Qed.

Lemma region_iface_interior (u : vol V) e lo hi c :
  (forall k, dir k -> ng k <= lo k /\ hi k <= total u k - ng k) ->
  iface_of lo hi e c -> iface_of int_lo (int_hi u) e c.
Proof.
  intros H Hc k Hk. specialize (H k Hk). specialize (Hc k Hk).
  unfold int_lo, int_hi. lia.
Qed.

(** Value of [ng] in the extents of the volume. *)
Definition bound_speed (u : vol V) (w : Z -> R) : Prop :=
  forall e, 0 <= e < dims ->
    (0 <= w e)%R /\
    (forall c, iface_of int_lo (int_hi u) e c -> (snd (iface fx rc e (vget u) c) <= w e)%R) /\
    (w e = 0%R \/ exists c, iface_of int_lo (int_hi u) e c /\ w e = snd (iface fx rc e (vget u) c)).

Lemma system_flux_spec exchange (u u' : vol V) (s : fstate V) :
  fits u -> st_dims u s ->
  exchange u = Ok u' -> same_dims u u' ->
  (forall c, inreg int_lo (int_hi u) c = true -> vget u' c = vget u c) ->
  exists s', system_flux dims g fx rc exchange u s = Ok (u', s') /\ st_dims u s' /\
    (forall c, inr u c -> vget (f_out s') c =
       if inreg int_lo (int_hi u) c then rhs dims fx rc (vget u') c else vget (f_out s) c) /\
    bound_speed u' (f_speed s').
Proof.
  intros Hf Hs Hex Du Hag.
  assert (Hf' : fits u').
  { intros k Hk. rewrite <- (total_same u u') by exact Du. auto. }
  assert (Tot : forall k, total u' k = total u k) by (intros; symmetry; apply total_same; exact Du).
  unfold system_flux.
  destruct (compute_flux_spec dims g fx rc Hdims Hcomp u
     (mkfstate (f_left s) (f_right s) (f_temp s) (f_out s) (f_speed s))
     ng (fun k => - ng k) inner_lo (inner_hi u)) as (s1 & E1 & D1 & W1 & S1 & _).
  { intros. unfold inner_lo. lia. }
  { intros. unfold inner_hi. lia. }
  { apply reg_ok_inner. exact Hf. }
  { exact Hs. }
  rewrite E1. cbn [bind]. rewrite Hex. cbn [bind].
  match goal with |- exists q, bind (for_ _ _ ?B ?s0) _ = _ /\ _ =>
    destruct (for_inv (fun j (st : fstate V * (Z -> R)) =>
       st_dims u (fst st) /\
       (forall c, inr u c ->
          (inreg inner_lo (inner_hi u) c = true \/
           (exists d, 0 <= d < j /\ (inreg bot_lo (bot_hi u d) c = true \/
                                     inreg (top_lo u d) (top_hi u) c = true)) ->
           vget (f_out (fst st)) c = rhs dims fx rc (vget u') c) /\
          (inreg int_lo (int_hi u) c = false -> vget (f_out (fst st)) c = vget (f_out s) c)) /\
       (forall e, 0 <= e < dims ->
          (0 <= snd st e)%R /\
          (forall d c, 0 <= d < j -> iface_of bot_lo (bot_hi u d) e c \/ iface_of (top_lo u d) (top_hi u) e c ->
             (snd (iface fx rc e (vget u') c) <= snd st e)%R) /\
          (snd st e = 0%R \/ exists c, iface_of int_lo (int_hi u) e c /\ snd st e = snd (iface fx rc e (vget u') c))))
      0 dims B s0) as (r & Er & Dr & Wr & Sr) end.
  - lia.
  - split; [exact D1|]. split.
    + intros c Hc. split.
      * intros [H|(d & Hd & _)]; [|lia]. cbn [fst]. rewrite W1 by exact Hc. rewrite H.
        apply rhs_ext. intros d t Hd Ht. symmetry. apply Hag. now apply inner_reads.
      * intros H. cbn [fst]. rewrite W1 by exact Hc.
        destruct (inreg inner_lo (inner_hi u) c) eqn:Ei; [|reflexivity].
        apply inner_in_interior in Ei. congruence.
    + intros e He. cbn [snd]. split; [lra|]. split; [intros; lia|now left].
  - intros d [s2 w2] Hd (D2 & W2 & S2). cbn [fst snd] in *.
    assert (T2 : forall k, total (f_out s2) k = total u k).
    { intros. symmetry. apply total_same. apply D2. }
    assert (Dd : dir d) by (unfold dir; lia).
    destruct (compute_flux_spec dims g fx rc Hdims Hcomp u'
      (mkfstate (f_left s2) (f_right s2) (f_temp s2) (f_out s2) (fun _ => 0%R))
      (fun _ => 0) (fun k => if k =? d then - total (f_out s2) d + 3 * ng d else 0)
      bot_lo (bot_hi u d)) as (sb & Eb & Db & Wb & Sb & _).
    { intros. unfold bot_lo. lia. }
    { intros k Hk. unfold bot_hi. rewrite T2, Tot. destruct (Z.eqb_spec k d) as [->|]; lia. }
    { intros k Hk. rewrite Tot. apply reg_ok_bot; auto. }
    { destruct D2 as (Q1 & Q2 & Q3 & Q4). unfold st_dims. cbn [f_left f_right f_temp f_out].
      split; [|split; [|split]]; sd. }
    rewrite Eb. cbn [bind].
    destruct (compute_flux_spec dims g fx rc Hdims Hcomp u'
      (mkfstate (f_left sb) (f_right sb) (f_temp sb) (f_out sb) (fun _ => 0%R))
      (fun k => if k =? d then total (f_out s2) d - 3 * ng d else 0) (fun _ => 0)
      (top_lo u d) (top_hi u)) as (stp & Et & Dt & Wt & St & _).
    { intros k Hk. unfold top_lo. rewrite T2. destruct (Z.eqb_spec k d) as [->|]; lia. }
    { intros. unfold top_hi. rewrite Tot. lia. }
    { intros k Hk. rewrite Tot. apply reg_ok_top; auto. }
    { exact Db. }
    rewrite Et. cbn [bind]. eexists. split; [reflexivity|]. cbn [fst snd].
    split; [destruct Dt as (Q1 & Q2 & Q3 & Q4); split; [|split; [|split]]; sd|]. split.
    + intros c Hc. rewrite Wt by (eapply inr_same; eauto). cbn [f_out].
      rewrite Wb by (eapply inr_same; eauto). cbn [f_out].
      destruct (W2 c Hc) as [Wa Wn]. split.
      * intros H.
        destruct (inreg (top_lo u d) (top_hi u) c) eqn:Ea; [reflexivity|].
        destruct (inreg bot_lo (bot_hi u d) c) eqn:Ebb; [reflexivity|].
        apply Wa. destruct H as [H|(d' & Hd' & H)]; [now left|].
        right. exists d'. split; [|exact H].
        assert (d' <> d); [|lia]. intros ->. destruct H; congruence.
      * intros H.
        assert (X : inreg (top_lo u d) (top_hi u) c = false).
        { destruct (inreg (top_lo u d) (top_hi u) c) eqn:Ea; [|reflexivity]. exfalso.
          assert (inreg int_lo (int_hi u) c = true); [|congruence].
          rewrite inreg_iff in *. intros k Hk. specialize (Ea k Hk).
          pose proof (reg_ok_top u d Hf k Hk). unfold int_lo, int_hi. lia. }
        assert (Y : inreg bot_lo (bot_hi u d) c = false).
        { destruct (inreg bot_lo (bot_hi u d) c) eqn:Ea; [|reflexivity]. exfalso.
          assert (inreg int_lo (int_hi u) c = true); [|congruence].
          rewrite inreg_iff in *. intros k Hk. specialize (Ea k Hk).
          pose proof (reg_ok_bot u d Hf k Hk). unfold int_lo, int_hi. lia. }
        rewrite X, Y. apply Wn. exact H.
    + intros e He. destruct (S2 e He) as (Pe & Ue & Ae).
      unfold speed_max. rewrite (Sb e He), (St e He).
      destruct (max_speed_spec bot_lo (bot_hi u d) e (vget u')) as (Pb & Ub & Ab).
      destruct (max_speed_spec (top_lo u d) (top_hi u) e (vget u')) as (Pt & Ut & At).
      set (mb := max_speed fx rc bot_lo (bot_hi u d) e (vget u')) in *.
      set (mt := max_speed fx rc (top_lo u d) (top_hi u) e (vget u')) in *.
      pose proof (Rmax_l (Rmax (w2 e) mb) mt). pose proof (Rmax_r (Rmax (w2 e) mb) mt).
      pose proof (Rmax_l (w2 e) mb). pose proof (Rmax_r (w2 e) mb).
      split; [lra|]. split.
      * intros d' c Hd' Hc. destruct (Z.eq_dec d' d) as [->|].
        -- destruct Hc as [Hc|Hc]; [specialize (Ub c Hc)|specialize (Ut c Hc)]; lra.
        -- specialize (Ue d' c ltac:(lia) Hc). lra.
      * assert (Q : Rmax (Rmax (w2 e) mb) mt = w2 e \/ Rmax (Rmax (w2 e) mb) mt = mb
                    \/ Rmax (Rmax (w2 e) mb) mt = mt).
        { unfold Rmax. repeat destruct (Rle_dec _ _); auto. }
        destruct Q as [->|[->| ->]].
        -- exact Ae.
        -- destruct Ab as [Ab|(c & Hc & Ab)]; [now left|]. right. exists c. split; auto.
           eapply region_iface_interior; [|exact Hc]. apply reg_ok_bot. exact Hf.
        -- destruct At as [At|(c & Hc & At)]; [now left|]. right. exists c. split; auto.
           eapply region_iface_interior; [|exact Hc]. apply reg_ok_top. exact Hf.
  - rewrite Er. cbn [bind]. eexists. split; [reflexivity|]. cbn [f_out f_speed].
    split; [exact Dr|]. split.
    + intros c Hc. destruct (Wr c Hc) as [Wa Wn].
      destruct (inreg int_lo (int_hi u) c) eqn:Ei; [|auto].
      apply Wa. apply cover; auto.
    + intros e He. destruct (Sr e He) as (Pe & Ue & Ae).
      destruct (max_speed_spec inner_lo (inner_hi u) e (vget u)) as (Pi & Ui & Ai).
      unfold speed_max. rewrite (S1 e He).
      set (mi := max_speed fx rc inner_lo (inner_hi u) e (vget u)) in *.
      pose proof (Rmax_l mi (snd r e)). pose proof (Rmax_r mi (snd r e)).
      assert (Ext : forall c, iface_of inner_lo (inner_hi u) e c ->
         iface fx rc e (vget u) c = iface fx rc e (vget u') c).
      { intros c Hc. apply iface_ext. intros t Ht. symmetry. apply Hag.
        rewrite inreg_iff. intros k Hk. rewrite coord_move by (auto; unfold dir; lia).
        specialize (Hc k Hk). unfold inner_lo, inner_hi, int_lo, int_hi, unit_ in *.
        pose proof (ng_nonneg k). rewrite Z.eqb_sym in Hc. destruct (Z.eqb_spec k e) as [Eke|]; cbn [b2z] in Hc; [rewrite Eke in *|lia].
        assert (ng e = g) by (unfold ghost; destruct (Z.ltb_spec e dims); lia). lia. }
      assert (Ihi : forall k, int_hi u' k = int_hi u k) by (intros; unfold int_hi; now rewrite Tot).
      split; [lra|]. split.
      * intros c Hc.
        assert (Hc' : iface_of int_lo (int_hi u) e c).
        { intros k Hk. specialize (Hc k Hk). rewrite Ihi in Hc. exact Hc. }
        destruct (cover_iface u e c Hf He Hc') as [Hi|(d & Hd & Hi)].
        -- specialize (Ui c Hi). rewrite Ext in Ui by exact Hi. lra.
        -- specialize (Ue d c Hd Hi). lra.
      * assert (Q : Rmax mi (snd r e) = mi \/ Rmax mi (snd r e) = snd r e).
        { unfold Rmax. destruct (Rle_dec _ _); auto. }
        destruct Q as [->| ->].
        -- destruct Ai as [Ai|(c & Hc & Ai)]; [now left|]. right. exists c. split.
           ++ pose proof (region_iface_interior u e _ _ c (reg_ok_inner u Hf) Hc) as Z0.
              intros k Hk. rewrite Ihi. exact (Z0 k Hk).
           ++ rewrite Ai. now rewrite Ext.
        -- destruct Ae as [Ae|(c & Hc & Ae)]; [now left|]. right. exists c. split; auto.
           intros k Hk. rewrite Ihi. now apply Hc.
Qed.

End Sys.
