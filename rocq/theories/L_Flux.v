(** Closed forms of the flux loops. *)
From Coq Require Import ZArith Reals List Bool Lia Lra.
From Verif Require Import M_Base M_Vec M_Boundary M_Flux S_Boundary S_Flux L_Base L_Loops L_Boundary.
Import ListNotations.
Open Scope Z_scope.

Definition dir (d : Z) : Prop := d = 0 \/ d = 1 \/ d = 2.
Definition coord (k : Z) (c : cell) : Z :=
  let '(x, y, z) := c in if k =? 0 then x else if k =? 1 then y else z.

Ltac pteq := repeat match goal with |- (_, _) = (_, _) => apply f_equal2 end; try reflexivity; try lia.
Ltac sd := solve [repeat match goal with H : same_dims _ _ |- _ =>
  let A := fresh in let B := fresh in let C := fresh in destruct H as (A & B & C) end;
  split; [congruence|split; congruence]].
Ltac dcase Hd := destruct Hd as [->|[->| ->]].

Lemma move_unit d s x y z : dir d ->
  (x + unit_ d 0 * s, y + unit_ d 1 * s, z + unit_ d 2 * s) = move d s (x, y, z).
Proof. intros Hd. dcase Hd; simpl; unfold unit_; cbn [Z.eqb b2z Pos.eqb]; pteq. Qed.

Lemma move_unit1 d x y z : dir d ->
  (x + unit_ d 0, y + unit_ d 1, z + unit_ d 2) = move d 1 (x, y, z).
Proof. intros Hd. dcase Hd; simpl; unfold unit_; cbn [Z.eqb b2z Pos.eqb]; pteq. Qed.

Lemma coord_move d s k c : dir d -> dir k ->
  coord k (move d s c) = coord k c + (if k =? d then s else 0).
Proof.
  intros Hd Hk. destruct c as [[x y] z]. dcase Hd; dcase Hk; simpl; lia.
Qed.

Lemma move_move d s t c : move d s (move d t c) = move d (t + s) c.
Proof.
  destruct c as [[x y] z]. unfold move.
  destruct (d =? 0); [|destruct (d =? 1)]; pteq.
Qed.
Lemma move_0 d c : move d 0 c = c.
Proof.
  destruct c as [[x y] z]. unfold move.
  destruct (d =? 0); [|destruct (d =? 1)]; pteq.
Qed.

Definition inreg (lo hi : Z -> Z) (c : cell) : bool :=
  inbox (lo 2) (hi 2) (lo 1) (hi 1) (lo 0) (hi 0) c.
Lemma inreg_iff lo hi c : inreg lo hi c = true <->
  forall k, dir k -> lo k <= coord k c < hi k.
Proof.
  unfold inreg. destruct c as [[x y] z]. rewrite inbox_iff. split.
  - intros H k Hk. dcase Hk; simpl; lia.
  - intros H. pose proof (H 0 ltac:(unfold dir; auto)). pose proof (H 1 ltac:(unfold dir; auto)).
    pose proof (H 2 ltac:(unfold dir; auto)). simpl in *. lia.
Qed.

Lemma inr_iff {A} (v : vol A) c : inr v c <-> forall k, dir k -> 0 <= coord k c < total v k.
Proof.
  destruct c as [[x y] z]. unfold inr. split.
  - intros H k Hk. dcase Hk; unfold total; simpl; lia.
  - intros H. pose proof (H 0 ltac:(unfold dir; auto)). pose proof (H 1 ltac:(unfold dir; auto)).
    pose proof (H 2 ltac:(unfold dir; auto)). unfold total in *. simpl in *. lia.
Qed.

Lemma total_same {A B} (v : vol A) (w : vol B) k : same_dims v w -> total v k = total w k.
Proof. intros (H1 & H2 & H3). unfold total. now rewrite H1, H2, H3. Qed.

Lemma map_res_ok {A B} (f : A -> res B) (h : A -> B) l :
  (forall a, In a l -> f a = Ok (h a)) -> map_res f l = Ok (map h l).
Proof.
  induction l as [|a l IH]; intros H; simpl; [reflexivity|].
  rewrite H by now left. simpl. rewrite IH; [reflexivity|]. intros. apply H. now right.
Qed.

Lemma vload_move {A} (v : vol A) d s x y z : dir d ->
  inr v (move d s (x, y, z)) ->
  vload v (x + unit_ d 0 * s) (y + unit_ d 1 * s) (z + unit_ d 2 * s) =
  Ok (vget v (move d s (x, y, z))).
Proof.
  intros Hd H. rewrite <- move_unit in * by exact Hd. now apply vload_ok.
Qed.
Lemma vload_move1 {A} (v : vol A) d x y z : dir d ->
  inr v (move d 1 (x, y, z)) ->
  vload v (x + unit_ d 0) (y + unit_ d 1) (z + unit_ d 2) =
  Ok (vget v (move d 1 (x, y, z))).
Proof.
  intros Hd H. rewrite <- move_unit1 in * by exact Hd. now apply vload_ok.
Qed.

Section F.
Context {V : cvars}.
Variables (dims g : Z) (fx : numflux V) (rc : recon V).
Hypothesis Hdims : 1 <= dims <= 3.
Hypothesis Hcomp : compatible fx rc g.

Notation ng := (ghost dims g).

(** A region inside the interior of [u]. *)
Definition reg_ok (u : vol V) (lo hi : Z -> Z) : Prop :=
  forall k, dir k -> ng k <= lo k /\ hi k <= total u k - ng k.

Lemma reconstruct_spec d (u left right : vol V) start fin lo hi :
  dir d -> d < dims ->
  (forall k, dir k -> lo k = ng k + start k) ->
  (forall k, dir k -> hi k = total u k - ng k + fin k) ->
  reg_ok u lo hi -> same_dims u left -> same_dims u right ->
  exists left' right',
    reconstruct dims rc d u left right start fin = Ok (left', right') /\
    same_dims u left' /\ same_dims u right' /\
    (forall c, (forall k, dir k -> lo k - unit_ d k <= coord k c < hi k + unit_ d k) ->
       vget left' c = fst (rec_at rc d (vget u) c) /\
       vget right' c = snd (rec_at rc d (vget u) c)) /\
    (forall c, (forall k, dir k -> lo k - unit_ d k * (g - rec_ghosts rc + 1) <= coord k c
                                 < hi k + unit_ d k * (g - rec_ghosts rc + 1)) ->
       vget left' c = fst (rec_at rc d (vget u) c) /\
       vget right' c = snd (rec_at rc d (vget u) c)).
Proof.
  intros Hd Hlt Hlo Hhi Hreg Dl Dr.
  destruct Hcomp as [Hr _]. unfold reconstruct.
  set (r := rec_ghosts rc) in *.
  set (lo' := fun k => if rec_all rc then unit_ d k * (r - 1)
              else (ghost dims r k - unit_ d k) + start k).
  set (hi' := fun k => if rec_all rc then total u k - unit_ d k * (r - 1)
              else total u k - (ghost dims r k - unit_ d k) + fin k).
  assert (Hk : forall k, dir k -> 0 <= unit_ d k * (r - 1) <= lo' k /\
             hi' k <= total u k - unit_ d k * (r - 1) /\
             lo' k <= lo k - unit_ d k /\ hi k + unit_ d k <= hi' k /\
             lo' k <= lo k - unit_ d k * (g - r + 1) /\ hi k + unit_ d k * (g - r + 1) <= hi' k).
  { intros k Hk. specialize (Hlo k Hk). specialize (Hhi k Hk). specialize (Hreg k Hk).
    unfold lo', hi', ghost, unit_ in *.
    assert (b2z (d =? k) = 1 /\ k = d \/ b2z (d =? k) = 0 /\ k <> d) as [[E ->]|[E N]].
    { destruct (Z.eqb_spec d k); simpl; auto. }
    - rewrite E. destruct (Z.ltb_spec d dims); [|lia]. destruct (rec_all rc); lia.
    - rewrite E. destruct (Z.ltb_spec k dims); destruct (rec_all rc); lia. }
  match goal with |- exists q1 q2, for3 _ _ _ _ _ _ ?B _ = _ /\ _ =>
    destruct (for3_write2 (lo' 2) (hi' 2) (lo' 1) (hi' 1) (lo' 0) (hi' 0) B
      (fun c => fst (rec_at rc d (vget u) c)) (fun c => snd (rec_at rc d (vget u) c)) left right)
      as (l' & r' & E & D1 & D2 & W1 & W2) end.
  - eapply same_dims_trans; [apply same_dims_sym; exact Dl|exact Dr].
  - intros c Hc. eapply inr_same; [exact Dl|]. apply inr_iff. intros k Hk'.
    apply (proj1 (inreg_iff lo' hi' c)) with (k := k) in Hc; auto.
    specialize (Hk k Hk'). lia.
  - intros x y z v' w' Hc.
    rewrite (map_res_ok _ (fun j => vget u (move d j (x, y, z)))).
    + reflexivity.
    + intros j Hj. apply zrange_In in Hj. apply vload_move; auto.
      apply inr_iff. intros k Hk'. rewrite coord_move by auto.
      apply (proj1 (inreg_iff lo' hi' _)) with (k := k) in Hc; auto.
      specialize (Hk k Hk'). unfold unit_ in Hk.
      destruct (Z.eqb_spec k d) as [->|N].
      * rewrite Z.eqb_refl in Hk. cbn [b2z] in Hk. fold r in Hj. lia.
      * lia.
  - exists l', r'. split; [exact E|].
    split; [sd|]. split; [sd|].
    assert (In1 : forall c, inreg lo' hi' c = true -> inr u c ->
       vget l' c = fst (rec_at rc d (vget u) c) /\ vget r' c = snd (rec_at rc d (vget u) c)).
    { intros c Hc Hi. rewrite W1, W2 by (eapply inr_same; [|eassumption]; sd).
      unfold inreg in Hc. rewrite Hc. auto. }
    split.
    + intros c Hc. apply In1.
      * apply inreg_iff. intros k Hk'. specialize (Hk k Hk'). specialize (Hc k Hk'). lia.
      * apply inr_iff. intros k Hk'. specialize (Hk k Hk'). specialize (Hc k Hk'). lia.
    + intros c Hc. apply In1.
      * apply inreg_iff. intros k Hk'. specialize (Hk k Hk'). specialize (Hc k Hk'). lia.
      * apply inr_iff. intros k Hk'. specialize (Hk k Hk'). specialize (Hc k Hk'). lia.
Qed.

Lemma flux_at_spec d (u left right : vol V) lo hi x y z :
  dir d -> d < dims ->
  reg_ok u lo hi -> same_dims u left -> same_dims u right ->
  (forall c, (forall k, dir k -> lo k - unit_ d k <= coord k c < hi k + unit_ d k) ->
     vget left c = fst (rec_at rc d (vget u) c) /\
     vget right c = snd (rec_at rc d (vget u) c)) ->
  (forall c, (forall k, dir k -> lo k - unit_ d k * (g - rec_ghosts rc + 1) <= coord k c
                                 < hi k + unit_ d k * (g - rec_ghosts rc + 1)) ->
     vget left c = fst (rec_at rc d (vget u) c) /\
     vget right c = snd (rec_at rc d (vget u) c)) ->
  (forall k, dir k -> lo k - unit_ d k <= coord k (x, y, z) < hi k) ->
  flux_at fx d left right x y z = Ok (iface fx rc d (vget u) (x, y, z)).
Proof.
  intros Hd Hlt Hreg Dl Dr W Wall Hc.
  assert (Hng : ng d = g) by (unfold ghost; destruct (Z.ltb_spec d dims); lia).
  assert (Hu : forall k, dir k -> unit_ d k = if k =? d then 1 else 0).
  { intros k _. unfold unit_. rewrite Z.eqb_sym. destruct (k =? d); reflexivity. }
  assert (Hng0 : forall k, 0 <= ng k) by (intros; unfold ghost; destruct Hcomp; destruct (_ <? _); lia).
  unfold flux_at, iface. destruct Hcomp as [Hr Hf]. destruct fx as [f|st f].
  - assert (R1 : forall k, dir k -> lo k - unit_ d k <= coord k (move d 1 (x, y, z)) < hi k + unit_ d k).
    { intros k Hk. rewrite coord_move by auto. specialize (Hc k Hk). rewrite (Hu k Hk) in *.
      destruct (k =? d); lia. }
    assert (R0 : forall k, dir k -> lo k - unit_ d k <= coord k (x, y, z) < hi k + unit_ d k).
    { intros k Hk. specialize (Hc k Hk). rewrite (Hu k Hk) in *. destruct (k =? d); lia. }
    assert (I : forall c, (forall k, dir k -> lo k - unit_ d k <= coord k c < hi k + unit_ d k) -> inr u c).
    { intros c H. apply inr_iff. intros k Hk. specialize (H k Hk). specialize (Hreg k Hk).
      specialize (Hng0 k). rewrite (Hu k Hk) in H. destruct (Z.eqb_spec k d) as [->|]; lia. }
    rewrite vload_move1; auto. 2:{ eapply inr_same; [exact Dl|]. apply I. exact R1. }
    cbn [bind]. rewrite vload_ok by (eapply inr_same; [exact Dr|]; apply I; exact R0).
    cbn [bind]. destruct (W _ R1) as [-> _]. destruct (W _ R0) as [_ ->]. reflexivity.
  - rewrite (map_res_ok _ (fun s => fst (rec_at rc d (vget u) (move d s (x, y, z))))).
    + reflexivity.
    + intros s Hs. specialize (Hf s Hs).
      assert (J : forall k, dir k -> lo k - unit_ d k * (g - rec_ghosts rc + 1) <= coord k (move d s (x, y, z))
                                 < hi k + unit_ d k * (g - rec_ghosts rc + 1)).
      { intros k Hk. rewrite coord_move by auto. specialize (Hc k Hk). rewrite (Hu k Hk) in *.
        destruct (k =? d); lia. }
      assert (I : inr u (move d s (x, y, z))).
      { apply inr_iff. intros k Hk. rewrite coord_move by auto. specialize (Hc k Hk).
        specialize (Hreg k Hk). specialize (Hng0 k). rewrite (Hu k Hk) in Hc.
        destruct (Z.eqb_spec k d) as [->|]; lia. }
      rewrite vload_move; auto; [|eapply inr_same; eauto].
      destruct (Wall _ J) as [-> _]. reflexivity.
Qed.

Definition contrib (d : Z) (u : cell -> V) (c : cell) : V :=
  vadd (fst (iface fx rc d u (move d (-1) c))) (vscal (-1) (fst (iface fx rc d u c))).

(** Interfaces whose flux is computed for a region. *)
Definition ifaces (lo hi : Z -> Z) (d : Z) : list cell :=
  box (lo 2 - unit_ d 2) (hi 2) (lo 1 - unit_ d 1) (hi 1) (lo 0 - unit_ d 0) (hi 0).

Definition max_speed (lo hi : Z -> Z) (d : Z) (u : cell -> V) : R :=
  fold_left (fun w c => Rmax w (snd (iface fx rc d u c))) (ifaces lo hi d) 0%R.

Lemma vadd_vscal (a b : V) :
  vadd (vscal (-1) a) (vscal (-1) (vscal (-1) b)) = vadd b (vscal (-1) a).
Proof. apply comp_ext. intros i. rewrite !comp_add, !comp_scal. ring. Qed.

Lemma net_flux_spec d (u left right out temp : vol V) start fin lo hi :
  dir d -> d < dims ->
  (forall k, dir k -> lo k = ng k + start k) ->
  (forall k, dir k -> hi k = total u k - ng k + fin k) ->
  reg_ok u lo hi -> same_dims u left -> same_dims u right -> same_dims u out -> same_dims u temp ->
  (forall c, (forall k, dir k -> lo k - unit_ d k <= coord k c < hi k + unit_ d k) ->
     vget left c = fst (rec_at rc d (vget u) c) /\
     vget right c = snd (rec_at rc d (vget u) c)) ->
  (forall c, (forall k, dir k -> lo k - unit_ d k * (g - rec_ghosts rc + 1) <= coord k c
                                 < hi k + unit_ d k * (g - rec_ghosts rc + 1)) ->
     vget left c = fst (rec_at rc d (vget u) c) /\
     vget right c = snd (rec_at rc d (vget u) c)) ->
  exists out' temp',
    net_flux dims g fx d left right out temp start fin =
      Ok (out', temp', max_speed lo hi d (vget u)) /\
    same_dims u out' /\ same_dims u temp' /\
    (forall c, inr u c -> vget out' c =
       if inreg lo hi c then vadd (vget out c) (contrib d (vget u) c) else vget out c).
Proof.
  intros Hd Hlt Hlo Hhi Hreg Dl Dr Do Dt W Wall.
  unfold net_flux.
  assert (Hu : forall k, dir k -> unit_ d k = if k =? d then 1 else 0).
  { intros k _. unfold unit_. rewrite Z.eqb_sym. destruct (k =? d); reflexivity. }
  assert (Hng0 : forall k, 0 <= ng k) by (intros; unfold ghost; destruct Hcomp; destruct (_ <? _); lia).
  assert (Hngd : 1 <= ng d) by (unfold ghost; destruct Hcomp; destruct (Z.ltb_spec d dims); lia).
  set (lo1 := fun k => lo k - unit_ d k).
  assert (B : forall k, dir k -> ng k - unit_ d k + start k = lo1 k /\ total out k - ng k + fin k = hi k).
  { intros k Hk. unfold lo1. rewrite (Hlo k Hk), (Hhi k Hk), (total_same u out) by exact Do. lia. }
  assert (D0 : dir 0) by (unfold dir; auto). assert (D1 : dir 1) by (unfold dir; auto).
  assert (D2 : dir 2) by (unfold dir; auto).
  destruct (B 0 D0) as [B0 B0']. destruct (B 1 D1) as [B1 B1']. destruct (B 2 D2) as [B2 B2'].
  unfold total in B0', B1', B2'. cbn [Z.eqb Pos.eqb] in B0', B1', B2'.
  rewrite B0, B1, B2, B0', B1', B2'.
  assert (I1 : forall c, inreg lo1 hi c = true -> inr u c).
  { intros c H. apply inr_iff. intros k Hk. apply (proj1 (inreg_iff _ _ _)) with (k := k) in H; auto.
    specialize (Hreg k Hk). specialize (Hng0 k). unfold lo1 in H. rewrite (Hu k Hk) in H.
    destruct (Z.eqb_spec k d) as [->|]; lia. }
  match goal with |- exists q1 q2, bind (for3 _ _ _ _ _ _ ?B _) _ = _ /\ _ =>
    destruct (for3_write_acc (lo1 2) (hi 2) (lo1 1) (hi 1) (lo1 0) (hi 0) (0, 0, 0)
       Rmax B
       (fun c => vscal (-1) (fst (iface fx rc d (vget u) c)))
       (fun c => snd (iface fx rc d (vget u) c)) temp 0%R)
      as (t & E & Dt' & Wt) end.
  { intros [[x y] z] Hc. cbn [cadd]. rewrite !Z.add_0_r.
    eapply inr_same; [exact Dt|]. apply I1. exact Hc. }
  { intros x y z v' w' Hc _ _. cbn [cadd fst snd]. rewrite !Z.add_0_r.
    rewrite (flux_at_spec d u left right lo hi); auto.
    apply (proj1 (inreg_iff lo1 hi _) Hc). }
  rewrite E. cbn [bind fst snd].
  assert (Wt' : forall c, inr u c -> inreg lo1 hi c = true ->
            vget t c = vscal (-1) (fst (iface fx rc d (vget u) c))).
  { intros c Hi Hc. specialize (Wt c). replace (csub c (0, 0, 0)) with c in Wt.
    - rewrite Wt by (eapply inr_same; [|eassumption]; sd). unfold inreg in Hc. now rewrite Hc.
    - destruct c as [[? ?] ?]. simpl. pteq. }
  clear Wt E.
  set (sh := (unit_ d 0, unit_ d 1, unit_ d 2)).
  set (hi1 := fun k => hi k - unit_ d k).
  assert (C1 : forall x y z, cadd (x, y, z) sh = move d 1 (x, y, z)).
  { intros. unfold sh. cbn [cadd]. now apply move_unit1. }
  assert (R2 : forall x y z, inreg lo1 hi1 (x, y, z) = true ->
     inreg lo1 hi (x, y, z) = true /\ inreg lo1 hi (move d 1 (x, y, z)) = true).
  { intros x y z H. split; apply inreg_iff; intros k Hk;
      apply (proj1 (inreg_iff _ _ _)) with (k := k) in H; auto;
      rewrite ?coord_move by auto; unfold lo1, hi1 in *; rewrite (Hu k Hk) in *;
      destruct (k =? d); lia. }
  match goal with |- exists q1 q2, bind (for3 _ _ _ _ _ _ ?B _) _ = _ /\ _ =>
    destruct (for3_write (lo1 2) (hi1 2) (lo1 1) (hi1 1) (lo1 0) (hi1 0) sh B
       (fun c => vadd (vget out (cadd c sh))
          (vadd (vget t (cadd c sh)) (vscal (-1) (vget t c)))) out)
      as (o & Eo & Do' & Wo) end.
  { intros [[x y] z] Hc. rewrite C1. eapply inr_same; [exact Do|]. apply I1.
    apply (R2 x y z). exact Hc. }
  { intros x y z v' Hc Dv Hold. destruct (R2 x y z Hc) as [Ra Rb].
    rewrite C1 in Hold. rewrite !C1.
    rewrite vload_move1; auto; [|eapply inr_same; [|apply I1; exact Rb]; sd].
    cbn [bind]. rewrite vload_ok by (eapply inr_same; [|apply I1; exact Ra]; sd).
    cbn [bind]. rewrite vload_move1; auto;
      [|eapply inr_same; [|apply I1; exact Rb]; sd].
    cbn [bind]. rewrite Hold. unfold vstorec.
 rewrite <- (move_unit1 d x y z Hd). reflexivity. }
  unfold hi1 in Eo. rewrite Eo. cbn [bind].
  exists o, t. split; [reflexivity|].
  split; [sd|]. split; [sd|].
  intros c Hc. rewrite Wo by (eapply inr_same; [|eassumption]; sd).
  rewrite cadd_csub.
  assert (Ec : csub c sh = move d (-1) c).
  { destruct c as [[x y] z]. unfold sh. rewrite <- move_unit by exact Hd. simpl. pteq. }
  rewrite Ec.
  assert (Er : inbox (lo1 2) (hi1 2) (lo1 1) (hi1 1) (lo1 0) (hi1 0) (move d (-1) c) = inreg lo hi c).
  { apply eq_true_iff_eq. change (inbox (lo1 2) (hi1 2) (lo1 1) (hi1 1) (lo1 0) (hi1 0) (move d (-1) c))
      with (inreg lo1 hi1 (move d (-1) c)). rewrite !inreg_iff.
    split; intros H k Hk; specialize (H k Hk); rewrite coord_move in * by auto;
      unfold lo1, hi1 in *; rewrite (Hu k Hk) in *; destruct (k =? d); lia. }
  rewrite Er. destruct (inreg lo hi c) eqn:Ei; [|reflexivity].
  f_equal.
  assert (Hm : inreg lo1 hi1 (move d (-1) c) = true) by exact Er.
  destruct (move d (-1) c) as [[x y] z] eqn:Em.
  destruct (R2 x y z Hm) as [Ra Rb].
  rewrite <- Em in Rb. rewrite move_move in Rb. change (-1 + 1) with 0 in Rb. rewrite move_0 in Rb.
  rewrite (Wt' c Hc Rb). rewrite (Wt' (x, y, z) (I1 _ Ra) Ra).
  unfold contrib. rewrite Em. apply vadd_vscal.
Qed.

Lemma make_zero_spec (u out : vol V) start fin lo hi :
  (forall k, dir k -> lo k = ng k + start k) ->
  (forall k, dir k -> hi k = total u k - ng k + fin k) ->
  reg_ok u lo hi -> same_dims u out ->
  exists out', make_zero dims g start fin out = Ok out' /\ same_dims u out' /\
    (forall c, inr u c -> vget out' c = if inreg lo hi c then vzero else vget out c).
Proof.
  intros Hlo Hhi Hreg Do. unfold make_zero.
  assert (Hng0 : forall k, 0 <= ng k) by (intros; unfold ghost; destruct Hcomp; destruct (_ <? _); lia).
  assert (D0 : dir 0) by (unfold dir; auto). assert (D1 : dir 1) by (unfold dir; auto).
  assert (D2 : dir 2) by (unfold dir; auto).
  rewrite <- !Hlo by auto.
  pose proof (Hhi 0 D0) as H0. pose proof (Hhi 1 D1) as H1. pose proof (Hhi 2 D2) as H2.
  rewrite (total_same u out) in H0, H1, H2 by exact Do. unfold total in H0, H1, H2.
  cbn [Z.eqb Pos.eqb] in H0, H1, H2. rewrite <- H0, <- H1, <- H2.
  destruct (for3_write (lo 2) (hi 2) (lo 1) (hi 1) (lo 0) (hi 0) (0, 0, 0)
     (fun x y z o => vstore o x y z vzero) (fun _ => vzero) out) as (o & E & D & W).
  - intros [[x y] z] Hc. cbn [cadd]. rewrite !Z.add_0_r. eapply inr_same; [exact Do|].
    apply inr_iff. intros k Hk. apply (proj1 (inreg_iff lo hi _)) with (k := k) in Hc; auto.
    specialize (Hreg k Hk). specialize (Hng0 k). lia.
  - intros x y z v' Hc _ _. cbn [cadd]. rewrite !Z.add_0_r. reflexivity.
  - exists o. split; [exact E|]. split; [sd|].
    intros c Hc. rewrite W by (eapply inr_same; [|eassumption]; sd).
    replace (csub c (0, 0, 0)) with c by (destruct c as [[? ?] ?]; simpl; pteq).
    reflexivity.
Qed.

Definition st_dims (u : vol V) (s : fstate V) : Prop :=
  same_dims u (f_left s) /\ same_dims u (f_right s) /\ same_dims u (f_temp s) /\ same_dims u (f_out s).

Lemma compute_flux_spec (u : vol V) (s : fstate V) start fin lo hi :
  (forall k, dir k -> lo k = ng k + start k) ->
  (forall k, dir k -> hi k = total u k - ng k + fin k) ->
  reg_ok u lo hi -> st_dims u s ->
  exists s', compute_flux dims g fx rc u start fin s = Ok s' /\ st_dims u s' /\
    (forall c, inr u c -> vget (f_out s') c =
       if inreg lo hi c then rhs dims fx rc (vget u) c else vget (f_out s) c) /\
    (forall d, 0 <= d < dims -> f_speed s' d = max_speed lo hi d (vget u)) /\
    (forall d, ~ 0 <= d < dims -> f_speed s' d = f_speed s d).
Proof.
  intros Hlo Hhi Hreg (Dl & Dr & Dt & Do). unfold compute_flux.
  destruct (make_zero_spec u (f_out s) start fin lo hi) as (o0 & E0 & D0 & W0); auto.
  rewrite E0. cbn [bind].
  match goal with |- exists q1, for_ _ _ ?B ?s0 = _ /\ _ =>
    destruct (for_inv (fun k s' => st_dims u s' /\
      (forall c, inr u c -> vget (f_out s') c =
        if inreg lo hi c then fold_left (fun a d => vadd a (contrib d (vget u) c)) (zrange 0 k) vzero
        else vget (f_out s) c) /\
      (forall d, 0 <= d < k -> f_speed s' d = max_speed lo hi d (vget u)) /\
      (forall d, ~ 0 <= d < k -> f_speed s' d = f_speed s d)) 0 dims B s0) as (s' & E & Inv)
  end.
  - lia.
  - split; [repeat split; simpl; try apply Dl; try apply Dr; try apply Dt; try apply D0|]. split.
    + intros c Hc. simpl f_out. rewrite W0 by exact Hc. reflexivity.
    + split; [intros; lia|reflexivity].
  - intros k s1 Hk ((El & Er & Et & Eo) & Wk & Sk & Sk').
    assert (Hd : dir k) by (unfold dir; lia).
    destruct (reconstruct_spec k u (f_left s1) (f_right s1) start fin lo hi)
      as (l' & r' & E1 & Fl & Fr & Wl & Wall); auto; try lia.
    rewrite E1. cbn [bind fst snd].
    destruct (net_flux_spec k u l' r' (f_out s1) (f_temp s1) start fin lo hi)
      as (o' & t' & E2 & Fo & Ft & Wo); auto; try lia.
    rewrite E2. cbn [bind fst snd].
    eexists. split; [reflexivity|]. split; [repeat split; simpl; try apply Fl; try apply Fr; try apply Ft; try apply Fo|].
    split; [|split].
    + intros c Hc. simpl f_out. rewrite Wo by exact Hc. rewrite Wk by exact Hc.
      destruct (inreg lo hi c); [|reflexivity].
      rewrite zrange_snoc by lia. rewrite fold_left_app. reflexivity.
    + intros d Hd'. simpl. destruct (Z.eqb_spec d k) as [->|]; [reflexivity|]. apply Sk. lia.
    + intros d Hd'. simpl. destruct (Z.eqb_spec d k) as [->|]; [lia|]. apply Sk'. lia.
  - exists s'. split; [exact E|]. exact Inv.
Qed.

End F.
