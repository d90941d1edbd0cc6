(** Loops that add to the elements of an area. *)
From Coq Require Import ZArith Reals List Bool Lia Lra Permutation.
From Verif Require Import M_Base L_Base L_Loops M_Sim L_Sim M_Memory S_Memory L_Memory S_Sum L_Sum
  M_Stats S_Stats L_Stats L_StatsRun.
Import ListNotations.
Open Scope Z_scope.

(** [body] adds [f i] to every element [i] of areas with extents [d]. *)
Definition adds (d : cell) (body : vol R -> res (vol R)) (f : Z -> R) : Prop :=
  forall o, has_dims d o -> exists o', body o = Ok o' /\ has_dims d o' /\
    forall i, 0 <= i < dsize d -> vdat o' i = (vdat o i + f i)%R.

Lemma adds_ext d body body' f f' :
  (forall o, has_dims d o -> body o = body' o) -> (forall i, 0 <= i < dsize d -> f i = f' i) ->
  adds d body f -> adds d body' f'.
Proof.
  intros Hb Hf H o Ho. destruct (H o Ho) as (o' & E & D & W). exists o'. rewrite <- Hb by exact Ho.
  split; [exact E|]. split; [exact D|]. intros i Hi. rewrite W, Hf by exact Hi. reflexivity.
Qed.

Lemma adds_fold {I} d (body : I -> vol R -> res (vol R)) (f : I -> Z -> R) l :
  (forall x, In x l -> adds d (body x) (f x)) ->
  adds d (fold_res body l) (fun i => suml (fun x => f x i) l).
Proof.
  induction l as [|x l IH]; intros H o Ho.
  - exists o. split; [reflexivity|]. split; [exact Ho|]. intros. cbn. lra.
  - cbn [fold_res]. destruct (H x (or_introl eq_refl) o Ho) as (o1 & E1 & D1 & W1).
    rewrite E1. cbn [bind]. destruct (IH (fun y Hy => H y (or_intror Hy)) o1 D1) as (o2 & E2 & D2 & W2).
    exists o2. split; [exact E2|]. split; [exact D2|]. intros i Hi. rewrite W2, W1 by exact Hi.
    cbn [suml fold_right]. unfold suml. lra.
Qed.

Lemma adds_for d lo hi (body : Z -> vol R -> res (vol R)) (f : Z -> Z -> R) :
  (forall k, lo <= k < hi -> adds d (body k) (f k)) ->
  adds d (for_ lo hi body) (fun i => sumz lo hi (fun k => f k i)).
Proof.
  intros H. eapply adds_ext; [| |apply (adds_fold d body f (zrange lo hi))].
  - reflexivity.
  - intros i _. apply suml_sumz.
  - intros k Hk. apply H. now apply zrange_In.
Qed.

Lemma adds_for3 d (lo hi : Z -> Z) (body : Z -> Z -> Z -> vol R -> res (vol R)) (f : cell -> Z -> R) :
  (forall x y z, lo 0 <= x < hi 0 -> lo 1 <= y < hi 1 -> lo 2 <= z < hi 2 -> adds d (body x y z) (f (x, y, z))) ->
  adds d (for3 (lo 2) (hi 2) (lo 1) (hi 1) (lo 0) (hi 0) body) (fun i => sum3 lo hi (fun c => f c i)).
Proof.
  intros H. unfold for3, sum3.
  apply (adds_for d (lo 2) (hi 2) _ (fun z i => sumz (lo 1) (hi 1) (fun y => sumz (lo 0) (hi 0) (fun x => f (x, y, z) i)))).
  intros z Hz.
  apply (adds_for d (lo 1) (hi 1) _ (fun y i => sumz (lo 0) (hi 0) (fun x => f (x, y, z) i))).
  intros y Hy. apply (adds_for d (lo 0) (hi 0) _ (fun x i => f (x, y, z) i)). intros x Hx. now apply H.
Qed.

(** Adding to one element, by linear index and by position. *)
Lemma adds_one d k a : 0 <= k < dsize d ->
  adds d (fun o => old <- mload o k;; mstore o k (old + a)%R) (fun i => if i =? k then a else 0%R).
Proof.
  intros Hk o Ho. pose proof (has_dims_size _ _ Ho) as S. rewrite mload_ok by lia. cbn [bind].
  destruct (mstore_ok o k (vdat o k + a)%R) as (o' & E & (A & B & C) & W); [lia|].
  exists o'. split; [exact E|]. split.
  - destruct d as [[nx ny] nz]. destruct Ho as (? & ? & ?). repeat split; congruence.
  - intros i Hi. rewrite W. destruct (Z.eqb_spec i k); subst; lra.
Qed.

Lemma adds_at nx ny nz x y z a : 0 <= x < nx -> 0 <= y < ny -> 0 <= z < nz ->
  adds (nx, ny, nz) (fun o => old <- vload o x y z;; vstore o x y z (old + a)%R)
    (fun i => if i =? index nx ny x y z then a else 0%R).
Proof.
  intros Hx Hy Hz o (A & B & C).
  assert (I : inb o x y z = true) by (apply inb_inr; unfold inr; lia).
  unfold vload, vstore. rewrite I. cbn [bind].
  eexists. split; [reflexivity|]. split; [repeat split; assumption|].
  intros i Hi. cbn [vdat]. rewrite A, B. destruct (Z.eqb_spec i (index nx ny x y z)); subst; lra.
Qed.

Lemma additive_of (Pu : vol R -> Prop) nm dims upd d (ctr : vol R -> Z -> R) :
  0 <= dsize d < 2 ^ 31 ->
  (forall u, Pu u -> dims u = d) ->
  (forall u, Pu u -> adds d (fun s => upd s u) (ctr u)) ->
  additive Pu (mkitem nm dims upd) d ctr.
Proof.
  intros Hs Hd Ha. split; [exact Hs|]. intros u Hu. cbn [it_dims it_update]. split; [now apply Hd|].
  intros v Hv. exact (Ha u Hu v Hv).
Qed.

(** Sums over a list without repetitions that enumerates part of a box. *)
Lemma suml_filter {A} (f : A -> R) (P : A -> bool) l :
  suml f (filter P l) = suml (fun a => if P a then f a else 0%R) l.
Proof.
  unfold suml. induction l as [|a l IH]; cbn; [reflexivity|]. destruct (P a); cbn; rewrite IH; lra.
Qed.

Lemma suml_flat_map {A B} (f : B -> R) (g : A -> list B) l :
  suml f (flat_map g l) = suml (fun a => suml f (g a)) l.
Proof.
  induction l as [|a l IH]; [reflexivity|]. cbn [flat_map]. rewrite suml_app, IH. reflexivity.
Qed.

Lemma sum3_box lo hi f : sum3 lo hi f = suml f (box (lo 2) (hi 2) (lo 1) (hi 1) (lo 0) (hi 0)).
Proof.
  unfold sum3, box. rewrite suml_flat_map, <- suml_sumz. apply suml_ext. intros z _.
  rewrite suml_flat_map, <- suml_sumz. apply suml_ext. intros y _.
  rewrite suml_map, <- suml_sumz. reflexivity.
Qed.

Lemma sum_enumeration lo hi (P : cell -> bool) (l : list cell) f : NoDup l ->
  (forall x y z, In (x, y, z) l <->
     P (x, y, z) = true /\ lo 0 <= x < hi 0 /\ lo 1 <= y < hi 1 /\ lo 2 <= z < hi 2) ->
  suml f l = sum3 lo hi (fun c => if P c then f c else 0%R).
Proof.
  intros N H. rewrite sum3_box, <- suml_filter. apply suml_perm. apply NoDup_Permutation; auto.
  - apply NoDup_filter. apply box_NoDup.
  - intros [[x y] z]. rewrite filter_In, box_In, H. tauto.
Qed.
