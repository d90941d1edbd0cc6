(** Property C22: distribution of the samples over the processes.

    [load_balance ms sx sy sz np samples r] is what rank [r] of [np] gets; the
    theorems speak about the results on all ranks. *)
From Coq Require Import ZArith List Bool Lia.
From Verif Require Import M_Base L_Base M_Balancer L_Balancer.
Import ListNotations.
Open Scope Z_scope.

(** A request the balancer should serve: positive counts that multiply to a
    number of processes an [int] can hold, and samples divisible among the
    statistical groups. *)
Definition servable (ms sx sy sz : Z) (samples : list Z) : Prop :=
  1 <= ms /\ 1 <= sx /\ 1 <= sy /\ 1 <= sz /\ ms * sx * sy * sz < 2 ^ 31
  /\ Z.of_nat (length samples) mod ms = 0.

Lemma np_assoc ms sx sy sz : ms * sx * sy * sz = ms * (sx * sy * sz).
Proof. ring. Qed.

(** Every rank gets an answer, and the pair (rank in the statistical
    communicator, rank in the spatial communicator) is a bijection between the
    global ranks and [0..ms) x [0..sx*sy*sz): every global rank is in exactly
    one group and every place of every group is taken by exactly one rank. *)
Theorem C22_ranks_grouped ms sx sy sz samples :
  servable ms sx sy sz samples ->
  let np := ms * sx * sy * sz in
  (forall r, 0 <= r < np ->
     exists l sc pc, load_balance ms sx sy sz np samples r = Ok (l, sc, pc)
       /\ 0 <= crank sc < ms /\ csize sc = ms
       /\ 0 <= crank pc < sx * sy * sz /\ csize pc = sx * sy * sz
       /\ In r (cmembers sc) /\ In r (cmembers pc))
  /\ (forall k j, 0 <= k < ms -> 0 <= j < sx * sy * sz ->
      exists! r, 0 <= r < np /\
        exists l sc pc, load_balance ms sx sy sz np samples r = Ok (l, sc, pc)
          /\ crank sc = k /\ crank pc = j).
Proof.
  intros (Hm & Hx & Hy & Hz & Hfit & Hmod) np.
  assert (Hp : 1 <= sx * sy * sz) by nia.
  pose proof (np_assoc ms sx sy sz) as Enp.
  assert (Hres : forall r, 0 <= r < np -> exists l sc pc,
     load_balance ms sx sy sz np samples r = Ok (l, sc, pc)
     /\ crank sc = Z.quot r (sx * sy * sz) /\ csize sc = ms
     /\ crank pc = Z.rem r (sx * sy * sz) /\ csize pc = sx * sy * sz
     /\ In r (cmembers sc) /\ In r (cmembers pc)).
  { intros r Hr. unfold np in Hr. rewrite Enp in Hr.
    do 3 eexists. split; [exact (load_balance_ok ms sx sy sz samples r Hm Hx Hy Hz Hfit Hmod Hr)|].
    destruct (stat_comm ms _ Hm Hp r Hr) as [E1 E2].
    destruct (spat_comm ms _ Hp r Hr) as [E3 E4].
    rewrite E1, E2, E3, E4.
    split; [reflexivity|]. split; [reflexivity|]. split; [reflexivity|]. split; [reflexivity|].
    split; [apply stat_members|apply spat_members]; auto. }
  split.
  - intros r Hr. destruct (Hres r Hr) as (l & sc & pc & E & E1 & E2 & E3 & E4 & E5 & E6).
    exists l, sc, pc. split; [exact E|].
    unfold np in Hr. rewrite Enp in Hr.
    destruct (rank_split ms _ Hp r Hr) as (_ & Hk & Hj).
    rewrite E1, E3. auto 10.
  - intros k j Hk Hj. exists (k * (sx * sy * sz) + j). split.
    + assert (Hr : 0 <= k * (sx * sy * sz) + j < np).
      { unfold np. rewrite Enp. apply pair_range; auto. }
      split; [exact Hr|].
      destruct (Hres _ Hr) as (l & sc & pc & E & E1 & E2 & E3 & _).
      exists l, sc, pc. split; [exact E|]. rewrite E1, E3.
      apply quot_rem_of_pair; lia.
    + intros r (Hr & l & sc & pc & E & Ek & Ej).
      destruct (Hres _ Hr) as (l' & sc' & pc' & E' & E1 & _ & E3 & _).
      rewrite E in E'. injection E' as <- <- <-.
      unfold np in Hr. rewrite Enp in Hr.
      destruct (rank_split ms _ Hp r Hr) as (Er & _ & _). rewrite Er, <- E1, <- E3, Ek, Ej.
      reflexivity.
Qed.

(** The samples of a process depend only on its statistical group, and the
    groups, taken in order, make up the sample list: every position of the list
    is simulated by exactly one group. *)
Theorem C22_samples_partitioned ms sx sy sz samples :
  servable ms sx sy sz samples ->
  let np := ms * sx * sy * sz in
  exists group : Z -> list Z,
    (forall r l sc pc, 0 <= r < np ->
       load_balance ms sx sy sz np samples r = Ok (l, sc, pc) -> l = group (crank sc))
    /\ flat_map group (zrange 0 ms) = samples
    /\ (forall k, 0 <= k < ms ->
        Z.of_nat (length (group k)) * ms = Z.of_nat (length samples)).
Proof.
  intros (Hm & Hx & Hy & Hz & Hfit & Hmod) np.
  assert (Hp : 1 <= sx * sy * sz) by nia.
  pose proof (np_assoc ms sx sy sz) as Enp.
  set (per := Z.of_nat (length samples) / ms).
  assert (Eper : Z.of_nat (length samples) = ms * per).
  { subst per. apply Z_div_exact_full_2; [lia|exact Hmod]. }
  assert (Hper : 0 <= per) by (subst per; apply Z.div_pos; lia).
  exists (fun k => map (fun i => nth (Z.to_nat i) samples 0) (zrange (per * k) (per * (k + 1)))).
  split; [|split].
  - intros r l sc pc Hr E. unfold np in Hr. rewrite Enp in Hr.
    unfold np in E. rewrite load_balance_ok in E by assumption.
    injection E as <- <- <-.
    destruct (stat_comm ms _ Hm Hp r Hr) as [E1 _]. rewrite E1. reflexivity.
  - transitivity (map (fun i => nth (Z.to_nat i) samples 0)
                    (flat_map (fun k => zrange (per * k) (per * (k + 1))) (zrange 0 ms))).
    + induction (zrange 0 ms) as [|k l IH]; [reflexivity|].
      cbn [flat_map]. rewrite map_app, IH. reflexivity.
    + replace ms with (Z.of_nat (Z.to_nat ms)) by lia.
      rewrite blocks_cover by exact Hper.
      replace (per * Z.of_nat (Z.to_nat ms)) with (Z.of_nat (length samples)) by lia.
      apply nth_all.
  - intros k Hk. rewrite map_length, zrange_length. rewrite Eper. nia.
Qed.

(** With distinct sample numbers, as built by Setup::makeRunner, every sample
    is simulated by exactly the processes of one statistical group. *)
Theorem C22_every_sample_once ms sx sy sz start count :
  0 <= count -> servable ms sx sy sz (all_samples start count) ->
  let np := ms * sx * sy * sz in
  forall s, start <= s < start + count ->
  exists! k, 0 <= k < ms /\
    forall r l sc pc, 0 <= r < np ->
      load_balance ms sx sy sz np (all_samples start count) r = Ok (l, sc, pc) ->
      (In s l <-> crank sc = k).
Proof.
  intros Hc Hs np s Hsr.
  destruct (C22_samples_partitioned _ _ _ _ _ Hs) as (group & Hg & Hcov & _).
  destruct (C22_ranks_grouped _ _ _ _ _ Hs) as (Hall & Hbij).
  assert (Hnd : NoDup (flat_map group (zrange 0 ms))).
  { rewrite Hcov. unfold all_samples. apply map_NoDup_inj; [|apply zrange_NoDup].
    intros x y _ _ E. lia. }
  assert (Hin : In s (flat_map group (zrange 0 ms))).
  { rewrite Hcov. unfold all_samples. apply in_map_iff. exists (s - start).
    split; [lia|]. apply zrange_In. lia. }
  assert (Huniq : forall l : list Z, NoDup (flat_map group l) -> forall k k', In k l -> In k' l ->
            In s (group k) -> In s (group k') -> k = k').
  { clear. induction l as [|a l IH]; cbn; intros Hnd k k' Hk Hk' H H'; [contradiction|].
    assert (Hd : forall x, In x (group a) -> ~ In x (flat_map group l)).
    { clear -Hnd. revert Hnd. generalize (group a) as u, (flat_map group l) as v.
      induction u as [|y u IH]; cbn; intros v Hnd x Hx; [contradiction|].
      inversion Hnd as [|? ? Hny Hnu]; subst. destruct Hx as [<-|Hx].
      - intros Hv. apply Hny. apply in_or_app. auto.
      - apply IH; auto. }
    assert (Hl : NoDup (flat_map group l)).
    { clear -Hnd. revert Hnd. generalize (group a) as u, (flat_map group l) as v.
      induction u as [|y u IH]; cbn; intros v Hnd; [assumption|].
      inversion Hnd; subst. auto. }
    destruct Hk as [<-|Hk], Hk' as [<-|Hk'].
    - reflexivity.
    - exfalso. apply (Hd s H). apply in_flat_map. eauto.
    - exfalso. apply (Hd s H'). apply in_flat_map. eauto.
    - eapply IH; eauto. }
  apply in_flat_map in Hin. destruct Hin as (k & Hk & Hink).
  exists k. pose proof Hk as Hk'. apply zrange_In in Hk'. split.
  - split; [exact Hk'|]. intros r l sc pc Hr E.
    pose proof (Hg r l sc pc Hr E) as El.
    destruct (Hall r Hr) as (l2 & sc2 & pc2 & E2 & Hck & _).
    fold np in E2. rewrite E in E2. injection E2 as <- <- <-.
    rewrite El. split.
    + intros H. apply (Huniq _ Hnd); auto. apply zrange_In. exact Hck.
    + intros <-. exact Hink.
  - intros k2 (Hk2 & H2).
    destruct Hs as (Hm & Hx & Hy & Hz & Hfit & Hmod).
    destruct (Hbij k 0 Hk') as (r & (Hr & l & sc & pc & E & Ek & _) & _); [nia|].
    fold np in Hr, E. specialize (H2 r l sc pc Hr E).
    rewrite <- Ek. apply H2.
    rewrite (Hg r l sc pc Hr E), Ek. exact Hink.
Qed.

(** All processes of one spatial communicator (those that decompose the same
    domain) run the same samples in the same order. *)
Theorem C22_spatial_group_agrees ms sx sy sz samples r1 r2 l1 l2 sc1 sc2 pc1 pc2 :
  servable ms sx sy sz samples ->
  let np := ms * sx * sy * sz in
  0 <= r1 < np -> 0 <= r2 < np ->
  load_balance ms sx sy sz np samples r1 = Ok (l1, sc1, pc1) ->
  load_balance ms sx sy sz np samples r2 = Ok (l2, sc2, pc2) ->
  In r2 (cmembers pc1) ->
  l1 = l2 /\ cmembers pc1 = cmembers pc2.
Proof.
  intros (Hm & Hx & Hy & Hz & Hfit & Hmod) np Hr1 Hr2 E1 E2 Hin.
  assert (Hp : 1 <= sx * sy * sz) by nia.
  pose proof (np_assoc ms sx sy sz) as Enp.
  unfold np in *. rewrite Enp in Hr1, Hr2.
  rewrite load_balance_ok in E1, E2 by assumption.
  injection E1 as <- <- <-. injection E2 as <- <- <-.
  apply spat_members in Hin; [|exact Hr1]. destruct Hin as [_ Hq].
  rewrite Hq. split; [reflexivity|].
  unfold comm_split; cbn [cmembers]. rewrite Hq. reflexivity.
Qed.

(** Process counts that do not multiply up are never accepted, and raise the
    exception unless an [int] product overflowed; so are sample counts that do
    not divide. *)
Theorem C22_rejects_process_count ms sx sy sz np samples r :
  ms * sx * sy * sz <> np ->
  (forall x, load_balance ms sx sy sz np samples r <> Ok x)
  /\ (Z.abs (ms * sx) < 2 ^ 31 -> Z.abs (ms * sx * sy) < 2 ^ 31 ->
      Z.abs (ms * sx * sy * sz) < 2 ^ 31 ->
      load_balance ms sx sy sz np samples r = Throw).
Proof.
  intros Hne. split.
  - intros x. unfold load_balance.
    destruct (imul ms sx) as [p1| |] eqn:E1; cbn [bind]; try discriminate.
    apply imul_inv in E1; subst p1.
    destruct (imul (ms * sx) sy) as [p2| |] eqn:E2; cbn [bind]; try discriminate.
    apply imul_inv in E2; subst p2.
    destruct (imul (ms * sx * sy) sz) as [p3| |] eqn:E3; cbn [bind]; try discriminate.
    apply imul_inv in E3; subst p3.
    rewrite (proj2 (Z.eqb_neq _ _) Hne). discriminate.
  - intros B1 B2 B3. unfold load_balance.
    rewrite (imul_ok ms sx) by lia. cbn [bind].
    rewrite (imul_ok (ms * sx) sy) by lia. cbn [bind].
    rewrite (imul_ok (ms * sx * sy) sz) by lia. cbn [bind].
    rewrite (proj2 (Z.eqb_neq _ _) Hne). reflexivity.
Qed.

Theorem C22_rejects_sample_count ms sx sy sz samples r :
  1 <= ms -> 1 <= sx -> 1 <= sy -> 1 <= sz -> ms * sx * sy * sz < 2 ^ 31 ->
  Z.of_nat (length samples) mod ms <> 0 ->
  load_balance ms sx sy sz (ms * sx * sy * sz) samples r = Throw.
Proof.
  intros Hm Hx Hy Hz Hfit Hmod.
  assert (Hmx : 1 <= ms * sx) by nia.
  assert (Hmxy : 1 <= ms * sx * sy) by nia.
  assert (B2 : ms * sx * sy <= ms * sx * sy * sz) by nia.
  assert (B1 : ms * sx <= ms * sx * sy) by nia.
  assert (B0 : ms <= ms * sx) by nia.
  unfold load_balance.
  rewrite (imul_ok ms sx) by lia. cbn [bind].
  rewrite (imul_ok (ms * sx) sy) by lia. cbn [bind].
  rewrite (imul_ok (ms * sx * sy) sz) by lia. cbn [bind].
  rewrite Z.eqb_refl. cbn [negb].
  assert (Es : size_of_int ms = ms) by (unfold size_of_int; apply Z.mod_small; lia).
  rewrite Es. rewrite (proj2 (Z.eqb_neq ms 0)) by lia.
  rewrite (proj2 (Z.eqb_neq _ _) Hmod). reflexivity.
Qed.

(** Six samples starting at 10, three statistical groups of a 2x1x1 grid. *)
Example C22_nonvacuous :
  servable 3 2 1 1 (all_samples 10 6)
  /\ map (load_balance 3 2 1 1 6 (all_samples 10 6)) (zrange 0 6)
     = [Ok ([10; 11], mkcomm 0 3 [0; 2; 4], mkcomm 0 2 [0; 1]);
        Ok ([10; 11], mkcomm 0 3 [1; 3; 5], mkcomm 1 2 [0; 1]);
        Ok ([12; 13], mkcomm 1 3 [0; 2; 4], mkcomm 0 2 [2; 3]);
        Ok ([12; 13], mkcomm 1 3 [1; 3; 5], mkcomm 1 2 [2; 3]);
        Ok ([14; 15], mkcomm 2 3 [0; 2; 4], mkcomm 0 2 [4; 5]);
        Ok ([14; 15], mkcomm 2 3 [1; 3; 5], mkcomm 1 2 [4; 5])].
Proof. split; [unfold servable; vm_compute; intuition congruence|vm_compute; reflexivity]. Qed.

Example C22_rejects_nonvacuous :
  load_balance 3 2 1 1 5 (all_samples 10 6) 0 = Throw
  /\ load_balance 3 2 1 1 6 (all_samples 10 7) 0 = Throw.
Proof. split; vm_compute; reflexivity. Qed.

Print Assumptions C22_ranks_grouped.
Print Assumptions C22_samples_partitioned.
Print Assumptions C22_every_sample_once.
Print Assumptions C22_spatial_group_agrees.
Print Assumptions C22_rejects_process_count.
Print Assumptions C22_rejects_sample_count.
