(** The combined result of statistics over all samples. *)
From Coq Require Import ZArith Reals List Bool Lia Lra Permutation.
From Verif Require Import M_Base L_Base M_Sim L_Sim M_Memory S_Memory L_Memory S_Sum L_Sum M_Stats S_Stats L_Stats.
Import ListNotations.
Open Scope Z_scope.

Lemma suml_perm {A} (f : A -> R) l l' : Permutation l l' -> suml f l = suml f l'.
Proof. unfold suml. induction 1; cbn; lra. Qed.

Lemma suml_map {A B} (f : B -> R) (g : A -> B) l : suml f (map g l) = suml (fun a => f (g a)) l.
Proof. unfold suml. induction l; cbn; [reflexivity|]. now rewrite IHl. Qed.

Lemma suml_ext {A} (f g : A -> R) l : (forall a, In a l -> f a = g a) -> suml f l = suml g l.
Proof.
  unfold suml. induction l as [|a l IH]; intros H; cbn; [reflexivity|].
  rewrite H by now left. rewrite IH; auto. intros. apply H. now right.
Qed.

Lemma suml_concat {A} (f : A -> R) ls : suml f (concat ls) = suml (suml f) ls.
Proof.
  induction ls as [|l ls IH]; [reflexivity|]. cbn [concat]. rewrite suml_app, IH. reflexivity.
Qed.

Lemma suml_sumz lo hi f : suml f (zrange lo hi) = sumz lo hi f.
Proof. unfold suml, sumz. induction (zrange lo hi); cbn; [reflexivity|]. now rewrite IHl. Qed.

Lemma reduction_sum l r : reduction l r -> r = suml (fun a => a) l.
Proof.
  induction 1; [cbn; lra|]. rewrite (suml_perm _ _ _ H1), suml_app. lra.
Qed.

(** The value of a snapshot. *)
Definition val (st : snaps) (k : key) : vol R :=
  match lookup k st with Some v => v | None => mkvol 0 0 0 (fun _ => 0%R) end.

Lemma split_heads_spec k ks others : Forall (fun o => map fst o = k :: ks) others ->
  split_heads others = Ok (map (fun o => val o k) others, map (@tl _) others).
Proof.
  induction others as [|o others IH]; intros H; [reflexivity|]. inversion H as [|? ? Ho Hr]; subst.
  destruct o as [|[k' v] o]; [discriminate|]. cbn in Ho. injection Ho as -> Ho.
  cbn [split_heads]. rewrite IH by exact Hr. cbn [bind map tl]. unfold val at 2. cbn [lookup].
  rewrite key_eqb_refl. reflexivity.
Qed.

Lemma reduce_area_ok red v ws d : 0 <= dsize d < 2 ^ 31 -> has_dims d v -> Forall (has_dims d) ws ->
  exists v', reduce_area red v ws = Ok v' /\ has_dims d v' /\
    forall i, 0 <= i < dsize d -> vdat v' i = red (vdat v i :: map (fun w => vdat w i) ws).
Proof.
  intros Hs Hv Hw. unfold reduce_area. pose proof (has_dims_size _ _ Hv) as S.
  rewrite S, int32_small by exact Hs.
  rewrite (proj2 (Z.leb_le 0 (dsize d))) by lia.
  assert (F : forallb (fun w => int32 (vsize w) =? dsize d) ws = true).
  { apply forallb_forall. intros w Hi. rewrite Forall_forall in Hw. rewrite (has_dims_size d w) by auto.
    rewrite int32_small by exact Hs. apply Z.eqb_refl. }
  rewrite F. cbn [andb]. eexists. split; [reflexivity|]. destruct d as [[nx ny] nz]. split; [exact Hv|].
  intros i Hi. cbn [vdat]. rewrite (proj2 (Z.ltb_lt i _)) by lia. reflexivity.
Qed.

Lemma combine_spec red M (d : key -> cell) root others :
  NoDup (map fst root) ->
  Forall (fun o => map fst o = map fst root) others ->
  (forall k, In k (map fst root) -> 0 <= dsize (d k) < 2 ^ 31 /\ has_dims (d k) (val root k) /\
     Forall (fun o => has_dims (d k) (val o k)) others) ->
  exists st, combine_statistics red M root others = Ok st /\ map fst st = map fst root /\
    forall k, In k (map fst root) -> exists v, lookup k st = Some v /\ has_dims (d k) v /\
      forall i, 0 <= i < dsize (d k) ->
        vdat v i = (red (vdat (val root k) i :: map (fun o => vdat (val o k) i) others) / M)%R.
Proof.
  revert others. induction root as [|[k v] root IH]; intros others N K H.
  - cbn [combine_statistics].
    assert (F : forallb no_more others = true).
    { apply forallb_forall. intros o Ho. rewrite Forall_forall in K. apply K in Ho.
      destruct o; [reflexivity|discriminate]. }
    rewrite F. exists []. repeat split; auto. intros k [].
  - cbn [combine_statistics]. cbn [map fst] in *.
    rewrite (split_heads_spec k (map fst root)) by exact K. cbn [bind].
    destruct (H k) as (Sz & Dv & Dw); [now left|].
    assert (Vk : val ((k, v) :: root) k = v) by (unfold val; cbn [lookup]; now rewrite key_eqb_refl).
    rewrite Vk in Dv.
    destruct (reduce_area_ok red v (map (fun o => val o k) others) (d k)) as (r & Er & Dr & Wr); auto.
    { rewrite Forall_map. exact Dw. }
    rewrite Er. cbn [bind].
    assert (Sv : vsize v = dsize (d k)) by now apply has_dims_size.
    assert (Sr : vsize r = dsize (d k)) by now apply has_dims_size.
    unfold mem_copy. rewrite same_size_true by congruence. cbn [negb].
    destruct (ew_all (vsize v) (fun i _ => mload r i) (vdat r) v) as (v1 & E1 & A1 & B1 & C1 & W1); auto.
    { intros i Hi. apply mload_ok. lia. }
    rewrite E1. cbn [bind].
    assert (D1 : has_dims (d k) v1) by (destruct (d k) as [[nx ny] nz]; destruct Dv as (? & ? & ?); repeat split; congruence).
    assert (S1 : vsize v1 = dsize (d k)) by now apply has_dims_size.
    destruct (ew_all (int_bound v1) (fun _ a => Ok (a / M)%R) (fun i => vdat v1 i / M)%R v1) as (v2 & E2 & A2 & B2 & C2 & W2).
    { apply int_bound_small. change (elements v1) with (vsize v1). lia. }
    { auto. }
    unfold mem_divs. rewrite E2. cbn [bind].
    assert (D2 : has_dims (d k) v2) by (destruct (d k) as [[nx ny] nz]; destruct D1 as (? & ? & ?); repeat split; congruence).
    inversion N as [|? ? Nk Nr]; subst.
    assert (Vtl : forall k' o, In o others -> In k' (map fst root) -> val (tl o) k' = val o k').
    { intros k' o Ho Hk'. rewrite Forall_forall in K. pose proof (K o Ho) as Ko.
      destruct o as [|[k'' w] o]; [discriminate|]. cbn in Ko. injection Ko as -> Ko.
      unfold val. cbn [tl lookup]. rewrite key_eqb_neq; auto. intros ->. contradiction. }
    assert (Vrt : forall k', In k' (map fst root) -> val ((k, v) :: root) k' = val root k').
    { intros k' Hk'. unfold val. cbn [lookup]. rewrite key_eqb_neq; auto. intros ->. contradiction. }
    destruct (IH (map (@tl _) others)) as (st & Es & Ks & Ws); auto.
    { rewrite Forall_map. eapply Forall_impl; [|exact K]. intros o Ko.
      destruct o as [|[k'' w] o]; [discriminate|]. cbn in Ko |- *. now injection Ko. }
    { intros k' Hk'. destruct (H k') as (Sz' & Dv' & Dw'); [now right|]. split; [exact Sz'|].
      rewrite <- Vrt by exact Hk'. split; [exact Dv'|]. rewrite Forall_map. apply Forall_forall. intros o Ho.
      rewrite Vtl by auto. rewrite Forall_forall in Dw'. auto. }
    rewrite Es. cbn [bind]. exists ((k, v2) :: st). split; [reflexivity|]. split; [cbn; now rewrite Ks|].
    intros k' [<-|Hk'].
    + exists v2. cbn [lookup]. rewrite key_eqb_refl. split; [reflexivity|]. split; [exact D2|].
      intros i Hi. rewrite W2 by (change (elements v1) with (vsize v1); lia).
      rewrite W1 by (change (elements v) with (vsize v); lia). rewrite Wr by exact Hi.
      rewrite Vk, map_map. reflexivity.
    + destruct (Ws k' Hk') as (w & Lw & Dw' & Ww). exists w. split.
      * cbn [lookup]. rewrite key_eqb_neq; auto. intros ->. contradiction.
      * split; [exact Dw'|]. intros i Hi. rewrite Ww by exact Hi. rewrite Vrt by exact Hk'.
        do 2 f_equal. f_equal. rewrite map_map. apply map_ext_in. intros o Ho. now rewrite Vtl.
Qed.

Lemma mapM_spec {A B} (f : A -> res B) (P : A -> B -> Prop) l :
  (forall a, In a l -> exists b, f a = Ok b /\ P a b) ->
  exists bs, mapM f l = Ok bs /\ Forall2 P l bs.
Proof.
  induction l as [|a l IH]; intros H; cbn.
  - exists []. auto.
  - destruct (H a) as (b & Eb & Pb); [now left|]. rewrite Eb. cbn [bind].
    destruct IH as (bs & Ebs & Pbs); [intros; apply H; now right|]. rewrite Ebs. cbn [bind].
    exists (b :: bs). auto.
Qed.

Lemma fold_at_calls u ts ids t f : NoDup ts -> In t ts ->
  fold_at t f (calls_of u ts ids) = fold_left (fun a s => f (u s t) a) ids 0%R.
Proof.
  intros N I. unfold fold_at. generalize 0%R. induction ids as [|s ids IH]; intros a; [reflexivity|].
  unfold calls_of in *. cbn [flat_map fold_left]. rewrite fold_left_app, IH. f_equal.
  clear IH. revert a.
  assert (G : forall l a, ~ In t l ->
    fold_left (fun a c => if fst c =? t then f (snd c) a else a) (map (fun t0 => (t0, u s t0)) l) a = a).
  { induction l as [|b l IHl]; cbn; intros a Hn; [reflexivity|].
    rewrite (proj2 (Z.eqb_neq b t)) by tauto. apply IHl. tauto. }
  induction ts as [|t' ts IH]; intros a; [destruct I|].
  inversion N; subst. cbn [map fold_left fst snd]. destruct (Z.eqb_spec t' t) as [->|Ne].
  - now apply G.
  - destruct I as [I|I]; [congruence|]. now apply IH.
Qed.

Lemma calls_times u ts ids : map fst (calls_of u ts ids) = concat (map (fun _ => ts) ids).
Proof.
  induction ids as [|s ids IH]; [reflexivity|]. unfold calls_of in *. cbn [flat_map map concat].
  rewrite map_app, IH. f_equal. rewrite map_map. cbn. apply map_id.
Qed.

Section Combined.
Variable s : statistic.
Variable Pu : vol R -> Prop.
Variable D : item -> cell.
Variable ctr : item -> vol R -> Z -> R -> R.
Hypothesis Hadd : forall it, In it s -> acts Pu it (D it) (ctr it).
Hypothesis Hnames : NoDup (map it_name s).

Lemma calls_keys u ts ids : ids <> [] -> keys_of s (map fst (calls_of u ts ids)) = keys_of s ts.
Proof.
  intros H. rewrite calls_times. destruct ids as [|a ids]; [congruence|]. cbn [map concat].
  apply keys_of_again. intros t Ht. apply in_concat in Ht. destruct Ht as (l & Hl & Ht).
  apply in_map_iff in Hl. destruct Hl as (_ & <- & _). exact Ht.
Qed.

(** The extents of the snapshot for a key. *)
Definition key_dims (k : key) : cell :=
  match find (fun it => it_name it =? snd k) s with Some it => D it | None => (0, 0, 0) end.
Lemma key_dims_item it t : In it s -> key_dims (t, it_name it) = D it.
Proof.
  intros H. unfold key_dims. cbn [snd]. destruct (find _ s) as [it'|] eqn:F.
  - apply find_some in F. destruct F as (H' & E). apply Z.eqb_eq in E. f_equal. eapply name_inj; eauto.
  - exfalso. eapply find_none in F; eauto. cbn beta in F. rewrite Z.eqb_refl in F. discriminate.
Qed.

(** The value a process has collected. *)
Definition collected (u : Z -> Z -> vol R) (it : item) (t i : Z) (ids : list Z) : R :=
  fold_left (fun a n => ctr it (u n t) i a) ids 0%R.

Theorem combined_spec u ts assign M red :
  0 < M -> distribution_of M assign -> NoDup ts ->
  (forall l, l <> [] -> reduction l (red l)) ->
  (forall n t, 0 <= n < M -> In t ts -> Pu (u n t)) ->
  exists st, run_statistics s red (IZR M) (map (calls_of u ts) assign) = Ok st /\
    map fst st = keys_of s ts /\ NoDup (map fst st) /\
    forall t it, In t ts -> In it s -> exists v, lookup (t, it_name it) st = Some v /\ has_dims (D it) v /\
      forall i, 0 <= i < dsize (D it) ->
        vdat v i = (suml (collected u it t i) assign / IZR M)%R.
Proof.
  intros HM (Hne & Hperm & Hall) Nts Hred HPu.
  unfold run_statistics.
  destruct (mapM_spec (process s) (fun calls st => good s D ctr calls st) (map (calls_of u ts) assign)) as (sts & Es & Hs).
  { intros calls Hc. apply in_map_iff in Hc. destruct Hc as (ids & <- & Hi).
    apply (process_spec s Pu D ctr Hadd Hnames).
    intros c Hc. unfold calls_of in Hc. apply in_flat_map in Hc. destruct Hc as (n & Hn & Hc).
    apply in_map_iff in Hc. destruct Hc as (t & <- & Ht). cbn [snd]. apply HPu; auto.
    apply zrange_In. eapply Permutation_in; [exact Hperm|]. apply in_concat. eauto. }
  rewrite Es. cbn [bind].
  (* every state has the keys of ts and the sums of its own samples *)
  assert (Hst : Forall2 (fun ids st => map fst st = keys_of s ts /\ NoDup (map fst st) /\
    forall t it, In t ts -> In it s -> has_dims (D it) (val st (t, it_name it)) /\
      forall i, 0 <= i < dsize (D it) -> vdat (val st (t, it_name it)) i = collected u it t i ids) assign sts).
  { clear -Hs Hall Nts. revert sts Hs. induction assign as [|ids assign IH]; intros sts Hs; inversion Hs as [|? st ? sts' G Hs']; subst; constructor.
    - inversion Hall as [|? ? Hi _]; subst. destruct G as (K & N & G). rewrite calls_keys in K by exact Hi.
      split; [exact K|]. split; [exact N|]. intros t it Ht Hit.
      destruct (G t it Hit) as (v & Lv & Dv & Wv).
      { rewrite calls_times. destruct ids as [|a ids]; [congruence|]. cbn. apply in_or_app. now left. }
      unfold val. rewrite Lv. split; [exact Dv|]. intros i Hi'. rewrite Wv by exact Hi'.
      now apply fold_at_calls.
    - apply IH; auto. now inversion Hall. }
  destruct assign as [|a0 assign]; [congruence|].
  inversion Hst as [|? root ? others (K0 & N0 & G0) Ho]; subst.
  assert (Ko : Forall (fun o => map fst o = map fst root) others).
  { clear -Ho K0. induction Ho as [|? ? ? ? (K & _)]; constructor; auto. congruence. }
  destruct (combine_spec red (IZR M) key_dims root others) as (st & E & K & W); auto.
  { intros k Hk. rewrite K0 in Hk. apply keys_of_In in Hk. destruct Hk as (t & it & Ht & Hit & ->).
    rewrite key_dims_item by exact Hit. split; [apply (Hadd it Hit)|]. split; [now apply G0|].
    clear -Ho Ht Hit. induction Ho as [|? ? ? ? (_ & _ & G)]; constructor; auto. now apply G. }
  exists st. split; [exact E|]. split; [congruence|]. split; [congruence|].
  intros t it Ht Hit.
  destruct (W (t, it_name it)) as (v & Lv & Dv & Wv).
  { rewrite K0. apply keys_of_In. eauto. }
  rewrite key_dims_item in Dv, Wv by exact Hit.
  exists v. split; [exact Lv|]. split; [exact Dv|]. intros i Hi. rewrite Wv by exact Hi.
  f_equal. assert (Rs : forall a l, red (a :: l) = suml (fun a => a) (a :: l))
    by (intros a l; apply reduction_sum; apply Hred; discriminate).
  rewrite Rs.
  cbn [suml fold_right]. change (fold_right (fun a r => (a + r)%R) 0%R) with (suml (fun a : R => a)).
  rewrite suml_map.
  rewrite (proj2 (G0 t it Ht Hit) i Hi).
  assert (Eo : suml (fun o => vdat (val o (t, it_name it)) i) others = suml (collected u it t i) assign).
  { clear -Ho Ht Hit Hi. induction Ho as [|? ? ? ? (_ & _ & G)]; [reflexivity|]. cbn [suml fold_right].
    unfold suml at 1 in IHHo. rewrite IHHo. rewrite (proj2 (G t it Ht Hit) i Hi). reflexivity. }
  rewrite Eo. reflexivity.
Qed.
End Combined.

(** [it] adds [ctr u i] to element [i], for all volumes with property [Pu]. *)
Definition additive (Pu : vol R -> Prop) (it : item) (d : cell) (ctr : vol R -> Z -> R) : Prop :=
  acts Pu it d (fun u i a => a + ctr u i)%R.

Lemma fold_add (f : Z -> R) l a : fold_left (fun a n => a + f n)%R l a = (a + suml f l)%R.
Proof. revert a. induction l as [|b l IH]; intros a; cbn; [lra|]. rewrite IH. unfold suml. lra. Qed.

(** Additive statistics give the mean over all samples. *)
Theorem average_spec s Pu D ctr u ts assign M red :
  (forall it, In it s -> additive Pu it (D it) (ctr it)) -> NoDup (map it_name s) ->
  0 < M -> distribution_of M assign -> NoDup ts ->
  (forall l, l <> [] -> reduction l (red l)) ->
  (forall n t, 0 <= n < M -> In t ts -> Pu (u n t)) ->
  exists st, run_statistics s red (IZR M) (map (calls_of u ts) assign) = Ok st /\
    map fst st = keys_of s ts /\ NoDup (map fst st) /\
    forall t it, In t ts -> In it s -> exists v, lookup (t, it_name it) st = Some v /\ has_dims (D it) v /\
      forall i, 0 <= i < dsize (D it) ->
        vdat v i = sample_mean M (fun n => ctr it (u n t) i).
Proof.
  intros Hadd Hn HM Hd Nts Hred HPu.
  destruct (combined_spec s Pu D (fun it u i a => a + ctr it u i)%R Hadd Hn u ts assign M red HM Hd Nts Hred HPu)
    as (st & E & K & N & W).
  exists st. split; [exact E|]. split; [exact K|]. split; [exact N|]. intros t it Ht Hit.
  destruct (W t it Ht Hit) as (v & Lv & Dv & Wv). exists v. split; [exact Lv|]. split; [exact Dv|].
  intros i Hi. rewrite Wv by exact Hi. unfold sample_mean. f_equal.
  destruct Hd as (_ & Hperm & _).
  rewrite <- suml_sumz, <- (suml_perm _ _ _ Hperm), suml_concat. apply suml_ext. intros ids _.
  unfold collected. rewrite fold_add. lra.
Qed.
