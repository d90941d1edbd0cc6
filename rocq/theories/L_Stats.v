(** Lemmas about the statistics: snapshots, sums and reductions. *)
From Coq Require Import ZArith Reals List Bool Lia Lra Permutation.
From Verif Require Import M_Base L_Base M_Sim L_Sim M_Memory S_Memory L_Memory S_Sum L_Sum M_Stats S_Stats.
Import ListNotations.
Open Scope Z_scope.

Lemma key_eqb_eq a b : key_eqb a b = true <-> a = b.
Proof.
  destruct a as [a1 a2], b as [b1 b2]. unfold key_eqb. cbn.
  rewrite andb_true_iff, !Z.eqb_eq. split; [intros [-> ->]; reflexivity|intros E; injection E; auto].
Qed.
Lemma key_eqb_refl a : key_eqb a a = true.
Proof. now apply key_eqb_eq. Qed.
Lemma key_eqb_neq a b : a <> b -> key_eqb a b = false.
Proof. intros H. destruct (key_eqb a b) eqn:E; [apply key_eqb_eq in E; contradiction|reflexivity]. Qed.
Lemma key_eq_dec (a b : key) : {a = b} + {a <> b}.
Proof. repeat decide equality. Qed.

(** Key lists. *)
Fixpoint insk (k : key) (ks : list key) : list key :=
  match ks with
  | [] => [k]
  | k' :: ks' => if key_ltb k k' then k :: ks else k' :: insk k ks'
  end.
Definition addk (k : key) (ks : list key) : list key :=
  if in_dec key_eq_dec k ks then ks else insk k ks.

Lemma insert_keys k v st : map fst (insert k v st) = insk k (map fst st).
Proof.
  induction st as [|[k' v'] st IH]; [reflexivity|]. cbn. destruct (key_ltb k k'); [reflexivity|].
  cbn. now rewrite IH.
Qed.
Lemma insk_In k a ks : In a (insk k ks) <-> a = k \/ In a ks.
Proof.
  induction ks as [|k' ks IH]; cbn; [intuition|]. destruct (key_ltb k k'); cbn; [intuition|].
  rewrite IH. intuition.
Qed.
Lemma insk_NoDup k ks : ~ In k ks -> NoDup ks -> NoDup (insk k ks).
Proof.
  induction ks as [|k' ks IH]; cbn; intros H N; [repeat constructor; auto|].
  destruct (key_ltb k k'); [constructor; auto|].
  inversion N; subst. constructor; [|apply IH; auto].
  rewrite insk_In. intros [E|E]; [apply H; left; auto|contradiction].
Qed.
Lemma addk_In k a ks : In a (addk k ks) <-> a = k \/ In a ks.
Proof.
  unfold addk. destruct (in_dec key_eq_dec k ks) as [I|I]; [|apply insk_In].
  split; [auto|]. intros [->|H]; auto.
Qed.
Lemma addk_NoDup k ks : NoDup ks -> NoDup (addk k ks).
Proof. unfold addk. destruct (in_dec key_eq_dec k ks); auto. intros. now apply insk_NoDup. Qed.
Lemma addk_old k ks : In k ks -> addk k ks = ks.
Proof. unfold addk. destruct (in_dec key_eq_dec k ks); tauto. Qed.

Lemma replace_keys k v st : map fst (replace k v st) = map fst st.
Proof.
  induction st as [|[k' v'] st IH]; [reflexivity|]. cbn. destruct (key_eqb k k') eqn:E.
  - apply key_eqb_eq in E. subst. reflexivity.
  - cbn. now rewrite IH.
Qed.

Lemma lookup_None k st : lookup k st = None <-> ~ In k (map fst st).
Proof.
  induction st as [|[k' v] st IH]; cbn; [intuition|].
  destruct (key_eqb k k') eqn:E.
  - apply key_eqb_eq in E. subst. split; [discriminate|]. intros H. exfalso. apply H. now left.
  - rewrite IH. split; intros H; [|tauto]. intros [F|F]; [|tauto].
    subst. rewrite key_eqb_refl in E. discriminate.
Qed.

Lemma lookup_insert_same k v st : lookup k st = None -> lookup k (insert k v st) = Some v.
Proof.
  induction st as [|[k' v'] st IH]; cbn; intros H; [now rewrite key_eqb_refl|].
  destruct (key_eqb k k') eqn:E; [discriminate|].
  destruct (key_ltb k k'); cbn; [now rewrite key_eqb_refl|]. rewrite E. auto.
Qed.
Lemma lookup_insert_other k a v st : a <> k -> lookup a (insert k v st) = lookup a st.
Proof.
  intros H. induction st as [|[k' v'] st IH]; cbn.
  - now rewrite key_eqb_neq.
  - destruct (key_ltb k k'); cbn.
    + now rewrite (key_eqb_neq a k).
    + destruct (key_eqb a k'); auto.
Qed.
Lemma lookup_replace_same k v st : lookup k st <> None -> lookup k (replace k v st) = Some v.
Proof.
  induction st as [|[k' v'] st IH]; cbn; intros H; [congruence|].
  destruct (key_eqb k k') eqn:E; cbn; [now rewrite key_eqb_refl|]. rewrite E. auto.
Qed.
Lemma lookup_replace_other k a v st : a <> k -> lookup a (replace k v st) = lookup a st.
Proof.
  intros H. induction st as [|[k' v'] st IH]; cbn; [reflexivity|].
  destruct (key_eqb k k') eqn:E; cbn.
  - apply key_eqb_eq in E. subst k'. now rewrite !(key_eqb_neq a k).
  - destruct (key_eqb a k'); auto.
Qed.

(** * Statistics acting on each element *)

Lemma has_dims_size d v : has_dims d v -> vsize v = dsize d.
Proof. destruct d as [[a b] c]. unfold has_dims, vsize, dsize. intros (-> & -> & ->). reflexivity. Qed.

(** [it] replaces the value [a] of element [i] by [ctr u i a], for all volumes
    with property [Pu]. *)
Definition acts (Pu : vol R -> Prop) (it : item) (d : cell) (ctr : vol R -> Z -> R -> R) : Prop :=
  0 <= dsize d < 2 ^ 31 /\
  forall u, Pu u -> it_dims it u = d /\
    forall v, has_dims d v -> exists v', it_update it v u = Ok v' /\ has_dims d v' /\
      forall i, 0 <= i < dsize d -> vdat v' i = ctr u i (vdat v i).

(** Value after the calls at time [t]. *)
Definition fold_at (t : Z) (f : vol R -> R -> R) (calls : list (Z * vol R)) : R :=
  fold_left (fun a c => if fst c =? t then f (snd c) a else a) calls 0%R.

Lemma suml_app {A} (f : A -> R) l1 l2 : suml f (l1 ++ l2) = (suml f l1 + suml f l2)%R.
Proof. unfold suml. induction l1; cbn; [lra|]. rewrite IHl1. lra. Qed.

Section Acts.
Variable s : statistic.
Variable Pu : vol R -> Prop.
Variable D : item -> cell.
Variable ctr : item -> vol R -> Z -> R -> R.
Hypothesis Hadd : forall it, In it s -> acts Pu it (D it) (ctr it).
Hypothesis Hnames : NoDup (map it_name s).

Lemma name_inj it it' : In it s -> In it' s -> it_name it = it_name it' -> it = it'.
Proof.
  intros H H' E. clear Hadd. induction s as [|a l IH]; [destruct H|].
  cbn in Hnames. inversion Hnames as [|? ? Na Nl]; subst.
  destruct H as [->|H], H' as [->|H']; auto.
  - exfalso. apply Na. rewrite E. now apply in_map.
  - exfalso. apply Na. rewrite <- E. now apply in_map.
Qed.

Definition keys_step (t : Z) (ks : list key) : list key :=
  fold_left (fun ks it => addk (t, it_name it) ks) s ks.
Definition keys_of (ts : list Z) : list key := fold_left (fun ks t => keys_step t ks) ts [].

Lemma fold_addk_In l t ks a :
  In a (fold_left (fun ks it => addk (t, it_name it) ks) l ks) <->
  In a ks \/ exists it, In it l /\ a = (t, it_name it).
Proof.
  revert ks. induction l as [|it l IH]; intros ks; cbn.
  - split; [auto|]. intros [H|[it [[] _]]]; auto.
  - rewrite IH, addk_In. split.
    + intros [[->|H]|[it' [H E]]]; eauto.
    + intros [H|[it' [[->|H] E]]]; eauto.
Qed.
Lemma fold_addk_NoDup l t ks : NoDup ks -> NoDup (fold_left (fun ks it => addk (t, it_name it) ks) l ks).
Proof. revert ks. induction l as [|it l IH]; intros ks H; cbn; auto. apply IH. now apply addk_NoDup. Qed.
Lemma fold_addk_old l t ks : (forall it, In it l -> In (t, it_name it) ks) ->
  fold_left (fun ks it => addk (t, it_name it) ks) l ks = ks.
Proof.
  revert ks. induction l as [|it l IH]; intros ks H; cbn; auto.
  rewrite addk_old by (apply H; now left). apply IH. intros. apply H. now right.
Qed.

Lemma keys_of_In ts a : In a (keys_of ts) <-> exists t it, In t ts /\ In it s /\ a = (t, it_name it).
Proof.
  unfold keys_of.
  assert (G : forall ks, In a (fold_left (fun ks t => keys_step t ks) ts ks) <->
    In a ks \/ exists t it, In t ts /\ In it s /\ a = (t, it_name it)).
  { induction ts as [|t ts IH]; intros ks; cbn.
    - split; [auto|]. intros [H|(t & it & [] & _)]; auto.
    - rewrite IH. unfold keys_step at 1. rewrite fold_addk_In. split.
      + intros [[H|(it & H & E)]|(t' & it & H & H' & E)]; eauto 10.
      + intros [H|(t' & it & [->|H] & H' & E)]; eauto 10. }
  rewrite G. split; [intros [[]|H]; exact H|auto].
Qed.

Lemma keys_of_again ts ts' : (forall t, In t ts' -> In t ts) -> keys_of (ts ++ ts') = keys_of ts.
Proof.
  intros H. unfold keys_of. rewrite fold_left_app. fold (keys_of ts).
  assert (G : forall t, In t ts' -> forall it, In it s -> In (t, it_name it) (keys_of ts)).
  { intros t Ht it Hit. apply keys_of_In. exists t, it. auto. }
  clear H. induction ts' as [|t ts' IH]; cbn; [reflexivity|].
  unfold keys_step at 2. rewrite fold_addk_old by (intros; apply G; auto; now left).
  apply IH. intros. apply G; auto. now right.
Qed.

Lemma zero_area d : 0 <= dsize d < 2 ^ 31 ->
  exists v, mem_zero (new_area d) = Ok v /\ has_dims d v /\ forall i, 0 <= i < dsize d -> vdat v i = 0%R.
Proof.
  intros H. destruct d as [[nx ny] nz].
  assert (E : int_bound (new_area (nx, ny, nz)) = vsize (new_area (nx, ny, nz))).
  { apply int_bound_small. exact H. }
  destruct (ew_all (int_bound (new_area (nx, ny, nz))) (fun _ _ => Ok 0%R) (fun _ => 0%R) (new_area (nx, ny, nz)))
    as (v & Ev & A & B & C & W); auto.
  exists v. split; [exact Ev|]. split; [repeat split; assumption|]. exact W.
Qed.

(** Phase 1: creating. *)
Lemma create_spec t u l st : Pu u -> (forall it, In it l -> In it s) -> NoDup (map it_name l) ->
  NoDup (map fst st) ->
  exists st1, fold_res (fun it st => find_or_create (t, it_name it) (it_dims it u) st) l st = Ok st1 /\
    map fst st1 = fold_left (fun ks it => addk (t, it_name it) ks) l (map fst st) /\
    (forall k, (forall it, In it l -> k <> (t, it_name it)) -> lookup k st1 = lookup k st) /\
    (forall it, In it l -> exists v, lookup (t, it_name it) st1 = Some v /\
       (lookup (t, it_name it) st = Some v \/
        (lookup (t, it_name it) st = None /\ has_dims (D it) v /\
         forall i, 0 <= i < dsize (D it) -> vdat v i = 0%R))).
Proof.
  intros HP. revert st. induction l as [|it l IH]; intros st Hl Hn Hd.
  - exists st. cbn. repeat split; auto. intros it [].
  - cbn [fold_res map fold_left]. cbn in Hn. inversion Hn as [|? ? Na Nl]; subst.
    destruct (Hadd it (Hl it (or_introl eq_refl))) as (Sz & Ha). destruct (Ha u HP) as (Ed & _).
    assert (Step : exists st0, find_or_create (t, it_name it) (it_dims it u) st = Ok st0 /\
      map fst st0 = addk (t, it_name it) (map fst st) /\
      (forall k, k <> (t, it_name it) -> lookup k st0 = lookup k st) /\
      exists v, lookup (t, it_name it) st0 = Some v /\
       (lookup (t, it_name it) st = Some v \/
        (lookup (t, it_name it) st = None /\ has_dims (D it) v /\
         forall i, 0 <= i < dsize (D it) -> vdat v i = 0%R))).
    { unfold find_or_create. destruct (lookup (t, it_name it) st) as [v|] eqn:E.
      - exists st. split; [reflexivity|]. split.
        + symmetry. apply addk_old. destruct (in_dec key_eq_dec (t, it_name it) (map fst st)) as [I|I]; auto.
          apply lookup_None in I. congruence.
        + split; [auto|]. exists v. auto.
      - rewrite Ed. destruct (zero_area (D it) Sz) as (v & Ev & Dv & Zv). rewrite Ev. cbn [bind].
        exists (insert (t, it_name it) v st). split; [reflexivity|]. split; [|split].
        + rewrite insert_keys. unfold addk. destruct (in_dec key_eq_dec (t, it_name it) (map fst st)) as [I|I]; auto.
          apply lookup_None in E. contradiction.
        + intros k Hk. now apply lookup_insert_other.
        + exists v. split; [now apply lookup_insert_same|]. right. auto. }
    destruct Step as (st0 & E0 & K0 & O0 & v0 & L0 & C0). rewrite E0. cbn [bind].
    destruct (IH st0) as (st1 & E1 & K1 & O1 & C1); auto.
    { intros. apply Hl. now right. }
    { rewrite K0. now apply addk_NoDup. }
    exists st1. split; [exact E1|]. split; [rewrite K1, K0; reflexivity|]. split.
    + intros k Hk. rewrite O1 by (intros; apply Hk; now right). apply O0. apply Hk. now left.
    + intros it' [<-|Hit'].
      * exists v0. split; [|exact C0]. rewrite O1; auto.
        intros it' Hit' X. injection X as X. apply Na. rewrite X. now apply in_map.
      * destruct (C1 it' Hit') as (v & Lv & Cv). exists v. split; [exact Lv|].
        rewrite O0 in Cv; [exact Cv|]. intros X. injection X as X. apply Na. rewrite <- X. now apply in_map.
Qed.

(** Phase 2: updating. *)
Lemma update_spec t u l st : Pu u -> (forall it, In it l -> In it s) -> NoDup (map it_name l) ->
  (forall it, In it l -> exists v, lookup (t, it_name it) st = Some v /\ has_dims (D it) v) ->
  exists st1, fold_res (fun it st => update_item it t u st) l st = Ok st1 /\
    map fst st1 = map fst st /\
    (forall k, (forall it, In it l -> k <> (t, it_name it)) -> lookup k st1 = lookup k st) /\
    (forall it v, In it l -> lookup (t, it_name it) st = Some v -> exists v', lookup (t, it_name it) st1 = Some v' /\
       has_dims (D it) v' /\ forall i, 0 <= i < dsize (D it) -> vdat v' i = ctr it u i (vdat v i)).
Proof.
  intros HP. revert st. induction l as [|it l IH]; intros st Hl Hn Hv.
  - exists st. cbn. repeat split; auto. intros it v [].
  - cbn [fold_res]. cbn in Hn. inversion Hn as [|? ? Na Nl]; subst.
    destruct (Hadd it (Hl it (or_introl eq_refl))) as (Sz & Ha). destruct (Ha u HP) as (_ & Hu).
    destruct (Hv it (or_introl eq_refl)) as (v & Lv & Dv).
    destruct (Hu v Dv) as (v' & Eu & Dv' & Wv').
    unfold update_item at 1. rewrite Lv, Eu. cbn [bind].
    set (st0 := replace (t, it_name it) v' st).
    assert (L0 : forall k, k <> (t, it_name it) -> lookup k st0 = lookup k st)
      by (intros; now apply lookup_replace_other).
    assert (Oth : forall it', In it' l -> (t, it_name it') <> (t, it_name it)).
    { intros it' Hit' X. injection X as X. apply Na. rewrite <- X. now apply in_map. }
    destruct (IH st0) as (st1 & E1 & K1 & O1 & C1); auto.
    { intros. apply Hl. now right. }
    { intros it' Hit'. rewrite L0 by auto. apply Hv. now right. }
    exists st1. split; [exact E1|]. split; [rewrite K1; apply replace_keys|]. split.
    + intros k Hk. rewrite O1 by (intros; apply Hk; now right). apply L0. apply Hk. now left.
    + intros it' w [<-|Hit'] Lw.
      * rewrite Lv in Lw. injection Lw as <-. exists v'. split; [|auto].
        rewrite O1 by (intros; apply not_eq_sym; now apply Oth).
        apply lookup_replace_same. congruence.
      * apply C1; auto. rewrite L0 by auto. exact Lw.
Qed.

Definition good (pre : list (Z * vol R)) (st : snaps) : Prop :=
  map fst st = keys_of (map fst pre) /\ NoDup (map fst st) /\
  forall t it, In it s -> In t (map fst pre) ->
    exists v, lookup (t, it_name it) st = Some v /\ has_dims (D it) v /\
      forall i, 0 <= i < dsize (D it) -> vdat v i = fold_at t (fun u => ctr it u i) pre.

Lemma fold_at_none t f calls : ~ In t (map fst calls) -> fold_at t f calls = 0%R.
Proof.
  unfold fold_at. intros H.
  assert (G : forall a, fold_left (fun a c => if fst c =? t then f (snd c) a else a) calls a = a).
  { induction calls as [|[t' u] calls IH]; cbn; intros a; [reflexivity|].
    cbn in H. rewrite (proj2 (Z.eqb_neq t' t)) by tauto. apply IH. tauto. }
  apply G.
Qed.

Lemma process_spec calls : (forall c, In c calls -> Pu (snd c)) ->
  exists st, process s calls = Ok st /\ good calls st.
Proof.
  intros HP. unfold process. apply fold_res_inv.
  - split; [reflexivity|]. split; [constructor|]. intros t it _ [].
  - intros pre [t u] post st Ec (K & N & G).
    assert (Hu : Pu u).
    { apply (HP (t, u)). rewrite Ec. apply in_or_app. right. now left. }
    unfold compute_statistics.
    destruct (create_spec t u s st) as (st1 & E1 & K1 & O1 & C1); auto.
    rewrite E1. cbn [bind].
    destruct (update_spec t u s st1) as (st2 & E2 & K2 & O2 & C2); auto.
    { intros it Hit. destruct (C1 it Hit) as (v & Lv & [Cv|(_ & Cv & _)]); exists v; split; auto.
      destruct (in_dec Z.eq_dec t (map fst pre)) as [I|I].
      - destruct (G t it Hit I) as (w & Lw & Dw & _). rewrite Cv in Lw. injection Lw as <-. exact Dw.
      - exfalso. assert (X : lookup (t, it_name it) st = None).
        { apply lookup_None. rewrite K, keys_of_In. intros (t' & it' & H & _ & E). injection E as -> _. contradiction. }
        congruence. }
    exists st2. split; [exact E2|]. unfold good. split; [|split].
    + rewrite K2, K1, K, map_app. unfold keys_of. rewrite fold_left_app. reflexivity.
    + rewrite K2, K1. now apply fold_addk_NoDup.
    + intros t' it Hit Ht'. destruct (Z.eq_dec t' t) as [->|Nt].
      * destruct (C1 it Hit) as (v & Lv & Cv). destruct (C2 it v Hit Lv) as (v' & Lv' & Dv' & Wv').
        exists v'. split; [exact Lv'|]. split; [exact Dv'|]. intros i Hi. rewrite Wv' by exact Hi.
        unfold fold_at. rewrite fold_left_app. cbn [fold_left fst snd]. rewrite Z.eqb_refl. f_equal.
        change (vdat v i = fold_at t (fun u0 => ctr it u0 i) pre).
        destruct (in_dec Z.eq_dec t (map fst pre)) as [I|I].
        -- destruct (G t it Hit I) as (w & Lw & _ & Ww). destruct Cv as [Cv|(Cv & _)]; [|congruence].
           rewrite Cv in Lw. injection Lw as <-. now apply Ww.
        -- assert (X : lookup (t, it_name it) st = None).
           { apply lookup_None. rewrite K, keys_of_In. intros (t'' & it' & H & _ & E). injection E as -> _. contradiction. }
           destruct Cv as [Cv|(_ & _ & Zv)]; [congruence|]. rewrite Zv by exact Hi. symmetry. now apply fold_at_none.
      * rewrite map_app, in_app_iff in Ht'. cbn in Ht'.
        destruct Ht' as [Ht'|[Ht'|[]]]; [|congruence].
        destruct (G t' it Hit Ht') as (w & Lw & Dw & Ww).
        exists w. split; [|split; [exact Dw|]].
        -- rewrite O2, O1; auto; intros it' _ X; injection X as X _; congruence.
        -- intros i Hi. rewrite Ww by exact Hi. unfold fold_at. rewrite fold_left_app. cbn [fold_left fst snd].
           rewrite (proj2 (Z.eqb_neq t t')) by auto. reflexivity.
Qed.
End Acts.
