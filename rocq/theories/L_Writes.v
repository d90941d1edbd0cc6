(** The finished runs of a parallel loop whose iterations agree on what they store,
    whatever the order: no independence is needed. *)
From Coq Require Import ZArith List Bool Lia.
From Verif Require Import M_Base L_Base M_Flux M_Omp L_Omp M_Cuda L_Cuda.
Import ListNotations.
Open Scope Z_scope.

Section Writes.
Context {A X : Type} (size : Z -> Z) (m0 : shared A).
Notation prog := (prog A X).

(** What an iteration stores if its loads find the initial values. *)
Fixpoint writes (p : prog) : list (Z * Z * A) :=
  match p with
  | Fetch a i k => writes (k (m0 a i))
  | Store a i v k => (a, i, v) :: writes k
  | _ => []
  end.
(** Its loads are outside of [O] and of what it has stored before. *)
Fixpoint sep (O : Z -> Z -> Prop) (p : prog) : Prop :=
  match p with
  | Fetch a i k => ~ O a i /\ sep O (k (m0 a i))
  | Store a i v k => sep (fun b j => O b j \/ (b = a /\ j = i)) k
  | _ => True
  end.
Lemma sep_mono p : forall O O' : Z -> Z -> Prop, (forall a i, O' a i -> O a i) -> sep O p -> sep O' p.
Proof.
  induction p as [xs|a i k IH|a i v k IH|]; intros O O' HO S; cbn in *; auto.
  - destruct S as [N S]. split; [auto|]. eapply IH; eauto.
  - eapply IH; [|exact S]. cbn. intros b j [?|?]; auto.
Qed.

Definition alone (m : shared A) (qs : list prog) : Prop :=
  forall l q r, qs = l ++ q :: r -> exists O : Z -> Z -> Prop, sep O q /\
    (forall a i, ~ O a i -> m a i = m0 a i) /\
    (forall q' a i v, In q' (l ++ r) -> In (a, i, v) (writes q') -> O a i).
Definition winv (W : Z -> Z -> A -> Prop) (st : shared A * list prog) : Prop :=
  let (m, qs) := st in
  alone m qs /\
  (forall q a i v, In q qs -> In (a, i, v) (writes q) -> W a i v) /\
  (forall a i v, W a i v -> m a i = v \/ exists q, In q qs /\ In (a, i, v) (writes q)) /\
  (forall a i, m a i = m0 a i \/ W a i (m a i)).

Lemma alone_step m l p r m' p' :
  (forall a i v, In (a, i, v) (writes p') -> In (a, i, v) (writes p)) ->
  (forall a i, m' a i = m a i \/ exists v, In (a, i, v) (writes p)) ->
  (forall O, sep O p -> (forall a i, ~ O a i -> m a i = m0 a i) ->
     exists O' : Z -> Z -> Prop, (forall a i, O a i -> O' a i) /\ sep O' p' /\ forall a i, ~ O' a i -> m' a i = m0 a i) ->
  alone m (l ++ p :: r) -> alone m' (l ++ p' :: r).
Proof.
  intros Hw Hm Hp H l1 q r1 E. destruct (two_places _ _ _ _ _ _ E) as [(-> & -> & ->)|[(c & -> & ->)|(c & -> & ->)]].
  - destruct (H l1 p r1 eq_refl) as (O & S & Ag & Ot). destruct (Hp O S Ag) as (O' & H1 & H2 & H3).
    exists O'. split; [exact H2|]. split; [exact H3|]. intros; eauto.
  - destruct (H (l ++ p :: c) q r1) as (O & S & Ag & Ot); [rewrite <- app_assoc; reflexivity|].
    exists O. split; [exact S|]. split.
    + intros a i Ho. destruct (Hm a i) as [->|(v & Hv)]; [auto|]. exfalso. apply Ho.
      apply (Ot p a i v); [|exact Hv]. rewrite !in_app_iff. cbn. auto.
    + intros q' a i v Hq Hv. rewrite !in_app_iff in Hq. cbn in Hq.
      destruct Hq as [[Hq|[<-|Hq]]|Hq]; [apply (Ot q' a i v)|apply (Ot p a i v)|apply (Ot q' a i v)|apply (Ot q' a i v)]; auto;
        rewrite !in_app_iff; cbn; auto.
  - destruct (H l1 q (c ++ p :: r)) as (O & S & Ag & Ot); [rewrite <- app_assoc; reflexivity|].
    exists O. split; [exact S|]. split.
    + intros a i Ho. destruct (Hm a i) as [->|(v & Hv)]; [auto|]. exfalso. apply Ho.
      apply (Ot p a i v); [|exact Hv]. rewrite !in_app_iff. cbn. auto.
    + intros q' a i v Hq Hv. rewrite !in_app_iff in Hq. cbn in Hq.
      destruct Hq as [Hq|[Hq|[<-|Hq]]]; [apply (Ot q' a i v)|apply (Ot q' a i v)|apply (Ot p a i v)|apply (Ot q' a i v)]; auto;
        rewrite !in_app_iff; cbn; auto.
Qed.

Lemma winv_step (W : Z -> Z -> A -> Prop) st st' : (forall a i v v', W a i v -> W a i v' -> v = v') ->
  winv W st -> pstep size st st' -> winv W st'.
Proof.
  intros Hc H Hs. inversion Hs; subst; clear Hs; destruct H as (Al & Sub & All & From).
  - destruct (Al l (Fetch a i k) r eq_refl) as (O & S & Ag & Ot). cbn in S. destruct S as [No S].
    assert (m a i = m0 a i) as E by auto.
    assert (Wr : writes (k (m a i)) = writes (Fetch a i k)) by (rewrite E; reflexivity).
    split; [|split; [|split]].
    + eapply alone_step; [| | |exact Al].
      * intros b j v. rewrite Wr. auto.
      * auto.
      * intros O1 S1 A1. exists O1. split; [auto|]. split; [|auto]. rewrite E. apply S1.
    + intros q b j v Hq Hv. rewrite in_app_iff in Hq. cbn in Hq. destruct Hq as [Hq|[<-|Hq]].
      * apply (Sub q); [rewrite in_app_iff; auto|exact Hv].
      * rewrite Wr in Hv. apply (Sub (Fetch a i k)); [rewrite in_app_iff; cbn; auto|exact Hv].
      * apply (Sub q); [rewrite in_app_iff; cbn; auto|exact Hv].
    + intros b j v Hw. destruct (All b j v Hw) as [?|(q & Hq & Hv)]; [auto|]. right.
      rewrite in_app_iff in Hq. cbn in Hq. destruct Hq as [Hq|[<-|Hq]].
      * exists q. rewrite in_app_iff. auto.
      * exists (k (m a i)). rewrite in_app_iff, Wr. cbn. auto.
      * exists q. rewrite in_app_iff. cbn. auto.
    + exact From.
  - assert (W a i v) as Hw by (apply (Sub (Store a i v k)); [rewrite in_app_iff; cbn; auto|cbn; auto]).
    split; [|split; [|split]].
    + eapply alone_step; [| | |exact Al].
      * intros b j w. cbn. auto.
      * intros b j. unfold put. destruct (Z.eqb_spec b a) as [->|], (Z.eqb_spec j i) as [->|]; cbn; eauto.
      * intros O1 S1 A1. exists (fun b j => O1 b j \/ (b = a /\ j = i)). split; [auto|]. split; [exact S1|].
        intros b j Hn. unfold put. destruct (Z.eqb_spec b a) as [->|], (Z.eqb_spec j i) as [->|]; cbn; try (apply A1; tauto).
        exfalso. apply Hn. auto.
    + intros q b j w Hq Hv. rewrite in_app_iff in Hq. cbn in Hq. destruct Hq as [Hq|[<-|Hq]].
      * apply (Sub q); [rewrite in_app_iff; auto|exact Hv].
      * apply (Sub (Store a i v k)); [rewrite in_app_iff; cbn; auto|cbn; auto].
      * apply (Sub q); [rewrite in_app_iff; cbn; auto|exact Hv].
    + intros b j w Hw'. unfold put. destruct (Z.eqb_spec b a) as [->|Nb], (Z.eqb_spec j i) as [->|Nj]; cbn; try (left; eauto; fail);
      (destruct (All _ _ _ Hw') as [?|(q & Hq & Hv)]; [auto|]; right;
       rewrite in_app_iff in Hq; cbn in Hq; destruct Hq as [Hq|[<-|Hq]];
       [exists q; rewrite in_app_iff; auto
       |cbn in Hv; destruct Hv as [Hv|Hv]; [congruence|exists k; rewrite in_app_iff; cbn; auto]
       |exists q; rewrite in_app_iff; cbn; auto]).
    + intros b j. unfold put. destruct (Z.eqb_spec b a) as [->|Nb], (Z.eqb_spec j i) as [->|Nj]; cbn; auto.
Qed.
Lemma winv_steps (W : Z -> Z -> A -> Prop) n : (forall a i v v', W a i v -> W a i v' -> v = v') -> forall st st', winv W st -> psteps size n st st' -> winv W st'.
Proof.
  intros Hc. induction n as [|n IH]; intros st st' H Hs; inversion Hs; subst; [exact H|].
  eapply IH; [|eassumption]. eapply winv_step; eauto.
Qed.

(** Iterations numbered by [is]. *)
Definition stored {I} (is : list I) (f : I -> prog) (a i : Z) (v : A) : Prop := exists t, In t is /\ In (a, i, v) (writes (f t)).

Lemma consistent_outcome {I} (is : list I) (f : I -> prog) m' xs : NoDup is ->
  (forall t, In t is -> sep (fun a i => exists t' v, In t' is /\ t' <> t /\ In (a, i, v) (writes (f t'))) (f t)) ->
  (forall a i v v', stored is f a i v -> stored is f a i v' -> v = v') ->
  outcome size (map f is) m0 (Ok (m', xs)) ->
  (forall a i v, stored is f a i v -> m' a i = v) /\
  (forall a i, (forall v, ~ stored is f a i v) -> m' a i = m0 a i).
Proof.
  intros ND Hs Hc Ho. inversion Ho as [n ? xss Hn|]; subst.
  assert (winv (stored is f) (m0, map f is)) as H0.
  { split; [|split; [|split]].
    - intros l q r E. apply map_eq_app in E. destruct E as (i1 & i2 & -> & <- & E).
      destruct i2 as [|t i2]; [discriminate|]. cbn in E. injection E as <- <-.
      eexists. split; [apply Hs; rewrite in_app_iff; cbn; auto|]. split; [reflexivity|].
      intros q' a i v Hq Hv. rewrite <- map_app in Hq. apply in_map_iff in Hq. destruct Hq as (t' & <- & Ht').
      exists t', v. split; [rewrite in_app_iff in *; cbn; tauto|]. split; [|exact Hv].
      intros ->. apply NoDup_remove_2 in ND. contradiction.
    - intros q a i v Hq Hv. apply in_map_iff in Hq. destruct Hq as (t & <- & Ht). exists t. auto.
    - intros a i v (t & Ht & Hv). right. exists (f t). split; [apply in_map; exact Ht|exact Hv].
    - auto. }
  pose proof (winv_steps _ n Hc _ _ H0 Hn) as (_ & _ & All & From). split.
  - intros a i v Hv. destruct (All a i v Hv) as [?|(q & Hq & Hw)]; [assumption|].
    apply in_map_iff in Hq. destruct Hq as (ys & <- & _). destruct Hw.
  - intros a i Hn'. destruct (From a i) as [?|Hw]; [assumption|]. exfalso. eapply Hn'; eauto.
Qed.

(** Kernels. *)
Definition inkernel (n lo : ivec) (c : cell) : Prop :=
  let '(x, y, z) := c in lo 0 <= x < lo 0 + n 0 /\ lo 1 <= y < lo 1 + n 1 /\ lo 2 <= z < lo 2 + n 2.
Definition atcell (body : Z -> Z -> Z -> prog) (c : cell) : prog := let '(x, y, z) := c in body x y z.

Lemma kernel_outcome block n lo (body : Z -> Z -> Z -> prog) m' xs : 0 < block -> good n ->
  (forall c, inkernel n lo c ->
     sep (fun a i => exists c' v, inkernel n lo c' /\ c' <> c /\ In (a, i, v) (writes (atcell body c'))) (atcell body c)) ->
  (forall c c' a i v v', inkernel n lo c -> inkernel n lo c' ->
     In (a, i, v) (writes (atcell body c)) -> In (a, i, v') (writes (atcell body c')) -> v = v') ->
  outcome size (kernel block n lo body) m0 (Ok (m', xs)) ->
  (forall c a i v, inkernel n lo c -> In (a, i, v) (writes (atcell body c)) -> m' a i = v) /\
  (forall a i, (forall c v, inkernel n lo c -> ~ In (a, i, v) (writes (atcell body c))) -> m' a i = m0 a i).
Proof.
  intros Hb Hn Hs Hc Ho. rewrite kernel_good in Ho by exact Hn.
  set (N := n 0 * n 1 * n 2) in *.
  assert (0 <= N) as HN by (unfold N; destruct Hn as (? & ? & ? & _); nia).
  pose proof (threads_ge block N Hb HN) as Ht.
  (* threads and cells *)
  assert (T : forall t, 0 <= t -> thread n lo body t = Ret [] \/
    exists c, inkernel n lo c /\ thread n lo body t = atcell body c /\
      forall t', 0 <= t' -> t' <> t -> thread n lo body t' = Ret [] \/
        exists c', inkernel n lo c' /\ thread n lo body t' = atcell body c' /\ c' <> c).
  { intros t Ht0. destruct (thread_coords n t Hn Ht0) as (Hx & Hy & Hz & Et & Hzz).
    destruct (Z_lt_dec t N) as [L|L]; [|left; apply thread_out; [exact Hn|unfold N in L; lia]].
    right. apply Hzz in L. exists (t mod n 0 + lo 0, (t / n 0) mod n 1 + lo 1, t / (n 0 * n 1) + lo 2).
    split; [cbn; lia|]. split; [rewrite Et at 1; apply thread_in; auto; lia|].
    intros t' Ht0' Ne. destruct (thread_coords n t' Hn Ht0') as (Hx' & Hy' & Hz' & Et' & Hzz').
    destruct (Z_lt_dec t' N) as [L'|L']; [|left; apply thread_out; [exact Hn|unfold N in L'; lia]].
    right. apply Hzz' in L'. exists (t' mod n 0 + lo 0, (t' / n 0) mod n 1 + lo 1, t' / (n 0 * n 1) + lo 2).
    split; [cbn; lia|]. split; [rewrite Et' at 1; apply thread_in; auto; lia|].
    intros K. injection K as K0 K1 K2. apply Ne. rewrite Et, Et'.
    replace (t' mod n 0) with (t mod n 0) by lia. replace ((t' / n 0) mod n 1) with ((t / n 0) mod n 1) by lia.
    replace (t' / (n 0 * n 1)) with (t / (n 0 * n 1)) by lia. reflexivity. }
  assert (S1 : forall a i v, stored (zrange 0 (threads block N)) (thread n lo body) a i v <->
                 exists c, inkernel n lo c /\ In (a, i, v) (writes (atcell body c))).
  { intros a i v. split.
    - intros (t & Hi & Hv). apply zrange_In in Hi. destruct (T t ltac:(lia)) as [E|(c & Hk & E & _)]; rewrite E in Hv; [destruct Hv|].
      exists c. auto.
    - intros ([[x y] z] & Hk & Hv). cbn in Hk.
      exists (((z - lo 2) * n 1 + (y - lo 1)) * n 0 + (x - lo 0)). split.
      + apply zrange_In. destruct Hn as (? & ? & ? & _). unfold N in *.
        
        set (w := (z - lo 2) * n 1 + (y - lo 1)).
        assert (0 <= w <= n 1 * n 2 - 1) as Hw.
        { unfold w. pose proof (Z.mul_le_mono_nonneg_r (z - lo 2) (n 2 - 1) (n 1) ltac:(lia) ltac:(lia)). pose proof (Z.mul_nonneg_nonneg (z - lo 2) (n 1) ltac:(lia) ltac:(lia)). lia. }
        pose proof (Z.mul_le_mono_nonneg_r w (n 1 * n 2 - 1) (n 0) ltac:(lia) ltac:(lia)). pose proof (Z.mul_nonneg_nonneg w (n 0) ltac:(lia) ltac:(lia)).
        lia.
      + rewrite thread_in by (auto; lia). replace (x - lo 0 + lo 0) with x by lia. replace (y - lo 1 + lo 1) with y by lia.
        replace (z - lo 2 + lo 2) with z by lia. exact Hv. }
  destruct (consistent_outcome (zrange 0 (threads block N)) (thread n lo body) m' xs) as (G1 & G2); auto.
  - apply zrange_NoDup.
  - intros t Hi. apply zrange_In in Hi. destruct (T t ltac:(lia)) as [->|(c & Hk & -> & Ot)]; [exact I|].
    eapply sep_mono; [|apply Hs; exact Hk]. intros a i (t' & v & Hi' & Ne & Hv). apply zrange_In in Hi'.
    destruct (Ot t' ltac:(lia) Ne) as [E|(c' & Hk' & E & Nc)]; rewrite E in Hv; [destruct Hv|]. exists c', v. auto.
  - intros a i v v' H1 H2. apply S1 in H1. apply S1 in H2. destruct H1 as (c & Hk & Hv), H2 as (c' & Hk' & Hv'). eauto.
  - split.
    + intros c a i v Hk Hv. apply G1. apply S1. eauto.
    + intros a i H. apply G2. intros v Hv. apply S1 in Hv. destruct Hv as (c & Hk & Hv). eapply H; eauto.
Qed.

Lemma memcpy_outcome dst src n m' xs : dst <> src ->
  outcome size (memcpy (A := A) (X := X) dst src n) m0 (Ok (m', xs)) ->
  forall a i, m' a i = if (a =? dst) && (0 <=? i) && (i <? n) then m0 src i else m0 a i.
Proof.
  intros Hne Ho. unfold memcpy in Ho.
  destruct (consistent_outcome (zrange 0 n) (fun i => Fetch src i (fun v => Store dst i v (Ret []))) m' xs) as (G1 & G2); auto.
  - apply zrange_NoDup.
  - intros t Ht. cbn. split; [|exact I]. intros (t' & v & _ & _ & [E|[]]). congruence.
  - intros a i v v' (t & _ & [E|[]]) (t' & _ & [E'|[]]). congruence.
  - intros a i. destruct (Z.eqb_spec a dst) as [->|Na]; cbn.
    + destruct (Z.leb_spec 0 i); cbn.
      * destruct (Z.ltb_spec i n).
        -- apply G1. exists i. split; [apply zrange_In; lia|cbn; auto].
        -- apply G2. intros v (t & Ht & [E|[]]). apply zrange_In in Ht. injection E as <- _. lia.
      * apply G2. intros v (t & Ht & [E|[]]). apply zrange_In in Ht. injection E as <- _. lia.
    + apply G2. intros v (t & Ht & [E|[]]). congruence.
Qed.
End Writes.

(** * Loops whose accesses are inside the arrays have a finished run *)
Section Fine.
Context {A X : Type} (size : Z -> Z).
Notation prog := (prog A X).
Fixpoint fine (p : prog) : Prop :=
  match p with
  | Ret _ => True
  | Fetch a i k => inside size a i = true /\ forall v, fine (k v)
  | Store a i v k => inside size a i = true /\ fine k
  | Fail => False
  end.
Lemma fine_run p : fine p -> forall m, exists r, run size p m = Ok r.
Proof.
  induction p as [xs|a i k IH|a i v k IH|]; cbn; intros H m; eauto.
  - destruct H as [-> H]. apply IH. apply H.
  - destruct H as [-> H]. apply IH. exact H.
  - destruct H.
Qed.
Lemma fine_loop (ps : list prog) : Forall fine ps -> forall m, exists r, run_loop size ps m = Ok r.
Proof.
  intros H m. unfold run_loop. generalize (@nil X) as ys. revert m. induction H as [|p ps Hp _ IH]; intros m ys; cbn [fold_res]; eauto.
  destruct (fine_run p Hp m) as ((m1 & x1) & E). cbn [fst]. rewrite E. cbn. apply IH.
Qed.
Lemma fine_loops (pss : list (list prog)) : Forall (Forall fine) pss -> forall m, exists r, run_loops size pss m = Ok r.
Proof.
  intros H m. unfold run_loops. generalize (@nil X) as ys. revert m. induction H as [|p ps Hp _ IH]; intros m ys; cbn [fold_res]; eauto.
  destruct (fine_loop p Hp m) as ((m1 & x1) & E). cbn [fst]. rewrite E. cbn. apply IH.
Qed.
Lemma fine_kernel block n lo (body : Z -> Z -> Z -> prog) : good n ->
  (forall c, inkernel n lo c -> fine (atcell body c)) -> Forall fine (kernel block n lo body).
Proof.
  intros Hn H. rewrite kernel_good by exact Hn. apply Forall_forall. intros p Hp. apply in_map_iff in Hp. destruct Hp as (t & <- & Ht).
  apply zrange_In in Ht. destruct (thread_coords n t Hn ltac:(lia)) as (Hx & Hy & Hz & Et & Hzz).
  destruct (Z_lt_dec t (n 0 * n 1 * n 2)) as [L|L]; [|rewrite thread_out by (auto; lia); exact I].
  apply Hzz in L. rewrite Et, thread_in by (auto; lia).
  apply (H (t mod n 0 + lo 0, (t / n 0) mod n 1 + lo 1, t / (n 0 * n 1) + lo 2)). cbn. lia.
Qed.
Lemma fine_memcpy dst src n : n <= size dst -> n <= size src -> Forall fine (memcpy (A := A) (X := X) dst src n).
Proof.
  intros Hd Hs. apply Forall_forall. intros p Hp. apply in_map_iff in Hp. destruct Hp as (t & <- & Ht). apply zrange_In in Ht.
  assert (I : forall a, n <= size a -> inside size a t = true).
  { intros a Ha. unfold inside. destruct (Z.leb_spec 0 t), (Z.ltb_spec t (size a)); try lia; reflexivity. }
  cbn. rewrite !I by assumption. auto.
Qed.
End Fine.
